# Formal model of glicol — design

Everything under `rocq/theories` (logical name `Verif`) is a hand-written Gallina
model of the Rust/JS sources in `/repo`, read as text (the code was not built or run).
Each definition cites the file and lines it models and states its simplifications.

## 1. Layers

| file | contents |
|---|---|
| `Base.v`, `Text.v` | panics as values (`res`), hash-map iteration order (`shuffle`), std string functions |
| `F32.v`, `F64.v` | IEEE binary32/64 arithmetic from the stdlib `SpecFloat` (computable, no axioms), Rust `as` casts, decimal literals |
| `Graph.v` | petgraph `StableDiGraph`, `DfsPostOrder`, glicol's `Processor::process` |
| `Node.v`, `NodesBasic.v`, `NodesFilter.v`, `NodesSeq.v` | one state machine per audio node (`rs/synth/src/node`), including ring buffers |
| `Compound.v` | the sum of all nodes; nodes that own a graph (bd, sn, hh, synths, plate, ...) |
| `Engine.v` | `AudioContext` and `Engine` (`update_with_code`, `next_block`, `send_msg`, `set_bpm`, `reset`, ...), generic in the language |
| `Ast.v`, `Instance.v` | `Component`, `makenode`, `all_references`; the engine over the real nodes |
| `Peg.v`, `Grammar.v`, `Parse.v` | pest's semantics, `glicol.pest` rule by rule, `get_ast` |
| `Wasm.v` | `rs/wasm/src/lib.rs`: the result bytes of an update, the copies of `process` |
| `JsRing.v` | `js/npm/ringbuf.js` with an interleaving semantics of its atomic operations |
| `*Proofs.v` (among them `WeightProofs.v`: invariants of every node of every reachable engine; `FullProofs.v`: all buffers are full), `Reads.v`, `Range.v`, `FloatR.v`, `DoubleR.v`, `Bars.v` | lemmas (no modelling) |
| `Stream.v`, `Syntax.v` | specification vocabulary: playing one node over many blocks; the notation of programs |
| `Demo.v`, `Toy.v`, `Session.v` | a concrete platform, a toy language, whole sessions: examples and counterexamples only |
| `Props_*.v` | the property theorems, each with an `Example` meeting its hypotheses |

## 2. Modelling decisions

* **Panic** is a value (`Panic`), never a default. `usize` subtraction takes a build
  profile (`debug` panics, `release` wraps) and the width of `usize` is a parameter. Sample
  clocks are unbounded `Z` (the code uses `usize`; wrap-around of a 64-bit clock is out of scope).
* **f32**: `spec_float` with `SFadd/SFmul/SFdiv/SFsqrt` at precision 24, emax 128:
  exactly IEEE round-to-nearest-even, NaN payloads collapsed. `sin`, `cos`, `exp`, `powf`
  and the noise generator are fields of the record `platform`; theorems hold for any value of them.
* **HashMap iteration order** is an arbitrary permutation, chosen per iteration
  (`shuffle` oracle); theorems quantify over it.
* **petgraph**: index reuse through a LIFO free list, neighbours listed newest edge
  first, parallel edges and self loops allowed.
* The DFS order is computed before the nodes are processed (processing does not change edges).
* **Feature configuration**: `use-samples` and `use-meta` on, `bela` off, as in the workspace build.
* **Text** is a byte string; the grammar is given its meaning on ASCII.
* Wherever the English claim is false of the code, the general claim is kept in
  `properties.jsonl`, a theorem `..._refuted` exhibits an input (section 5), and the part that
  holds is a theorem (suffix `_partial`).

Vocabulary used in statements: `tamely L blk e` — engine `e` is reached from a new engine by
any sequence of API calls whose updates keep the relative order of surviving components and
never repeat a component in a chain; `created P ev c ms n out` — node `n` was made for
component `c` and received the connection messages `ms`; `play` — run a node over a list of
blocks; `lane i` — the concatenation of channel `i` over all blocks.

## 3. Per-property plan and outcome

| id | plan | outcome |
|---|---|---|
| C01 | two-run bisimulation: a failed update changes only the free list of the graph | proved: `C01_failed_update_invisible` |
| C02 | first load: index table by induction over the add queue; edge list equals the ideal edge list | proved: `C02_first_program_as_written` |
| C03 | diff of duplicate-free, order-preserving chains; alignment invariant over histories | proved: `C03_edit_converges_and_keeps_state` |
| C04 | positive part from C03 plus the origin of node states; refuted for reorderings | partial: `C04_plays_the_program_partial`, `C04_reordering_refuted`, `C04_repetition_refuted`, `C04_stale_speed_refuted` |
| C05 | positive part for tame histories; refuted with repeated components | partial: `C05_no_panic_partial`, `C05_duplicate_component_refuted`, `C05_repetition_refuted`, `C05_unimplemented_nodes_refuted` |
| C06 | corollary of C03; refuted with repeated references | partial: `C06_resubmit_partial`, `C06_repeated_reference_refuted` |
| C07 | invariant over all histories | proved: `C07_no_leak` |
| C08 | iff statement over the reference check and the reference lists | proved: `C08_missing_references_reported` |
| C09 | corollary of the edge characterisation | proved: `C09_loose_reference` |
| C10 | corollary of the edge characterisation | proved: `C10_audible_chains` |
| C11 | invariant: the node of ~input has two full channels and no inputs; refuted after `reset` | partial: `C11_available_partial`, `C11_read_partial`, `C11_after_reset_refuted`, `C11_shadowed_refuted`, `C11_stale_input_refuted` |
| C12 | frame theorem for one command, sequential composition; refuted totality | partial: `C12_one_command_partial`, `C12_unknown_chain`, `C12_in_order`, `C12_white_space`, `C12_any_string`, `C12_position_refuted`, `C12_arrange_refuted`, `C12_parameter_refuted`, `C12_chain_position_refuted` |
| C13 | invariant on the input lists of a seq; refuted with repeated references | partial: `C13_seq_references_partial`, `C13_repeated_reference_refuted` |
| C14 | delivery to every node, exact commutation for seq; refuted for arrange | partial: `C14_reaches_every_node_partial`, `C14_seq_partial`, `C14_arrange_ignores_tempo_refuted` |
| C15 | invariant on input-order lists through tame histories | proved: `C15_inputs_told_apart`, `C33_modulated_in_program` |
| C16 | DFS post-order theory on the petgraph model | proved: `C16_heard_nodes_processed_once` |
| C17 | DFS post-order theory; inputs per component over tame histories | proved: `C17_inputs_before_use`, `C17_component_inputs` |
| C18 | termination of the DFS; position of back edges | proved: `C18_feedback_total`, `C18_feedback_reads_previous_block` |
| C19 | frame of the processor | proved: `C19_silent_parts_frozen` |
| C20 | permutation invariance without order-dependent nodes and feedback; refuted for three summands | partial: `C20_hash_order_irrelevant_partial`, `C20_hash_order_refuted` |
| C21 | the destination node against a fold | proved: `C21_output_mix`, `C21_output_of_program`, `C21_block_shape`, `C21_nodes_full`, `C21_every_sample`, `C21_two_chains_any_order`, `C21_three_chains_order_refuted` |
| C22 | stream semantics of the ring buffer | proved: `C22_delayn_exact` |
| C23 | stream semantics; refuted on the right channel | partial: `C23_delayn_stereo_partial`, `C23_delayn_stereo_refuted` |
| C24 | stream semantics of the ring buffer | proved: `C24_delayms_stereo`, `C24_delayms_mono` |
| C25 | closed form over unbounded time | proved: `C25_imp_periodic`, `C25_imp_audible` |
| C26 | positive range from C25; refuted outside | partial: `C25_imp_periodic`, `C26_imp_any_frequency_refuted` |
| C27 | exact output of the clock arithmetic over unbounded time; rounding bounds with Flocq | partial: `C27_seq_partial`, `C27_one_group_partial`, `C27_later_groups_silent`, `C27_groups_refuted`, `C27_exact_position_refuted` |
| C28 | exact output, wired and unwired | proved: `C28_seq_wired`, `C27_seq_partial` |
| C29 | closed form | proved: `C29_speed_once_per_block`, `C28_seq_wired` |
| C30 | index bounds through f64 rounding (Flocq) | partial: `C30_choose_partial`, `C30_choose_never_panics`, `C30_choose_refuted` |
| C31 | Flocq bridge: Sterbenz lemma for the wrap step | proved: `C31_osc_bounded`, `C31_osc_modulated` |
| C32 | refuted outside the range of C31 | partial: `C31_osc_bounded`, `C32_any_frequency_refuted` |
| C33 | pointwise, with order messages | proved: `C33_number`, `C33_reference`, `C33_modulated_in_program` |
| C34 | piecewise closed form; refuted at the ends | partial: `C34_points_partial`, `C34_points_looping_partial`, `C34_debug_build_panics`, `C34_start_and_hold_refuted`, `C34_debug_build_refuted`, `C34_looping_refuted`, `C34_empty_refuted` |
| C35 | explicit envelope recurrence | partial: `C35_envperc_partial`, `C35_untriggered_refuted` |
| C36 | case analysis on the gate, rounding bounds | proved: `C36_adsr` |
| C37 | multiset of voices against their trigger times | partial: `C37_sampler`, `C37_voice_ends`, `C37_sampler_partial`, `C37_voices_end_refuted` |
| C38 | exact trigger times of the pattern | partial: `C38_psampler`, `C38_every_cycle`, `C38_voice`, `C38_outside`, `C38_end_event_refuted`, `C38_mixed_channels_refuted`, `C38_tempo_refuted` |
| C39 | clock arithmetic | proved: `C39_arrange` |
| C40 | square-root bounds | partial: `C40_pan`, `C40_unclamped_refuted` |
| C41 | recurrence | partial: `C41_onepole_partial`, `C41_onepole_modulated`, `C41_onepole_modulated_refuted` |
| C42 | recurrence | partial: `C42_lpf_partial`, `C42_hpf_partial`, `C42_current_sample_refuted` |
| C43 | ring buffer with feedback | partial: `C43_allpass_partial`, `C43_allpass_refuted` |
| C44 | classification of nodes by the channels they write | partial: `C44_one_channel_partial`, `C44_left_only_nodes`, `C44_mono_on_both_channels_refuted` |
| C45 | set of sounding notes over unbounded time; Flocq bounds of the envelope; invariant over message streams | partial: `C45_psynth`, `C45_silence`, `C45_psynth_silence`, `C45_envelope`, `C45_rates`, `C45_psynth_bound`, `C45_msgsynth`, `C45_msgsynth_silence`, `C45_msgsynth_envelope_refuted`, `C45_msgsynth_refuted` |
| C46 | determinism of the model in the seed | proved: `C46_noise_deterministic` |
| C47 | the inner graph run as a chain | proved: `C47_synth`, `C47_bd`, `C47_hh`, `C47_sn` |
| C48 | Flocq: nearest f32 of a decimal; print and parse back | partial: `C48_literal_nearest`, `C48_number_nearest`, `C48_written_exactly`, `C48_print_and_read_partial`, `C48_every_program_has_a_text_partial` |
| C49 | arithmetic of the pattern parser | partial: `C49_one_group_partial`, `C49_groups_refuted` |
| C50 | PEG proofs | partial: `C50_eval_code_partial`, `C50_eval_code_refuted` |
| C51 | PEG proofs | proved: `C51_no_line_dropped` |
| C52 | PEG proofs | partial: `C52_references_partial`, `C52_marked_names_partial`, `C52_references_refuted`, `C52_reserved_never_read` |
| C53 | PEG proofs over a notation | partial: `C53_layout_partial`, `C53_same_meaning_partial`, `C53_blank_line_refuted`, `C53_line_break_refuted`, `C53_crlf_refuted` |
| C54 | termination of the PEG interpreter | partial: `C54_parser_terminates`, `C54_parse_total_partial`, `C54_parse_total_refuted` |
| C55 | byte-level model of the result buffer | proved: `C55_status`, `C55_class`, `C55_page_text`, `C55_page_names_error` |
| C56 | model of the two copies | proved: `C56_left_then_right`, `C56_speakers` |
| C57 | small-step interleaving semantics, ghost history | proved: `C57_fifo`, `C57_push_room`, `C57_pop_ready`, `C57_push_never_waits`, `C57_pop_never_waits` |
| C58 | same model | partial: `C58_full_method_partial`, `C58_full_refuted` |
| C59 | block-splitting theorem per node | partial: `C59_split_partial`, `C59_choose_refuted`, `C59_speed_refuted`, `C59_lpf_refuted`, `C59_rhpf_refuted`, `C59_seq_refuted` |
| C60 | PEG proofs | partial: `C60_spellings_partial`, `C60_msg_synth_refuted`, `C60_sendpass_refuted`, `msg_synth_is_get` |
| C61 | value/memory split per node; refutations | partial: `C61_fresh_partial`, `C61_any_time_partial`, `C61_as_created_partial`, `C61_osc_continues_partial`, `C61_pan_refuted`, `C61_delayn_zero_refuted`, `C61_delayn_forgets_refuted` |
| C62 | no node panics on full blocks from the sources it is wired to; induction over the visiting order and over blocks; refutations | partial: `C62_next_block_plays_partial`, `C62_plays_for_ever_partial`, `C62_accepted_programs_panic_refuted` |
| C63 | rounding bounds | proved: `C63_onepole_bounded` |
| C64 | recurrence over unbounded time | proved: `C64_osc_phase`, `C64_osc_phase_modulated` |
| C65 | refuted; exact behaviour from C36 | partial: `C36_adsr`, `C65_adsr_retrigger_refuted` |
| C66 | refuted; ends proved | partial: `C66_ends_partial`, `C66_unity_pitch_refuted`, `C66_interpolation_refuted`, `C66_stereo_refuted` |
| C67 | queue model; refutations | partial: `C67_whole_program_partial`, `C67_merged_refuted`, `C67_truncated_refuted` |
| C68 | queue model; refuted | partial: `C67_whole_program_partial`, `C68_stop_refuted` |
| C69 | queue model; refuted | partial: `C57_fifo`, `C69_pop_overwrites_refuted` |
| C70 | from the laws of send_msg; refutation for a full queue | partial: `C70_burst`, `C70_two_blocks`, `C70_cut_message_refuted` |
| C71 | search in byte strings; both directions | partial: `C71_fields_partial`, `C71_long_report_throws`, `C71_fields_refuted` |
| C72 | creation does not read the rate; refutation at 48000 | partial: `C72_fixed_rate`, `C72_pitch_follows_rate_refuted` |
| C73 | C62 with an invariant in place of its state hypotheses; progress over an inductive set of sessions | proved: `C73_performance_never_panics`, `C73_text_plays` |
| C74 | C73 with an invariant on the clock of every node; bar lengths bounded below in the reals | proved: `C74_performance_never_panics`, `C74_text_plays` |
| C75 | the inputs of a node are exactly its edges (C17); fold of the input map; refutations by sessions | partial: `C75_mix_anywhere`, `C75_mix_partial`, `C75_named_twice_refuted`, `C75_names_itself_refuted` |
| C76 | input list kept across edits (C15); refutations by sessions | partial: `C76_balance_partial`, `C76_silent_refuted` |
| C77 | single input; refutation by two hash orders | partial: `C77_get_partial`, `C77_after_another_refuted` |
| C78 | Two runs from the same engine are compared node by node (`same_k`: same states and buffers for the nodes of the group, up to the order list of refless nodes, which grows with every update and never matters; `Reorder.v`). `block_same`: one block keeps that, by induction over the chains' rank and position, using C17 for the inputs and `gproc_perm` for their order. `quiet_same`: an edit elsewhere keeps it, by C03. Then induction over both histories. Wrong programs that must fail: an update that resets kept nodes, a step that runs unread nodes twice, inputs handed over in hash order to nodes that count positions. | partial: `C78_edits_elsewhere_partial`, `C78_mix_partial`, `C78_heard_partial`, `C78_unread_refuted` |
| C79 | `rolls e es`: the engines after successive blocks. Induction over the blocks with C17_component_inputs (one block: the node is processed once, on exactly the outputs of its feeders in that block): the outputs are `play` of the node from its state. Without references the inputs are nothing at the head and the predecessor's blocks elsewhere (`fed`); for a component brought in by an update `re_new` says that the state is the created one. `C79_delayn` is a sample of the node theorems that this carries into programs. | proved: `C79_component_alone`, `C79_plain_component`, `C79_new_component`, `C79_delayn` |
| C80 | A chain without references: its nodes are fed by their predecessors only, so there is no feedback, and an audible one reaches the destination. With C79 and induction along the chain, `chain_plays` (no graph in it). With one audible chain the sum of C21 has one summand. With C73 (text accepted, plays on) and C53 (the text means its lines): `C80_text_to_sound`; with C64 and the multiplier the closed form `C80_osc_gain`. | proved: `C80_chain`, `C80_only_audible`, `C80_text_to_sound`, `C80_osc_gain` |
| C81 | C78 with two engines instead of two runs of one, and a renaming between them. `pair_up` relates a node of the group to the node of the same component on the other side; `match_inputs` finds the inputs of one among the inputs of the other; `ren_eqb`: edits find the same components again (the difference of texts does not look at names beyond equality); `Rename.v`: processing looks at input names only through the lists it was given by name, so nodes that differ in those lists and in their inputs' numbers compute the same. Then one lemma `tie_*` for each thing the two sides may do, and induction. Wrong programs that must fail: processing that uses node numbers, an update that resets kept nodes, a message sent to a node by number, a difference of texts that looks at the name. | partial: `C81_side_by_side_partial`, `C81_mix_partial`, `C81_heard_partial` |
| C82 | C81 with the identical renaming and all chain names but ~input as the group; the environment and the text are shown to stay equal. Wrong programs that must fail: a reset that keeps the clock of a node, an update that looks at node numbers. | partial: `C82_replay_partial`, `C82_reset_starts_over`, `C82_same_verdict`, `C82_reset_refuted`, `C82_order_refuted` |
| C83 | `score` (inductive, no engine, graph or node index of the program in it) says what a component plays given the scores of its sources. Ranks exclude feedback; a line named by a heard line is heard; the messages of the wiring announce predecessor, then references (`trace_order`); with C79 and induction on rank and position every wanted line plays its score. `tone` gives the scores of constants, oscillators, noise, gains, offsets, lpf, hpf and onepole (parameters by number or by line) in closed form or as a recursion over samples (C33, C41, C42, C46, C64); a filter reads its cutoff once per block and a onepole given a line filters that line, which is how the code behaves (findings of C41 and C42), `C83_tone_unique` says there is only one. With C73, C53 and the sum of C21: texts to samples. `C83_mix` and `C83_patch` (Props_Mixdown.v) do the same for any number of audible lines: each block is the sum of the tones in some order of the lines. Wrong programs that must fail: inputs told apart in the wrong order, a modulated oscillator that uses the last sample of the block before, a reference wired to the first component of a line. | proved: `C83_plays_the_score`, `C83_tone`, `C83_tone_unique`, `C83_text_to_sound`, `C83_synthesis`, `C83_mix`, `C83_patch`, `C83_two_voices`, `C83_ring_modulation`, `C83_frequency_modulation`, `C83_filter_sweep` |
| C84 | `tone` (Props_Score.v) mentions the block size only in the equation of a filter swept by a line, so a patch without one has the same tones at any block size (`tone_blk`) and for any text with the same named lines (`tone_ext`); C83_patch says both engines return the sum of these tones in a hash order, and up to two summands commute (`sum_few`). The refutation runs the two filter sweeps of C83_filter_sweep at 8 and 4. | partial: `C84_same_sound_partial`, `C84_block_size_partial`, `C84_block_size_refuted` |
| C85 | `only` relates two engines that differ in the setting. The environment is read only by `diff_chains`, which creates nodes for components that are not in the old chain of the same name (`diff_chains_same`); every other part of a call is the same function of the shared fields (`step_agrees`), and the calls that are left out change only the setting (`step_sets`). Induction over the session. | proved: `C85_settings_are_silent`, `C85_same_program`, `C85_indifferent`, `C85_programs` |
| C86 | `in_step` relates two engines with the same program, settings and chain names, whatever their nodes do. Blocks and messages keep an engine in step with the other (`idle_in_step`); an update of both computes the same diff, the same chain names and therefore the same missing references (`update_in_step`). Double induction over the two sessions. | proved: `C86_timing_of_edits` |

## 4. Trusted base

* the Coq 8.16.1 kernel and `vm_compute` (used for examples, refutations and finite facts about constants);
* the standard-library axioms listed in section 6 (no axiom of this development);
* stdpp and Flocq as libraries (their proofs are checked by the kernel like ours);
* the faithfulness of the transcription. Modelled: `rs/main/src/lib.rs`, all of
  `rs/synth/src/node/**` that the feature configuration compiles, `rs/synth/src/{graph,processor,context,buffer,envelope}`
  as far as they are used, `rs/parser` (grammar and AST), `rs/wasm/src/lib.rs` (update status and process),
  `js/npm/ringbuf.js`.
  Modelled abstractly (any function): libm, the noise generator of `dasp_signal`, the
  expression evaluator of `eval` (fasteval), the script engine of `meta` (rhai), HashMap order.
  Not modelled: bela `adc`, decoding of sample files, the CLI, the web worklet, memory exhaustion,
  timing, wrap-around of 64-bit clocks, non-ASCII program text.

## 5. Findings: claims that are false of the code

Each line is backed by the named theorem: a concrete input computed by the model.

Engine (`rs/main/src/lib.rs`)
* `C04_reordering_refuted`, `C04_repetition_refuted` — an edit that only reorders components (or repeats one) is accepted, and the old order keeps playing.
* `C05_duplicate_component_refuted`, `C05_repetition_refuted` — edits of chains with repeated components panic (`chain.remove` / index out of range).
* `C05_unimplemented_nodes_refuted` — `adc`, `reverb`, `expr` parse and then panic in `makenode`.
* `C06_repeated_reference_refuted`, `C13_repeated_reference_refuted` — a `seq` that uses a reference twice gets de-duplicated inputs at creation and doubled ones at the next update, so resubmitting changes the sound.
* `C11_after_reset_refuted` — `reset()` forgets `~input`; the next block with input panics. `C11_shadowed_refuted` — so does removing a user chain called `~input`. `C11_stale_input_refuted` — an empty input slice replays the previous input.
* `C12_position_refuted` — a message to a position past the end of a chain panics.
* `C14_arrange_ignores_tempo_refuted` — `set_bpm` has no effect on a running `arrange`.
* `C20_hash_order_refuted`, `C21_three_chains_order_refuted` — the rounding of a sum of three chains depends on HashMap order.
* `C75_named_twice_refuted`, `C75_names_itself_refuted` — `mix ~a ~a` counts `~a` once; a `mix` that names its own chain ignores it.
* `C78_unread_refuted` — a `~` chain that nothing reads is not run: taking its reader away for a block leaves it a block behind, although its own text never changed.
* `C82_reset_refuted` — `reset` keeps the sample rate: a reset engine is not like a new one. `C82_order_refuted` — the same session in two processes may differ in the last bits (or by much more) once three chains are audible.
* `C04_stale_speed_refuted` — editing `speed 2.0 >> seq …` to `seq …` leaves the sequence at double speed.
* `C12_arrange_refuted` — a number sent to a running `arrange` panics. `C12_parameter_refuted`, `C12_chain_position_refuted` — parameter positions above 255 and positions that are no numbers act on the first parameter or component.
* `C76_silent_refuted`, `C77_after_another_refuted` — `balance ~a ~a` and `sig 4 >> balance ~a ~b` are silent; `sig 4 >> get ~b` plays either input, depending on HashMap order.
* `C62_accepted_programs_panic_refuted` — accepted programs that panic in `next_block`.

Nodes (`rs/synth/src/node`)
* `C23_delayn_stereo_refuted` — the right channel of a stereo `delayn` is never written.
* `C26_imp_any_frequency_refuted` — `imp` divides by zero or takes a remainder by zero above the sample rate and below zero.
* `C27_groups_refuted`, `C49_groups_refuted`, `C27_later_groups_silent` — the groups of a `seq` pattern are not divided by their number: every group after the first is never heard.
* `C27_exact_position_refuted` — f32 rounding moves a note one sample.
* `C30_choose_refuted` — `choose` ignores its trigger. `C32_any_frequency_refuted` — oscillators leave [0,1] for negative frequencies and above the sample rate.
* `C34_*_refuted` — `points`: silent before the first point, debug builds underflow, looping by span is wrong, an empty list panics.
* `C35_untriggered_refuted` — `envperc` plays one envelope without a trigger. `C65_adsr_retrigger_refuted` — re-opening the gate jumps to 0.
* `C37_voices_end_refuted` — a tiny positive trigger overflows the duration of a voice, which is never freed.
* `C40_unclamped_refuted`, `C61_pan_refuted` — `pan` clamps in messages but not at creation.
* `C41_onepole_modulated_refuted` — a modulated `onepole` swaps signal and rate. `C42_current_sample_refuted` — the biquads omit the current sample.
* `C43_allpass_refuted` — `apfmsgain` with a delay under one sample panics.
* `C44_mono_on_both_channels_refuted` — several nodes write the left channel only.
* `C61_delayn_zero_refuted`, `C61_delayn_forgets_refuted` — setting `delayn` to 0 panics; setting it to its own value forgets the delay line.
* `C66_*_refuted` — the sampler scales its index by (len-1)/len, swaps the interpolation weights and offsets the right channel.
* `msgsynth` exchanges attack and decay: a note starts at (attack+decay)/decay and ends at (attack+decay)/attack of its level, then stops at once; with attack 0.0001 and decay 0.001 the envelope reaches 10.9 (C45).
* `psampler`: an event at or after the end of the pattern is never played; a mono voice overwrites the right channel of the stereo voices before it; a tempo change never reaches a running pattern (C38).
* The size of the audio block is audible: `choose` draws once per block, `speed` sends its number at the start of every block, a modulated `lpf`/`rhpf` reads one sample of the modulator per block, `seq` takes its speed from the first two samples of each block (C59).
Parser (`rs/parser`)
* `C50_eval_code_refuted`, `C54_parse_total_refuted` — `eval` strips its first and last byte whatever they are; one byte panics.
* `C52_references_refuted`, `C52_reserved_never_read` — chain names beginning with a node name (also `r`) can be defined but never referenced.
* `C53_blank_line_refuted`, `C53_line_break_refuted`, `C53_crlf_refuted` — a blank line before `>>`, a line break after `>>`, and CR LF are syntax errors.
* `C60_msg_synth_refuted`, `C60_sendpass_refuted` — two documented spellings are unusable.
* `C84_block_size_refuted` — a filter whose cutoff is another line reads the cutoff once per block, so the same text sounds different at different block sizes.
* `C85_same_program`, `C85_new_sine` — `set_sr` reaches only nodes created later: a running sine keeps its old pitch even when its text is submitted again.
* `js/npm/ringbuf.js` `full()` returns the negation of what it says (C58); `pop` copies past the elements it reports (C69).
* Two `run()` calls within one audio block reach the engine as one text; a text longer than the queue is cut (C67); `stop()` sends zero bytes, which the worklet ignores (C68); a control message cut by a full queue still acts, with another value (C70).
* bd, sn, hh, sawsynth, squsynth, trisynth and plate always run at 44100 samples a second: at another engine rate their pitch, envelopes and delays are off by the quotient (C72).
* A parse report longer than 254 bytes loses its last list and the page's error handler throws (C71). Whether pest reports that many rules is not modelled.
Seen while modelling, not stated as theorems: `rlpf`, `psampler`, `psynth` ignore
`set_bpm`; parameter positions above 255 address parameter 0; `send_msg` accepts `inf` and `nan`; a wildcard reference may
match its own chain; a NaN breakpoint makes a component different from itself, so it is recreated at every update.

## 6. Assumptions per theorem

`Print Assumptions` over every theorem named in `MANIFEST.json` (section generated from Coq's output).

Closed under the global context (no axioms), 210 theorems:

`C01_failed_update_invisible`, `C07_no_leak`, `C16_heard_nodes_processed_once`, `C17_inputs_before_use`, `C17_component_inputs`, `C18_feedback_total`, `C18_feedback_reads_previous_block`, `C19_silent_parts_frozen`, `C20_hash_order_irrelevant_partial`, `C20_hash_order_refuted`, `C02_first_program_as_written`, `C03_edit_converges_and_keeps_state`, `C05_no_panic_partial`, `C05_duplicate_component_refuted`, `C05_repetition_refuted`, `C05_unimplemented_nodes_refuted`, `C06_resubmit_partial`, `C06_repeated_reference_refuted`, `C08_missing_references_reported`, `C09_loose_reference`, `C10_audible_chains`, `C22_delayn_exact`, `C23_delayn_stereo_partial`, `C23_delayn_stereo_refuted`, `C24_delayms_stereo`, `C24_delayms_mono`, `C43_allpass_partial`, `C43_allpass_refuted`, `C21_output_mix`, `C21_output_of_program`, `C21_block_shape`, `C21_nodes_full`, `C21_every_sample`, `C21_two_chains_any_order`, `C21_three_chains_order_refuted`, `C25_imp_periodic`, `C26_imp_any_frequency_refuted`, `C30_choose_partial`, `C30_choose_refuted`, `C33_number`, `C33_reference`, `C33_modulated_in_program`, `C44_one_channel_partial`, `C44_left_only_nodes`, `C44_mono_on_both_channels_refuted`, `C46_noise_deterministic`, `C41_onepole_partial`, `C41_onepole_modulated`, `C41_onepole_modulated_refuted`, `C42_lpf_partial`, `C42_hpf_partial`, `C42_current_sample_refuted`, `C28_seq_wired`, `C27_seq_partial`, `C29_speed_once_per_block`, `C32_any_frequency_refuted`, `C39_arrange`, `C40_unclamped_refuted`, `C35_untriggered_refuted`, `C64_osc_phase`, `C64_osc_phase_modulated`, `C65_adsr_retrigger_refuted`, `C34_points_partial`, `C34_points_looping_partial`, `C34_debug_build_panics`, `C34_start_and_hold_refuted`, `C34_debug_build_refuted`, `C34_looping_refuted`, `C34_empty_refuted`, `C66_ends_partial`, `C66_unity_pitch_refuted`, `C66_interpolation_refuted`, `C66_stereo_refuted`, `C50_eval_code_partial`, `C50_eval_code_refuted`, `C51_no_line_dropped`, `C54_parser_terminates`, `C54_parse_total_partial`, `C54_parse_total_refuted`, `C53_layout_partial`, `C53_same_meaning_partial`, `C53_blank_line_refuted`, `C53_line_break_refuted`, `C53_crlf_refuted`, `C60_spellings_partial`, `C60_msg_synth_refuted`, `C60_sendpass_refuted`, `msg_synth_is_get`, `C52_references_partial`, `C52_marked_names_partial`, `C52_references_refuted`, `C52_reserved_never_read`, `C27_groups_refuted`, `C04_plays_the_program_partial`, `C04_reordering_refuted`, `C04_repetition_refuted`, `C04_stale_speed_refuted`, `C13_seq_references_partial`, `C13_repeated_reference_refuted`, `C15_inputs_told_apart`, `C11_available_partial`, `C11_read_partial`, `C11_after_reset_refuted`, `C11_shadowed_refuted`, `C11_stale_input_refuted`, `C12_one_command_partial`, `C12_unknown_chain`, `C12_in_order`, `C12_white_space`, `C12_any_string`, `C12_position_refuted`, `C12_arrange_refuted`, `C12_parameter_refuted`, `C12_chain_position_refuted`, `C14_reaches_every_node_partial`, `C14_seq_partial`, `C14_arrange_ignores_tempo_refuted`, `C61_fresh_partial`, `C61_any_time_partial`, `C61_as_created_partial`, `C61_osc_continues_partial`, `C61_pan_refuted`, `C61_delayn_zero_refuted`, `C61_delayn_forgets_refuted`, `C55_status`, `C55_class`, `C55_page_text`, `C55_page_names_error`, `C56_left_then_right`, `C56_speakers`, `C57_fifo`, `C57_push_room`, `C57_pop_ready`, `C57_push_never_waits`, `C57_pop_never_waits`, `C58_full_method_partial`, `C58_full_refuted`, `C67_whole_program_partial`, `C67_merged_refuted`, `C67_truncated_refuted`, `C68_stop_refuted`, `C69_pop_overwrites_refuted`, `C70_burst`, `C70_two_blocks`, `C70_cut_message_refuted`, `C71_fields_partial`, `C71_long_report_throws`, `C71_fields_refuted`, `C38_every_cycle`, `C38_voice`, `C38_outside`, `C38_end_event_refuted`, `C38_mixed_channels_refuted`, `C38_tempo_refuted`, `C59_split_partial`, `C59_choose_refuted`, `C59_speed_refuted`, `C59_lpf_refuted`, `C59_rhpf_refuted`, `C59_seq_refuted`, `C45_psynth`, `C45_silence`, `C45_psynth_silence`, `C45_rates`, `C45_msgsynth`, `C45_msgsynth_silence`, `C45_msgsynth_envelope_refuted`, `C45_msgsynth_refuted`, `C47_synth`, `C47_bd`, `C47_hh`, `C47_sn`, `C72_fixed_rate`, `C72_pitch_follows_rate_refuted`, `C75_mix_anywhere`, `C75_mix_partial`, `C75_named_twice_refuted`, `C75_names_itself_refuted`, `C76_balance_partial`, `C76_silent_refuted`, `C77_get_partial`, `C77_after_another_refuted`, `C78_edits_elsewhere_partial`, `C78_mix_partial`, `C78_heard_partial`, `C78_unread_refuted`, `C79_component_alone`, `C79_plain_component`, `C79_new_component`, `C79_delayn`, `C80_chain`, `C80_only_audible`, `C81_side_by_side_partial`, `C81_mix_partial`, `C81_heard_partial`, `C82_replay_partial`, `C82_reset_starts_over`, `C82_same_verdict`, `C82_reset_refuted`, `C82_order_refuted`, `C83_plays_the_score`, `C83_tone`, `C83_tone_unique`, `C83_mix`, `C85_settings_are_silent`, `C85_indifferent`, `C85_programs`, `C62_accepted_programs_panic_refuted`, `C85_same_program`, `C86_timing_of_edits`.

Uses `ClassicalDedekindReals.sig_not_dec`, `ClassicalDedekindReals.sig_forall_dec`, `FunctionalExtensionality.functional_extensionality_dep`, `Classical_Prop.classic` — the classical real numbers of the standard library, through Flocq (43 theorems):

`C25_imp_audible`, `C30_choose_never_panics`, `C31_osc_bounded`, `C31_osc_modulated`, `C40_pan`, `C63_onepole_bounded`, `C35_envperc_partial`, `C36_adsr`, `C37_sampler`, `C37_voice_ends`, `C37_sampler_partial`, `C37_voices_end_refuted`, `C49_one_group_partial`, `C49_groups_refuted`, `C27_one_group_partial`, `C27_later_groups_silent`, `C27_exact_position_refuted`, `C48_literal_nearest`, `C48_number_nearest`, `C48_written_exactly`, `C48_print_and_read_partial`, `C48_every_program_has_a_text_partial`, `C38_psampler`, `C45_envelope`, `C45_psynth_bound`, `C73_performance_never_panics`, `C73_text_plays`, `C74_performance_never_panics`, `C74_text_plays`, `C80_text_to_sound`, `C80_osc_gain`, `C83_text_to_sound`, `C83_synthesis`, `C83_patch`, `C83_two_voices`, `C83_ring_modulation`, `C83_frequency_modulation`, `C83_filter_sweep`, `C84_same_sound_partial`, `C84_block_size_partial`, `C84_block_size_refuted`, `C62_next_block_plays_partial`, `C62_plays_for_ever_partial`.

`coqchk` lists in addition the axioms of every loaded library (`Coq.Reals.Rdefinitions`, `Coq.ssr.ssrunder`), which no theorem above uses.

