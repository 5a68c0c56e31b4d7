{
 "claims": [
  {
   "property": "C01",
   "status": "proved",
   "theorems": [
    "C01_failed_update_invisible"
   ],
   "note": "any language, any history, any hash orders; later successful updates are excluded (node numbering may then differ)"
  },
  {
   "property": "C07",
   "status": "proved",
   "theorems": [
    "C07_no_leak"
   ],
   "note": ""
  },
  {
   "property": "C16",
   "status": "proved",
   "theorems": [
    "C16_heard_nodes_processed_once"
   ],
   "note": ""
  },
  {
   "property": "C17",
   "status": "proved",
   "theorems": [
    "C17_inputs_before_use",
    "C17_component_inputs"
   ],
   "note": ""
  },
  {
   "property": "C18",
   "status": "proved",
   "theorems": [
    "C18_feedback_total",
    "C18_feedback_reads_previous_block"
   ],
   "note": ""
  },
  {
   "property": "C19",
   "status": "proved",
   "theorems": [
    "C19_silent_parts_frozen"
   ],
   "note": ""
  },
  {
   "property": "C20",
   "status": "partial",
   "theorems": [
    "C20_hash_order_irrelevant_partial",
    "C20_hash_order_refuted"
   ],
   "note": "holds when no heard node depends on the order of its inputs and there is no feedback"
  },
  {
   "property": "C02",
   "status": "proved",
   "theorems": [
    "C02_first_program_as_written"
   ],
   "note": "any language satisfying lang_ok"
  },
  {
   "property": "C03",
   "status": "proved",
   "theorems": [
    "C03_edit_converges_and_keeps_state"
   ],
   "note": "after any history of plain edits (no reordering, no repeated components within a chain); reordering is C04"
  },
  {
   "property": "C05",
   "status": "partial",
   "theorems": [
    "C05_no_panic_partial",
    "C05_duplicate_component_refuted",
    "C05_repetition_refuted",
    "C05_unimplemented_nodes_refuted"
   ],
   "note": "histories of plain edits only; repeated components can panic"
  },
  {
   "property": "C06",
   "status": "partial",
   "theorems": [
    "C06_resubmit_partial",
    "C06_repeated_reference_refuted"
   ],
   "note": "programs without repeated components"
  },
  {
   "property": "C08",
   "status": "proved",
   "theorems": [
    "C08_missing_references_reported"
   ],
   "note": "all histories"
  },
  {
   "property": "C09",
   "status": "proved",
   "theorems": [
    "C09_loose_reference"
   ],
   "note": "after any history of plain edits"
  },
  {
   "property": "C10",
   "status": "proved",
   "theorems": [
    "C10_audible_chains"
   ],
   "note": "after any history of plain edits"
  },
  {
   "property": "C22",
   "status": "proved",
   "theorems": [
    "C22_delayn_exact"
   ],
   "note": ""
  },
  {
   "property": "C23",
   "status": "partial",
   "theorems": [
    "C23_delayn_stereo_partial",
    "C23_delayn_stereo_refuted"
   ],
   "note": "the right channel of a stereo input is never delayed into the output: it stays silent"
  },
  {
   "property": "C24",
   "status": "proved",
   "theorems": [
    "C24_delayms_stereo",
    "C24_delayms_mono"
   ],
   "note": "the delay is max(1, floor(ms/1000*sr)) samples; a mono input is delayed on the left channel only"
  },
  {
   "property": "C43",
   "status": "partial",
   "theorems": [
    "C43_allpass_partial",
    "C43_allpass_refuted"
   ],
   "note": "delays shorter than one sample panic"
  },
  {
   "property": "C21",
   "status": "proved",
   "theorems": [
    "C21_output_mix",
    "C21_output_of_program",
    "C21_block_shape",
    "C21_nodes_full",
    "C21_every_sample",
    "C21_two_chains_any_order",
    "C21_three_chains_order_refuted"
   ],
   "note": "the sum is taken in hash order; with three or more chains the rounding of the sum depends on that order"
  },
  {
   "property": "C25",
   "status": "proved",
   "theorems": [
    "C25_imp_periodic",
    "C25_imp_audible"
   ],
   "note": "for 0 < freq <= sr; the period is computed in f32; see C26 for other frequencies"
  },
  {
   "property": "C26",
   "status": "partial",
   "theorems": [
    "C25_imp_periodic",
    "C26_imp_any_frequency_refuted"
   ],
   "note": "frequencies above the sample rate and negative ones panic in the first block"
  },
  {
   "property": "C30",
   "status": "partial",
   "theorems": [
    "C30_choose_partial",
    "C30_choose_never_panics",
    "C30_choose_refuted"
   ],
   "note": "every sample is an element of the list and no index is out of range, but triggers are ignored"
  },
  {
   "property": "C33",
   "status": "proved",
   "theorems": [
    "C33_number",
    "C33_reference",
    "C33_modulated_in_program"
   ],
   "note": ""
  },
  {
   "property": "C44",
   "status": "partial",
   "theorems": [
    "C44_one_channel_partial",
    "C44_left_only_nodes",
    "C44_mono_on_both_channels_refuted"
   ],
   "note": "seq, choose, arrange, envperc and apfmsgain write the left channel only"
  },
  {
   "property": "C46",
   "status": "proved",
   "theorems": [
    "C46_noise_deterministic"
   ],
   "note": "the values of dasp_signal's noise are a parameter of the model"
  },
  {
   "property": "C41",
   "status": "partial",
   "theorems": [
    "C41_onepole_partial",
    "C41_onepole_modulated",
    "C41_onepole_modulated_refuted"
   ],
   "note": "the recurrence holds; a modulated onepole swaps the roles of the signal and the rate"
  },
  {
   "property": "C42",
   "status": "partial",
   "theorems": [
    "C42_lpf_partial",
    "C42_hpf_partial",
    "C42_current_sample_refuted"
   ],
   "note": "the biquad recurrence omits the current input sample"
  },
  {
   "property": "C28",
   "status": "proved",
   "theorems": [
    "C28_seq_wired",
    "C27_seq_partial"
   ],
   "note": "blocks of at least two samples when wired"
  },
  {
   "property": "C29",
   "status": "proved",
   "theorems": [
    "C29_speed_once_per_block",
    "C28_seq_wired"
   ],
   "note": ""
  },
  {
   "property": "C31",
   "status": "proved",
   "theorems": [
    "C31_osc_bounded",
    "C31_osc_modulated"
   ],
   "note": "sample rates up to 2^24; sin is the platform's sine at a phase within [0,1]"
  },
  {
   "property": "C32",
   "status": "partial",
   "theorems": [
    "C31_osc_bounded",
    "C32_any_frequency_refuted"
   ],
   "note": "negative frequencies and frequencies above the sample rate leave the range"
  },
  {
   "property": "C39",
   "status": "proved",
   "theorems": [
    "C39_arrange"
   ],
   "note": "a round takes the first whole number of samples after which all sections are over"
  },
  {
   "property": "C40",
   "status": "partial",
   "theorems": [
    "C40_pan",
    "C40_unclamped_refuted"
   ],
   "note": "positions outside [-1,1] given in the program text are not clamped"
  },
  {
   "property": "C63",
   "status": "proved",
   "theorems": [
    "C63_onepole_bounded"
   ],
   "note": ""
  },
  {
   "property": "C35",
   "status": "partial",
   "theorems": [
    "C35_envperc_partial",
    "C35_untriggered_refuted"
   ],
   "note": "exact envelope for every trigger stream; the clause 'silent when never triggered' is false: one envelope is played at start"
  },
  {
   "property": "C36",
   "status": "proved",
   "theorems": [
    "C36_adsr"
   ],
   "note": "for attack+decay lengths not overflowing usize"
  },
  {
   "property": "C64",
   "status": "proved",
   "theorems": [
    "C64_osc_phase",
    "C64_osc_phase_modulated"
   ],
   "note": ""
  },
  {
   "property": "C65",
   "status": "partial",
   "theorems": [
    "C36_adsr",
    "C65_adsr_retrigger_refuted"
   ],
   "note": "false of the code: C36_adsr gives the exact behaviour, the refutation a gate stream where the output jumps to 0"
  },
  {
   "property": "C34",
   "status": "partial",
   "theorems": [
    "C34_points_partial",
    "C34_points_looping_partial",
    "C34_debug_build_panics",
    "C34_start_and_hold_refuted",
    "C34_debug_build_refuted",
    "C34_looping_refuted",
    "C34_empty_refuted"
   ],
   "note": "every sample is characterised for ascending breakpoints: piecewise linear between them; but the first sample is the last value, after the last breakpoint the first line goes on, loops use the wrong line, debug builds and empty lists panic; lists that are not ascending are not covered"
  },
  {
   "property": "C37",
   "status": "partial",
   "theorems": [
    "C37_sampler",
    "C37_voice_ends",
    "C37_sampler_partial",
    "C37_voices_end_refuted"
   ],
   "note": "exact output for every trigger stream; voices end and are freed whenever the duration is finite; a tiny positive trigger overflows the duration and its voice never ends"
  },
  {
   "property": "C66",
   "status": "partial",
   "theorems": [
    "C66_ends_partial",
    "C66_unity_pitch_refuted",
    "C66_interpolation_refuted",
    "C66_stereo_refuted"
   ],
   "note": "only the first and the last data point are reproduced: interpolation weights are swapped, the index is scaled by (len-1)/len, the stereo right channel is offset by one"
  },
  {
   "property": "C50",
   "status": "partial",
   "theorems": [
    "C50_eval_code_partial",
    "C50_eval_code_refuted"
   ],
   "note": "the text between the quotes is kept, but the first and last byte are always stripped"
  },
  {
   "property": "C51",
   "status": "proved",
   "theorems": [
    "C51_no_line_dropped"
   ],
   "note": ""
  },
  {
   "property": "C54",
   "status": "partial",
   "theorems": [
    "C54_parser_terminates",
    "C54_parse_total_partial",
    "C54_parse_total_refuted"
   ],
   "note": "the grammar terminates on every text and errors are reported; an eval body of at most one byte panics"
  },
  {
   "property": "C53",
   "status": "partial",
   "theorems": [
    "C53_layout_partial",
    "C53_same_meaning_partial",
    "C53_blank_line_refuted",
    "C53_line_break_refuted",
    "C53_crlf_refuted"
   ],
   "note": "every program in the notation of Syntax.v (all nodes but eval and point lists without !; all separators, blank lines between lines, comments, semicolons) is read with its meaning; false for a blank line before >>, a line break after >>, CR LF"
  },
  {
   "property": "C60",
   "status": "partial",
   "theorems": [
    "C60_spellings_partial",
    "C60_msg_synth_refuted",
    "C60_sendpass_refuted",
    "msg_synth_is_get"
   ],
   "note": "every other spelling works with every argument; msg_synth is read as a reference, sendpass is never accepted"
  },
  {
   "property": "C52",
   "status": "partial",
   "theorems": [
    "C52_references_partial",
    "C52_marked_names_partial",
    "C52_references_refuted",
    "C52_reserved_never_read"
   ],
   "note": "every name marked with ~ or _ and every other name that does not begin with a node name; names beginning with a node name (also r) are rejected as arguments"
  },
  {
   "property": "C49",
   "status": "partial",
   "theorems": [
    "C49_one_group_partial",
    "C49_groups_refuted"
   ],
   "note": "a pattern of one group, of any length up to 2^24, is divided evenly; with several groups the code does not divide by the number of groups"
  },
  {
   "property": "C27",
   "status": "partial",
   "theorems": [
    "C27_seq_partial",
    "C27_one_group_partial",
    "C27_later_groups_silent",
    "C27_groups_refuted",
    "C27_exact_position_refuted"
   ],
   "note": "exact output over all blocks; each note of one group within one sample of its even share; every later group is silent; f32 rounding of the time can move a note one sample early"
  },
  {
   "property": "C48",
   "status": "partial",
   "theorems": [
    "C48_literal_nearest",
    "C48_number_nearest",
    "C48_written_exactly",
    "C48_print_and_read_partial",
    "C48_every_program_has_a_text_partial"
   ],
   "note": "every numeral is read as the nearest f32; every finite f32 has a numeral; printing and reading back is proved for all nodes except seq, choose (these have a text, but it is no function of the component), eval, and point lists that do not loop"
  },
  {
   "property": "C04",
   "status": "partial",
   "theorems": [
    "C04_plays_the_program_partial",
    "C04_reordering_refuted",
    "C04_repetition_refuted",
    "C04_stale_speed_refuted"
   ],
   "note": "histories whose edits neither reorder nor ambiguously repeat components; reordering leaves the old program playing, and taking speed away leaves the sequence at the old speed"
  },
  {
   "property": "C13",
   "status": "partial",
   "theorems": [
    "C13_seq_references_partial",
    "C13_repeated_reference_refuted"
   ],
   "note": "patterns whose references are pairwise different"
  },
  {
   "property": "C15",
   "status": "proved",
   "theorems": [
    "C15_inputs_told_apart",
    "C33_modulated_in_program"
   ],
   "note": ""
  },
  {
   "property": "C11",
   "status": "partial",
   "theorems": [
    "C11_available_partial",
    "C11_read_partial",
    "C11_after_reset_refuted",
    "C11_shadowed_refuted",
    "C11_stale_input_refuted"
   ],
   "note": "holds for histories without reset and without a user chain called ~input; false after reset, after such a chain is removed, and an empty input replays the last block"
  },
  {
   "property": "C12",
   "status": "partial",
   "theorems": [
    "C12_one_command_partial",
    "C12_unknown_chain",
    "C12_in_order",
    "C12_white_space",
    "C12_any_string",
    "C12_position_refuted",
    "C12_arrange_refuted",
    "C12_parameter_refuted",
    "C12_chain_position_refuted"
   ],
   "note": "positions inside the chain; a position past the end of the chain panics, and so does a number sent to an arrange; unreadable positions address the first component or parameter"
  },
  {
   "property": "C14",
   "status": "partial",
   "theorems": [
    "C14_reaches_every_node_partial",
    "C14_seq_partial",
    "C14_arrange_ignores_tempo_refuted"
   ],
   "note": "the message reaches every node and a sequencer obeys it exactly; false of arrange, which ignores it"
  },
  {
   "property": "C61",
   "status": "partial",
   "theorems": [
    "C61_fresh_partial",
    "C61_any_time_partial",
    "C61_as_created_partial",
    "C61_osc_continues_partial",
    "C61_pan_refuted",
    "C61_delayn_zero_refuted",
    "C61_delayn_forgets_refuted"
   ],
   "note": "for the nodes listed in [tunes]; false of pan outside [-1,1] and of delayn"
  },
  {
   "property": "C55",
   "status": "proved",
   "theorems": [
    "C55_status",
    "C55_class",
    "C55_page_text",
    "C55_page_names_error"
   ],
   "note": "the content of a parse message is an argument"
  },
  {
   "property": "C56",
   "status": "proved",
   "theorems": [
    "C56_left_then_right",
    "C56_speakers"
   ],
   "note": "for every even size up to two blocks; any other size panics"
  },
  {
   "property": "C57",
   "status": "proved",
   "theorems": [
    "C57_fifo",
    "C57_push_room",
    "C57_pop_ready",
    "C57_push_never_waits",
    "C57_pop_never_waits"
   ],
   "note": "every interleaving; sequentially consistent memory"
  },
  {
   "property": "C58",
   "status": "partial",
   "theorems": [
    "C58_full_method_partial",
    "C58_full_refuted"
   ],
   "note": "full() returns the negation"
  },
  {
   "property": "C67",
   "status": "partial",
   "theorems": [
    "C67_whole_program_partial",
    "C67_merged_refuted",
    "C67_truncated_refuted"
   ],
   "note": "holds when the queue was empty and the text fits; two submissions within one audio block are merged and a longer text is cut"
  },
  {
   "property": "C68",
   "status": "partial",
   "theorems": [
    "C67_whole_program_partial",
    "C68_stop_refuted"
   ],
   "note": "false: the empty program never reaches the engine; holds for non-empty texts (C67)"
  },
  {
   "property": "C69",
   "status": "partial",
   "theorems": [
    "C57_fifo",
    "C69_pop_overwrites_refuted"
   ],
   "note": "the reported elements are right, others of the array are overwritten"
  },
  {
   "property": "C70",
   "status": "partial",
   "theorems": [
    "C70_burst",
    "C70_two_blocks",
    "C70_cut_message_refuted"
   ],
   "note": "when every message fits in the queue; a message cut by a full queue acts with another value"
  },
  {
   "property": "C71",
   "status": "partial",
   "theorems": [
    "C71_fields_partial",
    "C71_long_report_throws",
    "C71_fields_refuted"
   ],
   "note": "for reports up to 254 bytes; for every report whose last list begins later the page throws"
  },
  {
   "property": "C38",
   "status": "partial",
   "theorems": [
    "C38_psampler",
    "C38_every_cycle",
    "C38_voice",
    "C38_outside",
    "C38_end_event_refuted",
    "C38_mixed_channels_refuted",
    "C38_tempo_refuted"
   ],
   "note": "exact output and exact start times for all patterns; false for events at or after the end of the pattern, for mono samples over stereo ones, and after a tempo change"
  },
  {
   "property": "C59",
   "status": "partial",
   "theorems": [
    "C59_split_partial",
    "C59_choose_refuted",
    "C59_speed_refuted",
    "C59_lpf_refuted",
    "C59_rhpf_refuted",
    "C59_seq_refuted"
   ],
   "note": "proved for 27 components, all messages, all streams and all ways to cut them; false for choose, speed, modulated lpf/rhpf and seq with inputs; psampler, arrange, meta and the compounds are not covered"
  },
  {
   "property": "C45",
   "status": "partial",
   "theorems": [
    "C45_psynth",
    "C45_silence",
    "C45_psynth_silence",
    "C45_envelope",
    "C45_rates",
    "C45_psynth_bound",
    "C45_msgsynth",
    "C45_msgsynth_silence",
    "C45_msgsynth_envelope_refuted",
    "C45_msgsynth_refuted"
   ],
   "note": "psynth: exact output, silence, envelope in [0,1] at the usual sample rates; msgsynth: exact output and silence under every message stream; its envelope exceeds 1, because attack and decay are exchanged"
  },
  {
   "property": "C47",
   "status": "proved",
   "theorems": [
    "C47_synth",
    "C47_bd",
    "C47_hh",
    "C47_sn"
   ],
   "note": "closed form of what the inner chain plays, sample by sample, for every input stream, block size and inner hash order; the chain runs at 44100 samples a second whatever the engine's rate (C72); needs attack+decay to fit in usize"
  },
  {
   "property": "C72",
   "status": "partial",
   "theorems": [
    "C72_fixed_rate",
    "C72_pitch_follows_rate_refuted"
   ],
   "note": "drums, synths and plate sound the same at every engine rate, so their pitch and times are wrong except at 44100"
  },
  {
   "property": "C73",
   "status": "proved",
   "theorems": [
    "C73_performance_never_panics",
    "C73_text_plays"
   ],
   "note": "release build; components covered are the ones of [calm] (no imp, seq, choose, sp, psynth, points, pattern filters, whose clocks can be set to 0 by the API, see C62); [safe_call] lists the calls, [performing] the sessions; edits are plain edits (C05 shows that others can panic)"
  },
  {
   "property": "C74",
   "status": "proved",
   "theorems": [
    "C74_performance_never_panics",
    "C74_text_plays"
   ],
   "note": "release build, blocks of at least 2 samples, noise source between -1 and 1; [song_call] lists the calls with their bounds, [in_place] the components and their places, [timed] and [told] the parameters; an arrangement may name any chains but its own, as often as it likes, and gets no numbers; not covered: what C62 does not cover (plate, eval, seq after other components or with references at the head, delays and drums modulated by a reference)"
  },
  {
   "property": "C75",
   "status": "partial",
   "theorems": [
    "C75_mix_anywhere",
    "C75_mix_partial",
    "C75_named_twice_refuted",
    "C75_names_itself_refuted"
   ],
   "note": "positive: [C75_mix_anywhere] gives the exact set of what is added at any place of a chain; [C75_mix_partial] adds the chains named by plain, distinct references other than its own; false in general: a chain named twice counts once and a chain naming itself is ignored (petgraph keeps one edge per pair in the input map, the node's own buffer is skipped); nodes that are heard and not in a feedback loop"
  },
  {
   "property": "C76",
   "status": "partial",
   "theorems": [
    "C76_balance_partial",
    "C76_silent_refuted"
   ],
   "note": "positive: at the head of a chain with two different plain references; false in general: silent with the same chain twice or after another component (the node only acts with exactly two inputs)"
  },
  {
   "property": "C77",
   "status": "partial",
   "theorems": [
    "C77_get_partial",
    "C77_after_another_refuted"
   ],
   "note": "positive: at the head of a chain with a plain reference; false after another component, where the hash order decides which of the two inputs is copied"
  },
  {
   "property": "C78",
   "status": "partial",
   "theorems": [
    "C78_edits_elsewhere_partial",
    "C78_mix_partial",
    "C78_heard_partial",
    "C78_unread_refuted"
   ],
   "note": "positive: from any engine reached by tame calls, for a group of chains in use, without feedback, made of components that have no references or tell their inputs apart by name (and get at the head), through any number of blocks, edits elsewhere as in C03, rejected texts, messages to other chains, add_sample, set_sr and set_seed; where no other chain is audible the blocks returned are sums of the same signals, and with one or two audible chains equal bit for bit; missing: arrange, mix, drums, imp and delayms with references, wildcards, set_bpm and reset in between; false for a chain that nobody reads for a while: it stands still"
  },
  {
   "property": "C79",
   "status": "proved",
   "theorems": [
    "C79_component_alone",
    "C79_plain_component",
    "C79_new_component",
    "C79_delayn"
   ],
   "note": "for components that are heard and not part of a feedback loop, in engines reached by tame calls, through any run of blocks"
  },
  {
   "property": "C80",
   "status": "proved",
   "theorems": [
    "C80_chain",
    "C80_only_audible",
    "C80_text_to_sound",
    "C80_osc_gain"
   ],
   "note": "C80_chain: inside any program and after any tame history; C80_text_to_sound: for calm components (no clock, no sample) in the notation of C53 on a new engine, release build"
  },
  {
   "property": "C81",
   "status": "partial",
   "theorems": [
    "C81_side_by_side_partial",
    "C81_mix_partial",
    "C81_heard_partial"
   ],
   "note": "the two engines may have any tame pasts; the group is loaded after that, and its edits are accepted on both sides while sample rate, tempo, seed and samples agree; for chains in use, without feedback, made of components that have no references or tell their inputs apart by name (and get at the head), steps of seq that name chains keep those names; missing: arrange, mix, drums, imp and delayms with references, wildcards; with three or more audible chains the sums may be taken in different orders"
  },
  {
   "property": "C82",
   "status": "partial",
   "theorems": [
    "C82_replay_partial",
    "C82_reset_starts_over",
    "C82_same_verdict",
    "C82_reset_refuted",
    "C82_order_refuted"
   ],
   "note": "positive: for texts as in C78 and C81 (no arrange, no ~input, chains in use, no feedback, references told apart by name), accepted by both engines or rejected by both (which C82_same_verdict proves for plain names), every block made while at most two chains are audible is the same bit for bit; false: reset keeps the sample rate, and with three audible chains the hash order decides the order of the additions"
  },
  {
   "property": "C83",
   "status": "proved",
   "theorems": [
    "C83_plays_the_score",
    "C83_tone",
    "C83_tone_unique",
    "C83_text_to_sound",
    "C83_synthesis",
    "C83_mix",
    "C83_patch",
    "C83_two_voices",
    "C83_ring_modulation",
    "C83_frequency_modulation",
    "C83_filter_sweep"
   ],
   "note": "C83_plays_the_score: after any tame history, for lines new to the engine that are audible or named by a heard line, plain references (no wildcards), every kind of component; C83_text_to_sound and C83_synthesis: a text of the notation of C53 on a new engine with one audible line, release build; C83_patch: the same with any number of audible lines, the caller gets the sum of their tones, added in an order of the lines that the hash maps choose per block (C83_two_voices: with two lines the order does not matter)"
  },
  {
   "property": "C84",
   "status": "partial",
   "theorems": [
    "C84_same_sound_partial",
    "C84_block_size_partial",
    "C84_block_size_refuted"
   ],
   "note": "positive: texts of the notation of C53 whose lines are made of constants, oscillators, noise, gains, offsets and filters as in C83, with at most two audible lines and no filter whose cutoff is a line, release build, new engines; false: a filter sweep, the same 16 samples differ between blocks of 8 and of 4; missing: the other kinds of components, and three or more audible lines, where the hash order decides the order of the additions (C82_order_refuted)"
  },
  {
   "property": "C85",
   "status": "proved",
   "theorems": [
    "C85_settings_are_silent",
    "C85_same_program",
    "C85_indifferent",
    "C85_programs"
   ],
   "note": "any engine, including sessions that panic; C85_settings_are_silent for any language with these engine functions, C85_indifferent says which components of the real language depend on which setting (for the sample rate: the listed components do not; nothing is claimed of the others)"
  },
  {
   "property": "C86",
   "status": "proved",
   "theorems": [
    "C86_timing_of_edits"
   ],
   "note": "sessions that do not panic; the verdict is the observation of each update, the running program and the names of the chains are compared at the end"
  },
  {
   "property": "C62",
   "status": "partial",
   "theorems": [
    "C62_next_block_plays_partial",
    "C62_plays_for_ever_partial",
    "C62_accepted_programs_panic_refuted"
   ],
   "note": "positive: after any tame history, in a release build, a program whose heard components are steady and ready plays every further block; this includes sequences with references after speed, sig or imp, arrangements of other chains and patterns of samples; missing: an arrangement that names its own chain, plate, eval, seq after other components or with references at the head, modulated delays, drums modulated by a reference; false in general"
  }
 ]
}