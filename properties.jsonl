{"id": "C01", "title": "A failed update leaves the running music untouched", "statement": "If update_with_code returns Err (syntax error, unknown sample or unknown reference), then every later call sequence (next_block, send_msg, set_bpm, further updates that fail) produces exactly the outputs it would have produced had the failing call never been made; the set of live nodes, their state, their connections and the chain table are unchanged.", "quantifier": "every engine state reachable by any history of API calls, every source text, every HashMap iteration order", "why_tests_cant": "the failure can occur after any number of nodes were already added or detached, for any old/new program pair and any hash order; tests sample a handful of pairs", "anchors": ["rs/main/src/lib.rs:Engine::update_with_code", "rs/main/src/lib.rs:Engine::clean_up", "rs/main/src/lib.rs:Engine::next_block"]}
{"id": "C02", "title": "The first program loaded is wired exactly as written", "statement": "After a successful update_with_code on a fresh engine, each chain of the program is represented by as many nodes as it has components, in order; consecutive nodes are connected; each reference argument connects the last node of the referenced chain to the referring node; each chain whose name has no tilde feeds the destination; and there are no other connections.", "quantifier": "every program (including ones with repeated components) and every HashMap iteration order", "why_tests_cant": "programs and iteration orders are unbounded", "anchors": ["rs/main/src/lib.rs:Engine::update_with_code", "rs/main/src/util.rs:makenode"]}
{"id": "C03", "title": "Live edits converge to the new program and keep the state of surviving nodes", "statement": "If in every chain present in both programs no component is repeated and the components common to both versions appear in the same relative order, a successful update leaves exactly the graph that loading the new program wires, and every component present in both versions keeps its node (identity, buffers and internal state).", "quantifier": "every old engine state whose graph matches its program, every new program, every HashMap iteration order", "why_tests_cant": "depends on the interplay of diffing, removal positions, insertion positions for unbounded chains", "anchors": ["rs/main/src/lib.rs:Engine::update_with_code"]}
{"id": "C04", "title": "After a successful update the engine plays the submitted program", "statement": "After any successful update_with_code(code), node order in each chain equals the component order in code, however the previous program looked (in particular when the edit only reorders nodes).", "quantifier": "every pair of successive programs", "why_tests_cant": "needs all pairs of old/new chains", "anchors": ["rs/main/src/lib.rs:Engine::update_with_code"]}
{"id": "C05", "title": "update_with_code never panics on a program that parses", "statement": "For every program accepted by the parser whose nodes can be created, update_with_code returns Ok or Err and never aborts the audio thread.", "quantifier": "every history of updates", "why_tests_cant": "panic depends on the multiset of repeated components in old and new chains", "anchors": ["rs/main/src/lib.rs:Engine::update_with_code"]}
{"id": "C06", "title": "Resubmitting the running program is a no-op on the graph", "statement": "Submitting the same program again changes neither the nodes, nor their connections (up to the order in which equal-rank connections are listed), nor any node state other than re-announcing its inputs.", "quantifier": "every program, every HashMap order, any number of resubmissions", "why_tests_cant": "must hold for all programs", "anchors": ["rs/main/src/lib.rs:Engine::update_with_code"]}
{"id": "C07", "title": "Updates do not leak nodes", "statement": "After any history of updates (successful or not), the live nodes of the graph are exactly the output node plus the nodes listed in the chain table, and no node is listed twice; memory is bounded by program size.", "quantifier": "every history of API calls that does not panic, every HashMap order", "why_tests_cant": "leaks accumulate over unbounded live coding sessions", "anchors": ["rs/main/src/lib.rs:Engine::update_with_code", "rs/main/src/lib.rs:Engine::clean_up"]}
{"id": "C08", "title": "Missing references are reported, and only those", "statement": "update_with_code fails with NonExistReference(r) exactly when some argument r of a component of the new program names a chain that is neither in the new program nor still available (the ~input chain), and r is such an argument.", "quantifier": "every old/new program pair", "why_tests_cant": "all placements of references across all node kinds and old/new diffs", "anchors": ["rs/main/src/lib.rs:handle_ref_check", "rs/parser/src/nodes.rs:Component::all_references"]}
{"id": "C09", "title": "A loose reference \"~pre..\" mixes every chain whose name starts with the prefix", "statement": "After a successful update, a component with a reference ending in \"..\" has as reference inputs exactly the last nodes of all chains whose name starts with the prefix.", "quantifier": "every program and HashMap order", "why_tests_cant": "set of matching chains is unbounded and iteration order arbitrary", "anchors": ["rs/main/src/lib.rs:Engine::update_with_code"]}
{"id": "C10", "title": "Only chains without \"~\" are audible", "statement": "After a successful update the inputs of the output node are exactly the last nodes of chains whose names contain no tilde; a ~chain influences the output only if reachable through references.", "quantifier": "every program, every history without repeated components", "why_tests_cant": "all graphs", "anchors": ["rs/main/src/lib.rs:Engine::update_with_code", "rs/synth/src/context.rs:AudioContext::connect_with_order"]}
{"id": "C11", "title": "External input stays available as ~input", "statement": "next_block with input buffers never panics and makes the given samples available to ~input, at any time in the engine life, including after reset().", "quantifier": "every history of API calls", "why_tests_cant": "histories unbounded", "anchors": ["rs/main/src/lib.rs:Engine::next_block", "rs/main/src/lib.rs:Engine::reset", "rs/main/src/lib.rs:Engine::new"]}
{"id": "C12", "title": "send_msg changes only the addressed node", "statement": "send_msg \"chain,pos,param,value\" delivers the message to exactly the node at that position and changes nothing else; commands for unknown chains are ignored; several commands separated by \";\" act in order.", "quantifier": "every message string and engine state", "why_tests_cant": "arbitrary strings", "anchors": ["rs/main/src/lib.rs:Engine::send_msg"]}
{"id": "C13", "title": "Sequencer references keep their meaning across updates", "statement": "A seq with reference notes reads, for each distinct reference letter, the chain of that letter, both right after creation and after any later resubmission.", "quantifier": "every seq pattern", "why_tests_cant": "patterns are unbounded", "anchors": ["rs/synth/src/node/sequencer/seq.rs", "rs/parser/src/nodes.rs:Component::all_references", "rs/main/src/util.rs:makenode"]}
{"id": "C14", "title": "set_bpm changes the tempo of every tempo-dependent node", "statement": "After set_bpm(b), every live node whose timing depends on the tempo behaves as if created with tempo b from then on.", "quantifier": "every engine state and b", "why_tests_cant": "all node kinds and states", "anchors": ["rs/main/src/lib.rs:Engine::set_bpm", "rs/synth/src/context.rs:send_msg_to_all", "rs/synth/src/node/sequencer/seq.rs", "rs/synth/src/node/sequencer/arrange.rs"]}
{"id": "C15", "title": "A node keeps telling its signal input from its modulation input across updates", "statement": "For every node with one predecessor in its chain and one reference, after any tame history of updates the node treats the predecessor as signal and the reference as modulation.", "quantifier": "every history of tame updates and every HashMap order", "why_tests_cant": "order bookkeeping accumulates over the history", "anchors": ["rs/synth/src/node/operator/mul.rs", "rs/main/src/lib.rs:Engine::update_with_code", "rs/synth/src/context.rs"]}
{"id": "C16", "title": "Every node that can be heard is computed exactly once per block", "statement": "In one next_block every node from which the output is reachable is processed exactly once and no other node is processed.", "quantifier": "every graph (cyclic, with parallel edges and self loops)", "why_tests_cant": "all graphs", "anchors": ["rs/synth/src/graph.rs:Processor::process"]}
{"id": "C17", "title": "In a feedback-free graph inputs are computed before they are used", "statement": "If the part of the graph that reaches the output is acyclic, each node is processed after all of its inputs, so it reads this block (not the previous block) of every input.", "quantifier": "every acyclic graph and any edge insertion order", "why_tests_cant": "all graphs", "anchors": ["rs/synth/src/graph.rs:Processor::process"]}
{"id": "C18", "title": "Feedback loops do not hang the audio thread and read the previous block", "statement": "process terminates on every graph; when an input of a node is processed after it, the node reads that input buffer as it was before the block.", "quantifier": "every graph", "why_tests_cant": "all cyclic graphs", "anchors": ["rs/synth/src/graph.rs:Processor::process"]}
{"id": "C19", "title": "Silent parts are frozen", "statement": "Nodes from which the output cannot be reached keep state and buffers unchanged during next_block.", "quantifier": "every graph", "why_tests_cant": "all graphs", "anchors": ["rs/synth/src/graph.rs:Processor::process"]}
{"id": "C20", "title": "Output does not depend on HashMap iteration order", "statement": "For a given history of calls, the produced samples do not depend on the (randomised) iteration order of the hash maps used by the engine.", "quantifier": "every program and every pair of iteration orders", "why_tests_cant": "hash order is random per process", "anchors": ["rs/main/src/lib.rs:Engine::update_with_code", "rs/synth/src/node/sum.rs", "rs/synth/src/graph.rs"]}
{"id": "C21", "title": "The output mixes all audible chains", "statement": "Each output channel is the sum of the corresponding channels of all audible chains (mono chains contribute channel 0 to both) and silence when there is none.", "quantifier": "every set of audible chains and block contents", "why_tests_cant": "all inputs", "anchors": ["rs/synth/src/node/sum.rs:Sum2"]}
{"id": "C22", "title": "delayn delays by exactly n samples", "statement": "For mono input the left output at time t is the input at t-n (silence for t<n), for every n, over unlimited blocks and independent of block size.", "quantifier": "every n, every input stream", "why_tests_cant": "streams unbounded", "anchors": ["rs/synth/src/node/delay/delayn.rs"]}
{"id": "C23", "title": "delayn treats both channels of a stereo input alike", "statement": "For stereo input both channels are delayed by n.", "quantifier": "every stereo stream", "why_tests_cant": "streams unbounded", "anchors": ["rs/synth/src/node/delay/delayn.rs"]}
{"id": "C24", "title": "delayms delays by floor(ms/1000*sr) samples", "statement": "With a constant delay, left output at t is left input at t-d with d = max(1, floor(ms/1000*sr)) the number of samples of the delay, and stereo inputs are delayed on both channels.", "quantifier": "every delay, sample rate and stream", "why_tests_cant": "streams unbounded", "anchors": ["rs/synth/src/node/delay/delayms.rs"]}
{"id": "C25", "title": "imp emits a unit impulse exactly every floor(sr/freq) samples", "statement": "Output is 1.0 at sample t iff t is a multiple of the period and 0.0 otherwise, across blocks.", "quantifier": "every positive frequency not above the sample rate, unbounded time", "why_tests_cant": "time unbounded", "anchors": ["rs/synth/src/node/signal/imp.rs"]}
{"id": "C26", "title": "imp accepts every frequency", "statement": "imp never panics whatever number the user gives as frequency.", "quantifier": "every f32 frequency and sample rate", "why_tests_cant": "f32 space", "anchors": ["rs/synth/src/node/signal/imp.rs"]}
{"id": "C27", "title": "seq fires each event once per bar at its position", "statement": "Without a speed input, in each bar of floor(240/bpm*sr) samples each note i of n with subdivision j of m fires exactly at floor((i + j/m)/n * bar) samples into the bar and nowhere else.", "quantifier": "every pattern, tempo, sample rate, unbounded time", "why_tests_cant": "time unbounded", "anchors": ["rs/synth/src/node/sequencer/seq.rs", "rs/parser/src/nodes.rs:Seq"]}
{"id": "C28", "title": "seq emits the pitch ratio of the note", "statement": "Each fired event outputs 2^((note-60)/12) where note is the number written or, for a reference, the value the referenced chain has at that very sample; 0 (a rest) gives 0 and samples without event are 0.", "quantifier": "every pattern", "why_tests_cant": "patterns unbounded", "anchors": ["rs/synth/src/node/sequencer/seq.rs"]}
{"id": "C29", "title": "speed announces its value once per block", "statement": "speed writes its value in the first sample and zero elsewhere, and a seq/arrange fed by it multiplies its tempo.", "quantifier": "every value and block", "why_tests_cant": "unbounded", "anchors": ["rs/synth/src/node/sequencer/speed.rs", "rs/synth/src/node/sequencer/seq.rs"]}
{"id": "C30", "title": "choose only ever outputs notes from its list", "statement": "On every trigger choose outputs an element of its list converted to pitch; zero notes are rests; the output is zero without trigger.", "quantifier": "every list, seed and trigger stream", "why_tests_cant": "random streams unbounded", "anchors": ["rs/synth/src/node/sequencer/choose.rs"]}
{"id": "C31", "title": "Oscillator phase stays in [0,1] forever", "statement": "For 0 <= freq <= sr the phase of sin/saw/squ/tri stays within [0,1] and the output within [-1,1] (saw, squ, tri) for every number of samples despite f32 rounding.", "quantifier": "every frequency, sample rate and time", "why_tests_cant": "rounding over unbounded time", "anchors": ["rs/synth/src/node/oscillator/mod.rs", "rs/synth/src/node/oscillator/saw_osc.rs"]}
{"id": "C32", "title": "Oscillators are bounded for every frequency the user can type", "statement": "The phase stays in [0,1] for any frequency including negative ones and modulated ones.", "quantifier": "every f32", "why_tests_cant": "f32 space", "anchors": ["rs/synth/src/node/oscillator/mod.rs"]}
{"id": "C33", "title": "mul and add combine signals sample by sample", "statement": "With a number, output = input op value on every channel; with a reference, output = input op modulator sample for sample.", "quantifier": "every block contents", "why_tests_cant": "all inputs", "anchors": ["rs/synth/src/node/operator/mod.rs", "rs/synth/src/node/operator/mul.rs", "rs/synth/src/node/operator/add.rs"]}
{"id": "C34", "title": "points interpolates linearly between breakpoints", "statement": "For increasing breakpoints the output at sample t between breakpoints (t1,v1),(t2,v2) is v1+(v2-v1)*(t-t1)/(t2-t1), starting at the first point and holding or looping after the last.", "quantifier": "every breakpoint list and time", "why_tests_cant": "unbounded", "anchors": ["rs/synth/src/node/signal/points.rs", "rs/parser/src/nodes.rs:Points"]}
{"id": "C35", "title": "envperc plays one attack/decay envelope per trigger", "statement": "After a positive trigger of value v the output is v*(1/A,2/A,...) for the attack then falls to zero over the decay, and is zero when never triggered.", "quantifier": "every trigger stream", "why_tests_cant": "unbounded", "anchors": ["rs/synth/src/node/envelope/envperc.rs"]}
{"id": "C36", "title": "adsr stays within [0,1] and follows gate", "statement": "While the gate is low long enough the output is zero; during attack it rises from zero; output always within [0,1] for sustain in [0,1].", "quantifier": "every gate stream", "why_tests_cant": "unbounded", "anchors": ["rs/synth/src/node/envelope/adsr.rs"]}
{"id": "C37", "title": "sampler plays the sample once per trigger and frees voices", "statement": "Each positive trigger starts a voice that plays the sample from its start; voices end after the sample ended; the number of voices is bounded by the sample length; without triggers output is silent after the sample ends.", "quantifier": "every trigger stream and sample", "why_tests_cant": "unbounded", "anchors": ["rs/synth/src/node/sampling/sampler.rs"]}
{"id": "C38", "title": "psampler plays each event at its position in every cycle", "statement": "Each event starts playing at its time position in each cycle.", "quantifier": "every pattern and time", "why_tests_cant": "unbounded", "anchors": ["rs/synth/src/node/sampling/psampler.rs"]}
{"id": "C39", "title": "arrange plays its sections for their number of bars and loops", "statement": "With events (r1,b1)...(rk,bk), sample t of output is the sample of the section whose cumulative bar interval contains t modulo the total.", "quantifier": "every arrangement and time", "why_tests_cant": "unbounded", "anchors": ["rs/synth/src/node/sequencer/arrange.rs"]}
{"id": "C40", "title": "pan keeps the mono signal identical up to gain and is bounded by it", "statement": "Pan p in [-1,1] multiplies left by sqrt((1-p)/2) and right by sqrt((1+p)/2); both gains are within [0,1]; other positions are clamped.", "quantifier": "every p and block", "why_tests_cant": "f32 space", "anchors": ["rs/synth/src/node/effect/pan.rs"]}
{"id": "C41", "title": "onepole with a number is the recursive filter b0*x + a1*y", "statement": "y[t] = b0*x[t] + a1*y[t-1] across blocks; with a modulator the roles of input and modulator are as declared.", "quantifier": "every stream", "why_tests_cant": "unbounded", "anchors": ["rs/synth/src/node/filter/onepole.rs"]}
{"id": "C42", "title": "lpf/hpf implement the stated biquad across blocks", "statement": "Output follows the direct-form difference equation with coefficients from cutoff and q, state carried over blocks.", "quantifier": "every stream", "why_tests_cant": "unbounded", "anchors": ["rs/synth/src/node/filter/rlpf.rs", "rs/synth/src/node/filter/rhpf.rs"]}
{"id": "C43", "title": "All-pass filters never panic for a legal parameter", "statement": "apfmsgain with any non-negative delay never panics and implements y[t] = -g x[t] + x[t-d] + g y[t-d].", "quantifier": "every delay and gain", "why_tests_cant": "f32 space", "anchors": ["rs/synth/src/node/filter/apfmsgain.rs"]}
{"id": "C44", "title": "Mono signals are heard on both channels", "statement": "A chain ending in any source or effect node makes both output channels carry the signal.", "quantifier": "every node kind and input", "why_tests_cant": "node x input space", "anchors": ["rs/synth/src/node/delay/delayms.rs", "rs/synth/src/node/sequencer/seq.rs", "rs/synth/src/node/filter/apfmsgain.rs", "rs/synth/src/node/envelope/envperc.rs"]}
{"id": "C45", "title": "msgsynth/psynth envelopes stay within [0,1]", "statement": "The amplitude envelope applied to a note never exceeds 1 and the note becomes silent after attack plus decay.", "quantifier": "every message stream", "why_tests_cant": "unbounded", "anchors": ["rs/synth/src/node/synth/msgsynth.rs", "rs/synth/src/node/synth/pattern_synth.rs"]}
{"id": "C46", "title": "Same seed, same noise", "statement": "Two engines with the same seed given the same history produce the same noise/choose sequence.", "quantifier": "every seed and history", "why_tests_cant": "unbounded", "anchors": ["rs/synth/src/node/signal/noise.rs", "rs/synth/src/node/sequencer/choose.rs", "rs/main/src/lib.rs:Engine::set_seed"]}
{"id": "C47", "title": "Compound instruments equal their documented sub-chain", "statement": "bd/sn/hh and the *synth nodes output what their inner chain outputs on the same input.", "quantifier": "every input stream", "why_tests_cant": "unbounded", "anchors": ["rs/synth/src/node/compound/mod.rs", "rs/synth/src/node/compound/bd.rs"]}
{"id": "C48", "title": "Numbers in source reach the node exactly", "statement": "A decimal literal in the source is delivered to the node as the nearest f32 of the literal; printing and reparsing a program gives the same components.", "quantifier": "every literal / program", "why_tests_cant": "infinite programs", "anchors": ["rs/parser/src/lib.rs:get_ast", "rs/parser/src/nodes.rs"]}
{"id": "C49", "title": "seq notation divides time evenly", "statement": "A seq of n blanks-separated groups gives group i start i/n and its m notes evenly spaced within 1/n.", "quantifier": "every pattern text", "why_tests_cant": "patterns unbounded", "anchors": ["rs/parser/src/nodes.rs:Seq::parse"]}
{"id": "C50", "title": "eval passes exactly the code between the backquotes", "statement": "The code given to an eval node is the text between the backquotes.", "quantifier": "every eval text", "why_tests_cant": "texts unbounded", "anchors": ["rs/parser/src/nodes.rs:CodeBlock", "rs/parser/src/glicol.pest"]}
{"id": "C51", "title": "No chain of the program is silently dropped", "statement": "Every line of an accepted program contributes a chain to the AST; when names repeat the last one wins and no other effect occurs.", "quantifier": "every program", "why_tests_cant": "programs unbounded", "anchors": ["rs/parser/src/lib.rs:get_ast"]}
{"id": "C52", "title": "Every legal chain name can be referenced", "statement": "If a line \"name: ...\" is accepted, then \"name\" can be used as a reference argument of every node taking references.", "quantifier": "every name", "why_tests_cant": "names unbounded", "anchors": ["rs/parser/src/glicol.pest:node_name"]}
{"id": "C53", "title": "Comments and separators do not change meaning", "statement": "Inserting comments, blank lines, and separators (space, tab, comma, bar) between tokens does not change the AST.", "quantifier": "every program and insertion", "why_tests_cant": "unbounded", "anchors": ["rs/parser/src/glicol.pest"]}
{"id": "C54", "title": "Parsing is total", "statement": "get_ast terminates with Ok or Err on every text and never panics.", "quantifier": "every text", "why_tests_cant": "texts unbounded", "anchors": ["rs/parser/src/lib.rs:get_ast", "rs/parser/src/nodes.rs"]}
{"id": "C55", "title": "The wasm update status buffer reports the outcome", "statement": "The 256-byte result buffer is all zero on success; on failure byte 0 is the error class and bytes 2.. hold a prefix of the message, never written out of bounds.", "quantifier": "every code text and error", "why_tests_cant": "unbounded", "anchors": ["rs/wasm/src/lib.rs:update", "rs/wasm/src/lib.rs:write_err_to_buf"]}
{"id": "C56", "title": "The wasm process call delivers left then right", "statement": "process(in, out, size) writes the left channel to the first half and right channel to the second half of out, for every even size up to 256.", "quantifier": "every size and engine state", "why_tests_cant": "unbounded", "anchors": ["rs/wasm/src/lib.rs:process"]}
{"id": "C57", "title": "Messages cross the JS ring buffer in order without loss or duplication", "statement": "For one producer and one consumer, under every interleaving of their atomic steps, the sequence of elements popped is a prefix of the sequence accepted by push, and nothing is lost.", "quantifier": "every schedule, capacity and operation history", "why_tests_cant": "schedules unbounded", "anchors": ["js/npm/ringbuf.js:RingBuffer"]}
{"id": "C58", "title": "RingBuffer.full() tells whether the buffer is full", "statement": "full() returns true iff no element can be pushed.", "quantifier": "every state", "why_tests_cant": "all states", "anchors": ["js/npm/ringbuf.js:RingBuffer.full"]}
{"id": "C59", "title": "Block size does not change the sound", "statement": "Processing a node for a stream cut in blocks of size N gives the same samples for every N (for nodes with state carried across blocks).", "quantifier": "every N and stream", "why_tests_cant": "unbounded", "anchors": ["rs/synth/src/node/delay/delayn.rs", "rs/synth/src/node/filter/onepole.rs", "rs/synth/src/node/signal/imp.rs"]}
{"id": "C60", "title": "Every documented node spelling is usable", "statement": "Each alternative spelling in the node rules of the grammar (e.g. msgsynth/msg_synth, sig/constsig, hpf/rhpf, noiz/noise, sp/sampler) is parsed as that node.", "quantifier": "every spelling in every context", "why_tests_cant": "context space unbounded", "anchors": ["rs/parser/src/glicol.pest"]}
{"id": "C61", "title": "Parameters set by send_msg to a number equal creating the node with it", "statement": "send_msg(chain,pos,0,v) makes the node behave from then on as a node created with v (state such as phase or filter memory kept).", "quantifier": "every v, every state", "why_tests_cant": "unbounded", "anchors": ["rs/synth/src/node/operator/mul.rs", "rs/synth/src/node/oscillator/sin_osc.rs", "rs/synth/src/node/delay/delayn.rs", "rs/synth/src/node/signal/constsig.rs"]}
{"id": "C62", "title": "plate/balance/mix handle any wiring accepted by the engine", "statement": "No accepted program makes next_block panic.", "quantifier": "every accepted program and time", "why_tests_cant": "unbounded", "anchors": ["rs/synth/src/node/effect/plate.rs", "rs/synth/src/node/effect/balance.rs", "rs/synth/src/node/sum.rs", "rs/synth/src/graph.rs"]}
{"id": "C63", "title": "onepole never exceeds its input", "statement": "A onepole whose coefficient exp(-2*pi*rate) is within [0,1] maps samples within [-1,1] to samples within [-1,1], for every number of samples and despite f32 rounding.", "quantifier": "every input stream, rate and number of blocks", "why_tests_cant": "the recursion accumulates rounding errors over unboundedly many samples", "anchors": ["rs/synth/src/node/filter/onepole.rs"]}
{"id": "C64", "title": "Oscillators accumulate phase exactly", "statement": "Sample t of sin/saw/squ/tri is the wave shape at the phase obtained by adding frequency/samplerate t times and subtracting 1 whenever it exceeds 1; with a modulated frequency sin uses every sample, the others the last non-zero one. Block boundaries play no role.", "quantifier": "every frequency (also out of range), modulation stream, number and size of blocks", "why_tests_cant": "unbounded streams, every f32 frequency", "anchors": ["rs/synth/src/node/oscillator/mod.rs", "rs/synth/src/node/oscillator/sin_osc.rs"]}
{"id": "C65", "title": "Re-opening an adsr gate continues from the current level", "statement": "When the gate opens while the envelope still sounds, the attack leads from the level reached to 1.", "quantifier": "every gate stream", "why_tests_cant": "depends on the whole history of the gate", "anchors": ["rs/synth/src/node/envelope/adsr.rs:75-100"]}
{"id": "C66", "title": "A sample triggered at unity pitch is played unchanged", "statement": "A voice triggered with 1.0 on a sample whose rate is the engine's plays the sample data one by one; between data points the sampler interpolates linearly; both channels of a stereo sample are read at the same index.", "quantifier": "every sample, every position within it", "why_tests_cant": "every sample length and position; the wrong weights are not audible on constant data", "anchors": ["rs/synth/src/node/sampling/sampler.rs:40-110"]}
{"id": "C67", "title": "A program submitted with run() arrives whole", "statement": "The engine's next update receives exactly the text given to run(), whatever its length and whatever the audio thread is doing.", "quantifier": "every program text, queue state and interleaving of the two threads", "why_tests_cant": "every interleaving and every length, across two threads", "anchors": ["js/npm/index.js:163-177", "js/npm/ringbuf.js:RingBuffer", "js/npm/glicol-engine.js:126-131"]}
{"id": "C68", "title": "stop() silences the engine", "statement": "After stop() (which runs the empty program) the engine updates to an empty program.", "quantifier": "every running program and interleaving", "why_tests_cant": "the empty text is never tested, and the fault is in what two threads do together", "anchors": ["js/npm/index.js:stop", "js/npm/glicol-engine.js:126-127"]}
{"id": "C69", "title": "Reading the queue writes only what was read", "statement": "pop(array) changes exactly the first n places of the array, n being the number it returns.", "quantifier": "every queue state and array", "why_tests_cant": "depends on where the pointers are in the ring", "anchors": ["js/npm/ringbuf.js:112-124"]}
{"id": "C70", "title": "Control messages sent in a burst all act, in order", "statement": "The bytes of several sendMsg calls that reach the engine together act like the messages sent one by one, in order.", "quantifier": "every list of messages, every engine state", "why_tests_cant": "every number and content of messages", "anchors": ["js/npm/index.js:179-193", "js/npm/glicol-engine.js:133-139", "rs/wasm/src/lib.rs:54-57", "rs/main/src/lib.rs:78-104"]}
{"id": "C71", "title": "The page can show every parse error", "statement": "For every error the parser reports, the page recovers the location, line, column and the expected and unexpected rules from the 256 byte status.", "quantifier": "every report of the parser", "why_tests_cant": "reports of every length; only long ones fail", "anchors": ["rs/wasm/src/lib.rs:92-129", "js/npm/index.js:108-131"]}
{"id": "C72", "title": "Drums and synths follow the sample rate", "statement": "At every engine sample rate, bd, sn, hh, the *synth nodes and plate have the pitch, envelope times and delays their parameters say.", "quantifier": "every sample rate and input", "why_tests_cant": "all rates and all input streams", "anchors": ["rs/synth/src/node/compound/sawsynth.rs:27-48", "rs/synth/src/node/compound/bd.rs:34-53"]}
{"id": "C73", "title": "A live session on clockless components never panics", "statement": "Start with a new engine and make any sequence of calls: submit texts (rejected ones, or ones whose components have no clock they divide by, look up only inputs they have and keep their order across edits), play blocks with or without input, send numbers to components other than delayn, set tempo, sample rate and seed, add samples, reset. No call ever panics. In particular a text in the documented notation whose components are of that kind and whose references resolve is accepted by a new engine and plays every further block.", "quantifier": "every sequence of calls, text, hash order, input, message and parameter value", "why_tests_cant": "unboundedly many sessions, hash orders and parameter values", "anchors": ["rs/main/src/lib.rs:172-560", "rs/main/src/lib.rs:78-104", "rs/main/src/lib.rs:560-600"]}
{"id": "C74", "title": "A live session with clocks, sequences, arrangements, envelopes and samples never panics", "statement": "Start with a new engine and make any sequence of calls: submit texts (rejected ones, or ones that keep the order of what stays and whose components get their inputs, with sequences at the head without references or after a speed, imp or sig, speeds between 0 and 1000, looping envelope spans between 1/64 and 1000000 bars, impulse frequencies between 0 and the sample rate, arrangements of other chains, and samples and patterns of samples with data), play blocks, send numbers in the same bounds, set the tempo between 1 and 1000 and the sample rate between 8000 and 192000, set the seed, add samples, reset. No call ever panics. In particular, at any moment of such a session a text in the documented notation of that kind, whose samples have been added and whose references resolve, is accepted and plays every further block.", "quantifier": "every sequence of calls, text, hash order, input, message, number of blocks and parameter value in the bounds", "why_tests_cant": "unboundedly many sessions, hash orders and float values; the panics are divisions by a clock period that rounds to 0", "anchors": ["rs/main/src/lib.rs:172-560", "rs/synth/src/node/sequencer/seq.rs:1-120", "rs/synth/src/node/signal/points.rs:1-175", "rs/synth/src/node/signal/imp.rs:1-59", "rs/synth/src/node/filter/rlpf.rs:1-175"]}
{"id": "C75", "title": "mix adds up the chains it names", "statement": "mix puts out, on each channel and at every sample, the sum of the ends of all the chains it names plus the component before it in its chain; a mono chain counts for both channels.", "quantifier": "every program, history of edits, hash order, block size and signal", "why_tests_cant": "all programs, edit histories and hash orders; the sum goes through a graph whose edges are rebuilt at every edit", "anchors": ["rs/synth/src/node/sum.rs:71-93", "rs/main/src/util.rs:60-360", "rs/main/src/lib.rs:172-560"]}
{"id": "C76", "title": "balance plays its first chain on the left and its second on the right", "statement": "balance puts the first channel of the end of its first chain on the left and the first channel of the end of its second chain on the right, in every block.", "quantifier": "every program, history of edits, hash order, block size and signal", "why_tests_cant": "the node tells its two inputs apart only by an order list kept across edits and a hash map walked in random order", "anchors": ["rs/synth/src/node/effect/balance.rs:1-43", "rs/main/src/lib.rs:172-560"]}
{"id": "C77", "title": "get plays the chain it names", "statement": "get plays the end of the chain it names: a stereo chain as it is and a mono chain on both channels.", "quantifier": "every program, history of edits, hash order, block size and signal", "why_tests_cant": "all programs, edit histories and hash orders", "anchors": ["rs/synth/src/node/pass.rs:1-55", "rs/main/src/lib.rs:172-560"]}
{"id": "C78", "title": "Editing some chains leaves the sound of the others alone", "statement": "A group of chains that only refer to one another sounds, in every block, exactly as it would have if the other chains had never been edited, added or removed: whatever texts were submitted in between, after the same number of blocks every component of the group has the same node and the same output buffer, bit for bit.", "quantifier": "every group of chains, every two histories of edits elsewhere from the same engine, every hash order and iteration order, block size and number of blocks", "why_tests_cant": "relates all pairs of editing histories; update rebuilds indices and edges, and the order in which nodes run and inputs arrive depends on random hash state", "anchors": ["rs/main/src/lib.rs:172-566", "rs/main/src/lib.rs:568-640", "rs/synth/src/context.rs:1-260"]}
{"id": "C79", "title": "A component does in a program what it does alone", "statement": "Over any number of blocks, what a heard component puts out is what its node puts out on its own when it is handed, block by block, what the component before it and the chains it refers to put out in the same block; a component that an accepted text brings in starts from the state it is created with. So every property of a single node (a delay by n samples, the range of an oscillator, the steps of a sequence) holds of that component in the running program.", "quantifier": "every program and history of edits, every component that is heard and not in a feedback loop, any number of blocks, block size, hash order and input", "why_tests_cant": "carries single node behaviour over to all programs, edit histories, processing orders and running times", "anchors": ["rs/main/src/lib.rs:568-640", "rs/synth/src/context.rs:136-260", "rs/main/src/lib.rs:172-560"]}
{"id": "C80", "title": "From the text to the samples", "statement": "A text with one audible line of components without references is accepted, plays for ever, and the samples returned are those of its components played one after the other from the first sample on, a mono chain on both channels; for instance 'o: sin f >> mul a' returns on both channels a times the sine at the phase reached after t steps of f/44100. In a larger program every new audible chain without references plays the same, whatever the other chains do.", "quantifier": "every layout of the text, all numbers, the four waveforms, every such chain, any number of blocks, block size and hash order", "why_tests_cant": "follows all texts through parser, engine, scheduling and nodes to every sample that is ever returned", "anchors": ["rs/main/src/lib.rs:172-640", "rs/parser/src/lib.rs:1-109", "rs/synth/src/node/oscillator/sin_osc.rs:1-82", "rs/synth/src/node/operator/mul.rs:1-43"]}
{"id": "C81", "title": "Chains sound the same wherever they are loaded, under whatever names and in whatever company", "statement": "Load the same group of chains into two engines with any different pasts, in the second under other names (keeping the leading ~) and among other chains. As long as both sides edit the group the same way, send it the same messages and set the same tempo, and blocks are made in step, every component of the group puts out the same block on both sides, bit for bit, whatever each side does to its other chains and whatever numbers their nodes got. If nothing else is audible the blocks returned are the same signals added up, and with one or two audible chains the same blocks.", "quantifier": "all pairs of sessions with such a group: any pasts, edits, messages, other chains, hash orders, external input and number of blocks", "why_tests_cant": "node numbers, edge order, hash order and history differ freely between the two engines", "anchors": ["rs/main/src/lib.rs:172-640", "rs/synth/src/context.rs:1-254", "rs/synth/src/graph.rs:1-120"]}
{"id": "C82", "title": "A session can be repeated", "statement": "Two engines without chains and with the same samples, sample rate, tempo and seed, given the same calls from then on, return the same blocks, whatever they did before: nothing of an earlier program is left behind in what is heard, and a reset engine sounds like a new one.", "quantifier": "all pasts of both engines, all sessions (accepted and rejected texts, messages, tempo, samples, rate, seed, resets, any number of blocks), hash orders and external input", "why_tests_cant": "hash maps are walked in a different order in every process, and node numbers depend on the whole past", "anchors": ["rs/main/src/lib.rs:57-146", "rs/main/src/lib.rs:172-640", "rs/synth/src/context.rs:1-254"]}
{"id": "C83", "title": "A patch sounds like its signal equations", "statement": "A program whose lines name each other without loops is a set of equations between signals: what a component puts out is what its node, run alone from its creation, makes of the signal of the component before it and of the ends of the lines it names, taken in the order written. For lines of constants, oscillators, noise, gains, offsets and filters (each by a number or by another line) the equations are explicit: sample t of both returned channels is the value of the patch at time t, for amplitude, frequency and cutoff modulation to any depth, from the first sample after the text was accepted, without latency or drift at block boundaries; with several audible lines the caller gets their sum.", "quantifier": "all texts of the notation with such lines in any order and layout, all reference graphs without loops, frequencies and factors, block sizes, numbers of blocks, hash orders and external input", "why_tests_cant": "the patches form an infinite family of graphs and a test listens to a few blocks of one; the order in which nodes are created, connected and visited depends on hash maps", "anchors": ["rs/main/src/lib.rs:172-640", "rs/synth/src/graph.rs:1-166", "rs/synth/src/node/oscillator/mod.rs:13-43", "rs/synth/src/node/operator/mod.rs:9-53"]}
{"id": "C84", "title": "The same patch sounds the same at every block size and in every order of its lines", "statement": "What the user hears depends on what the lines of the text say and not on the block size the host chose, on the order or layout of the lines or on the hash orders of the process: two new engines with different block sizes, given two texts whose names stand for the same lines, return the same samples, bit for bit, for as long as both run. A filter whose cutoff is another line is an exception: it reads the cutoff once per block, so the claim is false of such texts.", "quantifier": "all block sizes, texts of the notation as in C83, orders and layouts of the lines, hash orders, numbers of blocks and external input", "why_tests_cant": "a test fixes two block sizes and one text; equality at every sample for all patches and all pairs of sizes needs an argument about what each node carries over from block to block", "anchors": ["rs/main/src/lib.rs:172-640", "rs/synth/src/graph.rs:1-166", "rs/synth/src/node/filter/rlpf.rs", "rs/synth/src/node/oscillator/mod.rs:13-43"]}
{"id": "C85", "title": "Changing the sample rate, the seed or a sample does not disturb what is playing", "statement": "set_sr, set_seed and add_sample are read when a node is created and never later. Leaving all calls of one of these kinds (for samples: of one name) out of a session changes nothing: the same calls panic or not, every update is accepted or rejected with the same error and every block is the same, as long as each submitted component either does not depend on the setting or is already running in the chain of the same name. In particular no setting is heard between two updates, and resubmitting a running sine after set_sr leaves it at its old pitch.", "quantifier": "all engines, all sessions of updates, blocks, messages, tempo changes, resets and settings in any number and order, all hash orders, block sizes and inputs; all values of the settings", "why_tests_cant": "a test changes a setting at one moment of one session; that no call anywhere reads the setting again needs an argument over all of them", "anchors": ["rs/main/src/lib.rs:143-146", "rs/main/src/lib.rs:172-275", "rs/main/src/lib.rs:588-600", "rs/main/src/util.rs:35-443"]}
{"id": "C86", "title": "Whether an edit is accepted does not depend on when it is made", "statement": "The verdict on a submitted text (accepted, or the error it is refused with) and the program that is running afterwards depend on the texts and settings submitted so far and their order, not on how many blocks were rendered, what input they had or which messages were sent in between: two sessions from the same engine with the same edits, whatever happens between them, get the same verdicts and end with the same program and the same chains, unless one of them panics.", "quantifier": "all engines, all languages of components, all sessions of updates, settings, resets, blocks with any input and messages, neither of which panics; all hash orders (the same for the same update)", "why_tests_cant": "a test fixes the number of blocks between two edits; independence of every interleaving is a statement about all pairs of sessions", "anchors": ["rs/main/src/lib.rs:78-104", "rs/main/src/lib.rs:172-566", "rs/main/src/lib.rs:568-600"]}
