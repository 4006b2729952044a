{"id": "C01", "title": "Time addition is exact", "statement": "Adding two `Seconds` (or two `Beats`) gives the value whose duration is exactly the sum of the two durations, with the sub-unit part carried into whole units, whenever the whole-unit part of the result fits the field; addition is commutative, associative and keeps the order.", "quantifier": "all pairs/triples of normalised time values whose sum fits in u32 units", "why_tests_cant": "the carry is between 2^32 x 2.8e8 values; a wrong boundary in the carry only shows for specific pairs", "anchors": ["knaster_primitives/src/time.rs: impl Add for Seconds, impl Add for Beats, impl Ord"]}
{"id": "C02", "title": "Time subtraction is exact and never invents time", "statement": "`checked_sub` returns a value exactly when the subtrahend is not later than the minuend, and then adding the subtrahend back gives the minuend; `saturating_sub` returns that value or zero.", "quantifier": "all pairs of normalised `Seconds` / `Beats`", "why_tests_cant": "borrow paths depend on every combination of unit and sub-unit ordering", "anchors": ["knaster_primitives/src/time.rs: Seconds::checked_sub, Seconds::saturating_sub, Beats::checked_sub, Beats::saturating_sub"]}
{"id": "C03", "title": "Time ordering is the order of durations", "statement": "Comparing two time values with <, <=, == agrees with comparing the exact durations they denote.", "quantifier": "all pairs of normalised time values", "why_tests_cant": "needs every pair", "anchors": ["knaster_primitives/src/time.rs: impl Ord for Seconds, impl Ord for Beats"]}
{"id": "C04", "title": "A frame count survives a trip through Seconds", "statement": "Converting any frame count to `Seconds` and back with the same sample rate yields the same frame count.", "quantifier": "all frame counts (below 2^32 seconds) and all sample rates", "why_tests_cant": "fails only for sample rates that do not divide the sub-second resolution, and then only for some frame counts", "anchors": ["knaster_primitives/src/time.rs: Seconds::from_samples, Seconds::to_samples"]}
{"id": "C05", "title": "Tesimal conversion round-trips", "statement": "Converting a time value to its total number of sub-second ticks and back gives the same value, for every value that the time type can represent.", "quantifier": "all Seconds values / all u64 tick counts", "why_tests_cant": "truncating casts only matter at the far end of the range", "anchors": ["knaster_primitives/src/time.rs: Seconds::from_subsample_tesimals_u64, Seconds::to_subsample_tesimals_u64"]}
{"id": "C06", "title": "Multiplying two Seconds values multiplies the durations", "statement": "`a * b` for two `Seconds` denotes the product of the two durations (to tick resolution).", "quantifier": "all pairs of Seconds", "why_tests_cant": "the unit tests do not cover products of fractional times", "anchors": ["knaster_primitives/src/time.rs: impl Mul<Seconds> for Seconds"]}
{"id": "C07", "title": "Block samples are isolated", "statement": "Writing one sample of a block changes exactly the sample that reads back at that channel and frame; the per-channel slice, the channel iterator and per-sample access always agree; a partial block exposes exactly its window of the underlying block and leaves everything else untouched.", "quantifier": "all block shapes, channels, frames, windows and write sequences", "why_tests_cant": "addressing errors only show for particular channel/frame/size combinations", "anchors": ["knaster_primitives/src/block.rs: VecBlock, StaticBlock, PartialBlock, PartialBlockMut, BlockIterMut"]}
{"id": "C08", "title": "The audio graph never becomes cyclic", "statement": "After any sequence of pushes, connections (additive, replacing, to inputs, to graph outputs, from graph inputs), disconnections and frees, the ordinary (non-feedback) audio connections between nodes contain no cycle.", "quantifier": "all edit histories", "why_tests_cant": "the number of edit histories is unbounded and additive connections insert hidden nodes", "anchors": ["knaster_graph/src/graph.rs: Graph::connect_nodes_internal, Graph::connect_to_node_internal, Graph::has_path, Graph::disconnect_output_from_source, Graph::free_node_from_key"]}
{"id": "C09", "title": "Every stored connection refers to an existing node and channel", "statement": "After any edit history every connection into a node or a graph output comes from a node that is still in the graph and from a channel that node has; an edit that returns an error leaves the graph unchanged.", "quantifier": "all edit histories including failing edits", "why_tests_cant": "requires every interleaving of edits with frees", "anchors": ["knaster_graph/src/graph.rs: Graph::connect_*, Graph::free_node_from_key, Graph::evaluate_if_node_should_be_removed"]}
{"id": "C10", "title": "A connection is rejected as circular exactly when it would close a loop", "statement": "Connecting an output of A to an input of B is refused with the circular-connection error if and only if the signal of B already reaches A through ordinary audio connections (or A is B).", "quantifier": "all graphs and node pairs", "why_tests_cant": "reachability over arbitrary graphs", "anchors": ["knaster_graph/src/graph.rs: Graph::has_path, Graph::connect_nodes_internal"]}
{"id": "C11", "title": "Additive connection adds, replacing connection replaces", "statement": "After `connect`, the signal arriving at the sink is the old signal plus the new source, for any number of repeated connections; after the replacing variant it is exactly the new source; every other input in the graph keeps its signal.", "quantifier": "all graphs, sinks, sources and sequences of connections", "why_tests_cant": "hidden addition nodes are inserted per connection; correctness is about the sum for arbitrarily many connections", "anchors": ["knaster_graph/src/graph.rs: Graph::connect_to_node_internal, Graph::connect_to_output_internal, Graph::new_additive_node"]}
{"id": "C12", "title": "Disconnecting removes exactly the named signal", "statement": "Disconnecting a source from a sink that sums several sources leaves the sum of the others, changes nothing else, and never fails on a well-formed graph.", "quantifier": "all graphs built by connects and all disconnect calls", "why_tests_cant": "the bypass of hidden addition nodes has to rewrite every reader of that node", "anchors": ["knaster_graph/src/graph.rs: Graph::disconnect_output_from_source, Graph::disconnect_input_to_sink, Graph::evaluate_if_node_should_be_removed"]}
{"id": "C13", "title": "Nodes of another graph are rejected", "statement": "Passing a node handle that belongs to a different graph to a connect, parameter or free call returns an error and does not touch any node of this graph.", "quantifier": "all graph ids and node ids", "why_tests_cant": "the defect is a single operator precedence slip that happens to agree on the tested path", "anchors": ["knaster_graph/src/graph.rs: Graph::connect_nodes_internal, Graph::connect_node_to_output, Graph::connect_node_to_parameter, Graph::connect_input_to_node, Graph::set", "knaster_graph/src/graph_edit.rs: GraphEdit::free_node"]}
{"id": "C14", "title": "Freeing a node removes every trace of it", "statement": "After a node is freed nothing in the graph refers to it any more (audio inputs, graph outputs, audio-rate parameter links) and the next commit succeeds; immortal nodes are never freed.", "quantifier": "all graphs and free sequences", "why_tests_cant": "needs all combinations of link kinds at the moment of the free", "anchors": ["knaster_graph/src/graph.rs: Graph::free_node_from_key, Graph::set_mortality, Graph::generate_ar_parameter_changes"]}
{"id": "C15", "title": "Audio-rate parameter links cannot create an evaluation loop", "statement": "Linking a node's output to a parameter is refused when it would close a loop of signal dependencies, so every parameter signal is computed before the node that uses it.", "quantifier": "all graphs with parameter links", "why_tests_cant": "loops may run through any mixture of audio and parameter links", "anchors": ["knaster_graph/src/graph.rs: Graph::connect_node_to_parameter, Graph::has_path, Graph::calculate_node_order"]}
{"id": "C16", "title": "Every node is evaluated after everything it reads", "statement": "In the evaluation order produced at commit, each node of the graph appears exactly once, and after all nodes that feed its audio inputs and its audio-rate parameters.", "quantifier": "all acyclic graphs", "why_tests_cant": "the order is built from several starting nodes; only some shapes break it", "anchors": ["knaster_graph/src/graph.rs: Graph::calculate_node_order, Graph::depth_first_search, Graph::get_deepest_output_node"]}
{"id": "C17", "title": "The rendered block equals the graph's dataflow meaning", "statement": "For every graph, one processed block puts on each graph output exactly the signal obtained by evaluating the nodes as functions along the connections; buffer reuse between nodes is never audible.", "quantifier": "all graphs, all node behaviours, all block contents", "why_tests_cant": "a buffer reused too early is only audible for particular topologies and orders", "anchors": ["knaster_graph/src/graph.rs: Graph::allocate_node_buffers, Graph::generate_tasks, Graph::generate_output_tasks", "knaster_graph/src/buffer_allocator.rs: BufferAllocator", "knaster_graph/src/graph_gen.rs: GraphGen::process_block", "knaster_graph/src/task.rs: Task::run"]}
{"id": "C18", "title": "Unconnected inputs are silent", "statement": "An input or graph output with no connection always reads zeros, whatever the other nodes do.", "quantifier": "all graphs, behaviours and block counts", "why_tests_cant": "the silent channel lives in the same memory as all other signals", "anchors": ["knaster_graph/src/buffer_allocator.rs: BufferAllocator::empty_channel, BufferAllocator::reset", "knaster_graph/src/graph.rs: Graph::allocate_node_buffers"]}
{"id": "C19", "title": "Signal memory is allocated safely", "statement": "The memory handed to nodes that are alive at the same time never overlaps, lies inside the allocation, and allocation/return never fails for nodes with any number of outputs, including none.", "quantifier": "all sequences of allocate/return requests", "why_tests_cant": "depends on every order of sizes and returns", "anchors": ["knaster_graph/src/buffer_allocator.rs: BufferAllocator::get_block, assign_new_block, return_block, offset_to_ptr", "knaster_graph/src/graph.rs: Graph::allocate_node_buffers"]}
{"id": "C20", "title": "A feedback connection delays by exactly one block", "statement": "The signal read through a feedback connection in block n is the signal that the source produced in block n-1 (silence in block 0), for every block.", "quantifier": "all source signals and block counts", "why_tests_cant": "needs every block sequence", "anchors": ["knaster_graph/src/graph.rs: Graph::new_feedback_nodes, FeedbackSink, FeedbackSource, Graph::connect_to_node_internal"]}
{"id": "C21", "title": "Editing the graph never resets or loses a running node", "statement": "For every sequence of commits and every schedule in which the audio thread picks them up (one by one or several at once), each node that stays in the graph continues from exactly the state it had; none is duplicated or lost.", "quantifier": "all edit/commit sequences and all pick-up schedules", "why_tests_cant": "thread schedules", "anchors": ["knaster_graph/src/task.rs: TaskData::apply_self_on_audio_thread", "knaster_graph/src/node.rs: Node::make_task", "knaster_graph/src/graph.rs: Graph::commit_changes, Graph::generate_task_data", "knaster_graph/src/graph_gen.rs: GraphGen::process_block"]}
{"id": "C22", "title": "Node memory is reclaimed only after the audio thread let go of it", "statement": "A removed node is destroyed only once the audio thread has switched to a task list that does not contain it, for every interleaving of frees, commits, clean-ups and audio blocks.", "quantifier": "all interleavings of the two threads", "why_tests_cant": "use-after-free is schedule dependent", "anchors": ["knaster_graph/src/graph.rs: Graph::free_old, Graph::free_node_from_key, Graph::commit_changes", "knaster_graph/src/task.rs: TaskData::applied", "knaster_graph/src/graph_gen.rs: GraphGen::process_block"]}
{"id": "C23", "title": "A scheduled parameter change is applied exactly once, at its frame", "statement": "A change scheduled for a time is delivered exactly once, in the block that contains the frame of that time and with the right offset in the block, no matter how far in the future it lies and how many other changes are waiting.", "quantifier": "all schedules, times, block sizes and queue contents", "why_tests_cant": "needs all future distances and queue fills", "anchors": ["knaster_graph/src/graph_gen.rs: GraphGen::process_block, GraphGen::apply_parameter_change", "knaster_graph/src/scheduling.rs: Time::to_samples_until_due", "knaster_graph/src/graph.rs: Graph::new (blocks_to_keep_scheduled_changes)"]}
{"id": "C24", "title": "Parameter changes for the same moment keep their order", "statement": "Changes of one parameter that become due in the same block are applied in the order they were sent, and so the last one sent wins.", "quantifier": "all send sequences", "why_tests_cant": "waiting and fresh changes travel through different queues", "anchors": ["knaster_graph/src/graph_gen.rs: GraphGen::process_block, GraphGen::apply_parameter_change"]}
{"id": "C25", "title": "A relative delay elapses in exactly that many frames", "statement": "A change scheduled 'in T seconds from now' is applied exactly T*sample_rate frames after the block in which the audio thread received it.", "quantifier": "all delays, block sizes and sample rates", "why_tests_cant": "the remaining time is re-rounded every block, so errors accumulate with the number of blocks", "anchors": ["knaster_graph/src/scheduling.rs: Time::to_samples_until_due", "knaster_primitives/src/time.rs: Seconds::from_samples, Seconds::saturating_sub"]}
{"id": "C26", "title": "Sample-accurate wrapper applies each change at its own frame", "statement": "With the precise-timing wrapper, a change with offset d inside a block takes effect from frame d on (and not before), a change without offset takes effect at the block start, and no change is lost while the number of changes per block stays within the declared maximum.", "quantifier": "all change sequences, offsets and block sizes, over any number of blocks", "why_tests_cant": "stale offsets survive from one block into later ones", "anchors": ["knaster_core_dsp/src/wrappers_core/precise_timing.rs: WrPreciseTiming"]}
{"id": "C27", "title": "Splitting a block does not change the sound", "statement": "Processing a block in one call or in consecutive partial calls gives the same samples and the same final state, for the sample-accurate wrapper's way of splitting.", "quantifier": "all split points and all UGens that process frame by frame", "why_tests_cant": "all splits", "anchors": ["knaster_core_dsp/src/wrappers_core/precise_timing.rs: WrPreciseTiming::process_block", "knaster_core/src/ugen.rs: UGen::process_block, BlockMetadata::make_partial", "knaster_primitives/src/block.rs: PartialBlock"]}
{"id": "C28", "title": "A linear parameter ramp arrives at its target", "statement": "With parameter smoothing set to a linear ramp, the value moves monotonically from the current value to the requested one, is exactly the requested value at the end of the ramp time, and stays there.", "quantifier": "all start/target values, ramp lengths and block sizes, all later smoothing changes", "why_tests_cant": "floating targets and ramp lengths; mid-ramp changes", "anchors": ["knaster_core_dsp/src/wrappers_core/smooth_params.rs: WrSmoothParams, ParameterSmoothingState"]}
{"id": "C29", "title": "Audio-rate parameters use the matching sample", "statement": "When a signal drives a parameter, the value used for frame k of a block is sample k of that signal's block; ordinary sets of that parameter are ignored while it is driven.", "quantifier": "all signals, block sizes and block counts", "why_tests_cant": "needs all blocks/frames", "anchors": ["knaster_core_dsp/src/wrappers_core/audio_rate.rs: WrArParams"]}
{"id": "C30", "title": "A graph that removes itself is silent from that frame on", "statement": "When a node asks to remove its parent at frame f, the graph's outputs are unchanged before f, zero from f on in that block, and zero in all later blocks.", "quantifier": "all graphs, frames and block counts", "why_tests_cant": "all removal frames", "anchors": ["knaster_graph/src/graph_gen.rs: GraphGen::process_block", "knaster_graph/src/wrappers_graph/done.rs: WrDone", "knaster_core/src/ugen.rs: UGenFlags"]}
{"id": "C31", "title": "The clock counts frames", "statement": "After n processed blocks of size b the processor's frame clock is n*b and the shared clock shows the time of that frame, for any n.", "quantifier": "all block counts and sizes", "why_tests_cant": "unbounded running time", "anchors": ["knaster_graph/src/processor.rs: AudioProcessor::run", "knaster_graph/src/scheduling.rs: SharedFrameClock"]}
{"id": "C32", "title": "The device stream is the processor stream", "statement": "Whatever buffer sizes the audio device asks for, the frames it receives are the concatenation of the processed blocks: no frame is skipped, repeated or reordered, and inputs are delivered likewise.", "quantifier": "all sequences of device buffer sizes and block sizes", "why_tests_cant": "the device chooses buffer sizes at run time", "anchors": ["knaster_graph/src/audio_backend/cpal.rs: run"]}
{"id": "C33", "title": "Log messages arrive whole, in order and once", "statement": "Every message logged from the audio thread is received complete, in order and exactly once, whatever the polling pattern and buffer wrap-around; a full buffer only loses whole messages.", "quantifier": "all send/poll interleavings and buffer sizes", "why_tests_cant": "wrap position and fill level", "anchors": ["knaster_core/src/log.rs: ArLogReceiver::recv, ArLogSender::send, rt_log!"]}
{"id": "C34", "title": "Arithmetic on handles computes that arithmetic", "statement": "`a op b` for handles and constants on either side produces, per channel, the signal `a op b` with the operands in that order.", "quantifier": "all operators, operand kinds, channel counts and signals", "why_tests_cant": "operand order only matters for the non-commutative operators", "anchors": ["knaster_graph/src/graph_edit.rs: math_gen_fn_static, impl Add/Sub/Mul/Div for SH, DH, f32"]}
{"id": "C35", "title": "Stacking and chaining map channels positionally", "statement": "`a | b` has the inputs of a then b and the outputs of a then b, and `x >> y` connects output channel i of x to input channel i of y for each i up to the smaller count, and nothing else.", "quantifier": "all channel counts and nestings", "why_tests_cant": "all shapes", "anchors": ["knaster_graph/src/graph_edit.rs: SH::to, DH::to, Stack, GraphEdit, SH::stack"]}
{"id": "C36", "title": "Parameter addressing is checked", "statement": "Addressing a parameter by an index that does not exist or a name that does not exist returns an error; an existing index or name addresses that parameter.", "quantifier": "all indices and names", "why_tests_cant": "indices beyond 16 bit are never tested", "anchors": ["knaster_graph/src/graph_edit.rs: DH::try_param, SH::try_param", "knaster_graph/src/graph.rs: Graph::connect_node_to_parameter", "knaster_core/src/ugen.rs: UGen::param"]}
{"id": "C37", "title": "The ASR envelope stays within 0..1 and finishes", "statement": "For any attack/release times and any trigger/release sequence the envelope's output stays in [0,1], and after a release it reaches zero and reports done exactly once, at the right frame.", "quantifier": "all trigger histories and rates", "why_tests_cant": "trigger histories are unbounded", "anchors": ["knaster_core_dsp/src/ugens/envelopes.rs: EnvAsr"]}
{"id": "C38", "title": "The AR envelope stays within 0..1 and finishes", "statement": "For any attack/release times and trigger sequence the output stays in [0,1], and each trigger leads to a full attack, release and one done report.", "quantifier": "all trigger histories and rates", "why_tests_cant": "trigger histories are unbounded", "anchors": ["knaster_core_dsp/src/ugens/envelopes.rs: EnvAr"]}
{"id": "C39", "title": "Segment envelopes reach every breakpoint and are always finite", "statement": "A multi-segment envelope passes through its breakpoint values in order, never outputs anything that is not a number, stays between neighbouring breakpoints, and ends on the last value.", "quantifier": "all segment lists, including zero durations and loops, and all trigger histories", "why_tests_cant": "zero-length segments are an edge case of float division", "anchors": ["knaster_core_dsp/src/ugens/envelopes.rs: Envelope"]}
{"id": "C40", "title": "A sample delay delays by the requested number of samples", "statement": "The output at frame n is the input at frame n-d (silence before), for each delay d up to the maximum delay of the unit.", "quantifier": "all inputs, maximum lengths, delays", "why_tests_cant": "boundary of the ring buffer", "anchors": ["knaster_core_dsp/src/ugens/delay.rs: SampleDelay"]}
{"id": "C41", "title": "The static delay line delays by its length in both access styles", "statement": "Per-sample and per-block reading/writing of the static delay line give the same signal: the input delayed by the delay length, also after the length was changed.", "quantifier": "all inputs, lengths, block sizes and mixtures of access", "why_tests_cant": "wrap points of block copies", "anchors": ["knaster_core_dsp/src/ugens/delay.rs: StaticSampleDelay"]}
{"id": "C42", "title": "Silence in, silence out for the allpass delays", "statement": "A fresh (or cleared) allpass delay fed with silence outputs silence for every delay setting within its capacity.", "quantifier": "all delay settings and lengths", "why_tests_cant": "initial state only matters for non-default fractional delays", "anchors": ["knaster_core_dsp/src/ugens/delay.rs: AllpassInterpolator, AllpassDelay, AllpassFeedbackDelay"]}
{"id": "C43", "title": "The random generator never gets stuck and visits every value", "statement": "From any seed the generator never reaches the all-zero state and its sequence runs through all 2^32-1 non-zero values before repeating.", "quantifier": "all seeds; the full period", "why_tests_cant": "2^32 steps from each seed", "anchors": ["knaster_core_dsp/src/dsp/xorrng.rs: XOrShift32Rng"]}
{"id": "C44", "title": "Pink noise never fails and stays within -1..1", "statement": "The pink-noise generator's internal row selection is always valid (its assertions never fire) for any number of samples, and its output stays within [-1,1] (in exact arithmetic).", "quantifier": "all sample counts and seeds", "why_tests_cant": "unbounded number of samples", "anchors": ["knaster_core_dsp/src/ugens/noise.rs: PinkNoise"]}
{"id": "C45", "title": "Buffer playback only reads inside the buffer", "statement": "A buffer player never reads outside the sample memory, for any start, duration, end, rate and channel setting the API accepts.", "quantifier": "all buffer sizes, channel counts, settings and playback lengths", "why_tests_cant": "the reads are unchecked, so a violation is silent undefined behaviour", "anchors": ["knaster_core_dsp/src/ugens/buffer.rs: BufferReader", "knaster_core_dsp/src/dsp/buffer.rs: Buffer"]}
{"id": "C46", "title": "The safety limiter always outputs a number within -1..1", "statement": "For every input sample, including infinities and NaN, the output is a number in [-1,1], and inputs already in that range pass unchanged.", "quantifier": "all floating point values", "why_tests_cant": "2^64 inputs", "anchors": ["knaster_core_dsp/src/ugens/dynamics.rs: SafetyLimiter"]}
{"id": "C47", "title": "Wavetable lookup is always in range and phase exact", "statement": "For any frequency, offset and number of samples, the table index is in range and equals the exact accumulated phase modulo the table size, despite integer wrap-around; a phase offset of x shifts the wave by x periods.", "quantifier": "all increments, offsets and sample counts", "why_tests_cant": "unbounded phase accumulation", "anchors": ["knaster_core_dsp/src/dsp/wavetable.rs: WavetablePhase, NonAaWavetable::get", "knaster_core_dsp/src/ugens/osc.rs: SinWt"]}
{"id": "C48", "title": "Block and sample processing agree", "statement": "For the arithmetic generators and the arithmetic/closure wrappers, processing a block gives the same samples as processing frame by frame.", "quantifier": "all inputs, channel counts and block sizes, any inner generator for which it holds", "why_tests_cant": "all block sizes and contents", "anchors": ["knaster_core_dsp/src/ugens/math.rs: MathUGen, Math1UGen", "knaster_core_dsp/src/wrappers_core/math.rs: WrMul, WrAdd, WrSub, WrVSub, WrDiv, WrVDiv", "knaster_core_dsp/src/wrappers_core/closure.rs: WrClosure"]}
{"id": "C49", "title": "Wrappers route every parameter call", "statement": "For any stack of wrappers, setting, delaying or linking a parameter by its index reaches the component that owns that parameter and never fails.", "quantifier": "all wrapper stacks and parameter indices", "why_tests_cant": "stacks are unbounded; only the added parameters' indices are affected", "anchors": ["knaster_core_dsp/src/wrappers_core/math.rs: WrMul", "knaster_graph/src/wrappers_graph/done.rs: WrDone", "knaster_core_dsp/src/wrappers_core/precise_timing.rs: set_delay_within_block_for_param", "knaster_core_dsp/src/wrappers_core/audio_rate.rs: set_ar_param_buffer"]}
{"id": "C50", "title": "A phasor ramps within 0..1 and always returns", "statement": "For every frequency the phasor's output stays in [0,1) and each sample is produced in finite time.", "quantifier": "all frequencies and sample counts", "why_tests_cant": "the wrap loop depends on float magnitudes", "anchors": ["knaster_core_dsp/src/ugens/osc.rs: Phasor"]}
{"id": "C51", "title": "Probe logging happens at the configured interval", "statement": "A log probe configured to log every N samples logs exactly once per N samples.", "quantifier": "all N and run lengths", "why_tests_cant": "off-by-one over unbounded runs", "anchors": ["knaster_core_dsp/src/ugens/util.rs: LogProbe"]}
{"id": "C52", "title": "Enum parameters round-trip through integers", "statement": "Encoding an enum parameter as an integer and decoding it gives the same variant, every integer decodes to some variant, and the advertised legal range and descriptions list exactly the legal values.", "quantifier": "all enum types and integers", "why_tests_cant": "any number of variants", "anchors": ["knaster_macros/src/lib.rs: knaster_integer_parameter", "knaster_core/src/parameters.rs: PIntegerHint::descriptions"]}
{"id": "C53", "title": "Smoothing filters and random walks stay in range", "statement": "One-pole low-pass output stays within the range of its inputs, brown noise stays in [-1,1] and interpolated random stays in [0,1], for any number of samples (in exact arithmetic).", "quantifier": "all inputs, coefficients and run lengths", "why_tests_cant": "unbounded runs", "anchors": ["knaster_core_dsp/src/ugens/onepole.rs: OnePole", "knaster_core_dsp/src/ugens/noise.rs: BrownNoise, RandomLin"]}
{"id": "C54", "title": "The allpass delay delays by the requested number of samples", "statement": "After setting a whole delay of N frames within the capacity, the output at frame n is the input at frame n-N.", "quantifier": "all whole delays within the capacity, inputs and run lengths", "why_tests_cant": "the boundaries of the ring and the smallest delays", "anchors": ["knaster_core_dsp/src/ugens/delay.rs: AllpassDelay::set_delay_in_frames, read, write_and_advance"]}
{"id": "C55", "title": "Pink noise stays within -1..1 in single precision", "statement": "Computed in f32 as the code does by default, the output of the pink noise generator cannot surpass +-1, as its documentation says.", "quantifier": "all random number sequences and sample counts", "why_tests_cant": "rounding errors of the running sum accumulate over unbounded runs", "anchors": ["knaster_core_dsp/src/ugens/noise.rs: PinkNoise::process"]}
{"id": "C56", "title": "A trigger marks a node as done once", "statement": "The done-on-trigger generator marks its node done at exactly the samples that follow a trigger.", "quantifier": "all trigger histories", "why_tests_cant": "histories are unbounded", "anchors": ["knaster_core_dsp/src/ugens/util.rs: DoneOnTrig"]}
{"id": "C57", "title": "The state variable filter is stable", "statement": "For every setting of the parameters and every sequence of changes, a silent input never makes the stored energy grow, a bounded input gives a bounded output, and the output dies out after the input stops (in exact arithmetic).", "quantifier": "all filter types, settings, parameter change sequences, inputs and run lengths", "why_tests_cant": "instability shows only for some settings and only after long runs", "anchors": ["knaster_core_dsp/src/ugens/svf.rs: SvfFilter::set_coeffs, SvfFilter::process_sample"]}
{"id": "C58", "title": "Each filter type has its gain at both ends of the spectrum", "statement": "A constant signal and the signal alternating each sample come out, after the transient, multiplied by the gain of the filter type at frequency zero and at half the sample rate: one for the passed end, zero for the stopped end, the gain setting for a shelf (in exact arithmetic).", "quantifier": "all filter types, settings in range, initial states and levels", "why_tests_cant": "the coefficients of nine types; the limit of an unbounded run", "anchors": ["knaster_core_dsp/src/ugens/svf.rs: SvfFilter::set_coeffs, SvfFilter::process_sample"]}
{"id": "C59", "title": "The band-limited oscillator's phase stays in 0..1", "statement": "The phase of the polyblep oscillator stays in [0,1) as documented, whatever the history of frequency, sample rate and phase changes, and follows the exact phase up to one rounding error per sample; changing the sample rate preserves the frequency.", "quantifier": "all parameter histories, frequencies, run lengths, f32 and f64", "why_tests_cant": "unbounded runs; rounding at the wrap point", "anchors": ["knaster_core_dsp/src/ugens/polyblep.rs: PolyBlep::inc, PolyBlep::sync, PolyBlep::init, PolyBlep::set_sample_rate"]}
{"id": "C60", "title": "Every polyblep waveform stays within -1..1", "statement": "For every waveform, frequency, pulse width in 0..1 and phase the output of the polyblep oscillator is within [-1,1] (in exact arithmetic).", "quantifier": "all waveforms, phases, frequencies, pulse widths and histories", "why_tests_cant": "corrections overlap only for extreme frequency and pulse width", "anchors": ["knaster_core_dsp/src/ugens/polyblep.rs: PolyBlep::next_sample, blep, blamp and all waveform functions"]}
{"id": "C61", "title": "The band-limited waveforms have no jumps", "statement": "The sawtooth, ramp, square, rectangle and modified square of the polyblep oscillator are continuous functions of the phase around the circle: their change is at most 2/dt times the phase distance, for every phase step dt below a quarter (in exact arithmetic).", "quantifier": "all phases, steps and pulse widths", "why_tests_cant": "a jump of the naive waveform survives only at single phases", "anchors": ["knaster_core_dsp/src/ugens/polyblep.rs: blep, PolyBlep::saw, ramp, sqr, sqr2, rect"]}
{"id": "C62", "title": "Inspection describes the graph", "statement": "At any moment, between any edits, commits and audio blocks, Graph::inspection does not panic. It reports all nodes currently in the graph, each once, with inputs, outputs, parameters and the connection of every input channel and graph output (source, channels, whether it is feedback) and whether the node is heard; the handles made from it address those nodes; the arrows of the dot drawing are exactly the connections.", "quantifier": "all interleavings of edits, commits and audio blocks, all graphs", "why_tests_cant": "The report is built from the order of the last commit while nodes and edges are current; whether the two agree depends on which edits came since, which nodes wait for removal and what the audio thread has applied. The code tests count nodes twice.", "anchors": ["knaster_graph/src/graph.rs: Graph::inspection", "knaster_graph/src/inspection.rs: GraphInspection::to_dot_string", "knaster_graph/src/inspection.rs: GraphInspection::node_handles"]}
{"id": "C63", "title": "The filter has the response of its analog model at every frequency", "statement": "A sinusoid of any frequency below half the sample rate comes out of the state variable filter, after the transient, with the amplitude and phase of the analog filter its type names (low, high, band, notch, peak, all pass, bell, shelves), with frequencies warped so that the cutoff stays where it was set (in exact arithmetic).", "quantifier": "all types, settings in range, frequencies, amplitudes, phases and initial states", "why_tests_cant": "nine types over a continuum of frequencies and the limit of an unbounded run", "anchors": ["knaster_core_dsp/src/ugens/svf.rs: SvfFilter::set_coeffs, SvfFilter::process_sample"]}
{"id": "C64", "title": "A fractional delay delays by that fraction and changes no amplitude", "statement": "After setting a delay of x samples, not necessarily whole, the allpass delay delays slow signals by exactly x samples (a straight line a + b t comes out as a + b (t - x)) and leaves the amplitude of every sinusoid unchanged, after the transient; with feedback below one the feedback version is stable and leaves the amplitude of every sinusoid unchanged too (in exact arithmetic).", "quantifier": "all delays within the capacity, all moments of setting them, all feedback values below one, frequencies and initial states", "why_tests_cant": "a continuum of delays and frequencies and the limit of an unbounded run", "anchors": ["knaster_core_dsp/src/ugens/delay.rs: AllpassInterpolator, AllpassDelay::set_delay_in_frames, read, write_and_advance", "knaster_core_dsp/src/ugens/delay.rs: AllpassFeedbackDelay::process_sample"]}
{"id": "C65", "title": "Envelopes do not click", "statement": "Whatever its triggers and time changes, an ASR or AR envelope whose attack and release last at least n samples starts within 3/n of silence and never moves by more than 3/n (plus rounding) from one sample to the next, also when it is released in mid-attack or retriggered in mid-release; its attack is a straight line at the attack rate and its release is the cube of a straight line, scaled to the level at which the release began.", "quantifier": "all formats, sample rates up to 2^24, times of at least n samples, real n >= 1, histories of blocks, releases, restarts and time changes", "why_tests_cant": "A jump depends on the state in which a trigger arrives and on the times at that moment; tests trigger from rest, compare a few samples and cannot cover every interleaving of triggers, time changes and block sizes.", "anchors": ["knaster_core_dsp/src/ugens/envelopes.rs:52-83", "knaster_core_dsp/src/ugens/envelopes.rs:86-152", "knaster_core_dsp/src/ugens/envelopes.rs:206-302"]}
{"id": "C66", "title": "Noise generators compute what they document", "statement": "Pink noise is the average of nine white generators of which the i-th gets a new value every 2^(i+1) samples (the last every 256) and one that does at every sample; brown noise is a random walk whose steps are a tenth of white samples, limited to -1..1; RandomLin follows straight lines from one random number exactly to the next and never moves by more than its frequency divided by the sample rate from one sample to the next.", "quantifier": "all random number sequences, run lengths, frequencies from 0 up and frequency changes; pink averages in f64, the rest in any format", "why_tests_cant": "Noise is random, so tests only look at ranges; a wrong row schedule, a jump between lines or a wrong step size still looks like noise.", "anchors": ["knaster_core_dsp/src/ugens/noise.rs:80-113", "knaster_core_dsp/src/ugens/noise.rs:142-149", "knaster_core_dsp/src/ugens/noise.rs:184-216"]}
{"id": "C67", "title": "Playing a buffer reproduces it", "statement": "A buffer played on a server with its sample rate at rate 1 comes out sample by sample, repeated without a gap when looping; at any other rate and sample rate, frame i is the point at i times the rate (in seconds of the buffer) on the line through its samples, within the range of the samples; without looping it plays for its length divided by the rate, is followed by silence, and is reported as done exactly once, at the end of its last frame.", "quantifier": "all buffers, contents, channel counts, positive rates, server sample rates, block sizes and run lengths; buffer sample rates that divide the tick rate", "why_tests_cant": "Position errors grow with the length of the playback and depend on rates that are not multiples of each other; tests play a few short buffers at rate 1.", "anchors": ["knaster_core_dsp/src/ugens/buffer.rs:123-195", "knaster_core_dsp/src/ugens/buffer.rs:111-121", "knaster_core_dsp/src/dsp/buffer.rs:99-111"]}
{"id": "C68", "title": "Times survive conversion to floating point and back", "statement": "Seconds and Beats made from a float differ from it by less than one tick and keep the order of times; reading one as a float is accurate to the last place and keeps the order; converting to f64 and back gives the same time, so no sample is lost; the precision loss reported is exact; scaling by a number or converting a Duration is accurate to one tick.", "quantifier": "all f32/f64 values below 2^32, all times, both tick rates", "why_tests_cant": "2^64 inputs; whether a tick is lost depends on the last bits", "anchors": ["knaster_primitives/src/time.rs: Seconds::from_secs_f64, to_secs_f64, from_secs_f64_return_precision_loss, impl Mul<f64>/Mul<f32> for Seconds, impl From<Duration> for Seconds, Beats::from_beats_f32/f64, as_beats_f32/f64, impl Mul for Beats"]}
{"id": "C69", "title": "The Galactic reverb is stable", "statement": "With silent input the energy held by the delay lines never grows, whatever the settings, and changing the size does not add any; with replace above 0 the tail dies out exponentially. With settings between 0 and 1 no input makes the reverb panic, and its outputs are at most a constant times the largest input plus the dither. The output does not depend on how the frames are divided into blocks.", "quantifier": "all inputs of any length, all settings in range, all sample rates, all delay line contents, all divisions into blocks", "why_tests_cant": "Stability is a statement about infinitely many frames and about 24 delay lines with tens of thousands of samples of state; a test sees one finite tail.", "anchors": ["knaster_airwindows/src/galactic.rs: Galactic::process, Galactic::init, frexp", "knaster_core_dsp/src/ugens/delay.rs: StaticSampleDelay::set_delay_length_fraction, read_at_lin, write_and_advance, read"]}
{"id": "C70", "title": "Unit generators play the same in parts of a block", "statement": "A generator with block code of its own that processes a block in parts of any lengths (which is what the sample-accurate wrapper does at every delayed change) gives the same samples, ends in the same state, and reports the same done frame as in one go; parameter changes between the parts are in effect from their frame on.", "quantifier": "for every generator with block code of its own (arithmetic, constants, oscillators, envelopes, buffer readers, arithmetic wrappers), every state, every split of a block into parts, all parameter changes between them, and all inputs", "why_tests_cant": "Tests process whole blocks. Whether block code can be split depends on every index being relative to the right thing; the failures need a change scheduled inside a block on a particular generator, and then are a panic on the audio thread or a frame number.", "anchors": ["knaster_core_dsp/src/wrappers_core/precise_timing.rs:65-116", "knaster_core_dsp/src/ugens/buffer.rs:151-195", "knaster_core_dsp/src/ugens/envelopes.rs:153-163", "knaster_core_dsp/src/ugens/envelopes.rs:284-294", "knaster_core_dsp/src/ugens/math.rs:134-153", "knaster_core_dsp/src/ugens/osc.rs:76-81", "knaster_core_dsp/src/ugens/util.rs:61-63", "knaster_primitives/src/block.rs:269-365"]}
{"id": "C71", "title": "Nodes share memory without noticing", "statement": "The nodes of a committed graph run on one shared allocation through raw pointers. Whatever block code they have - reading and writing single samples in any order, as long as it stays within its own blocks and its output does not depend on what was there - no assertion of the pointer blocks fails, nothing outside of the allocation is accessed, no node changes anything but its own output, no node that is heard is given an input or audio-rate parameter that overlaps its own output (which would be a shared and a mutable reference to the same memory), and what is heard over any number of blocks is what evaluating each node on private copies along the connections gives. The default block code, frame by frame, is such code for every generator.", "quantifier": "for every graph reachable by edits without feedback or self-modulation whose output nodes feed nothing else, every block size, state of the allocator, initial memory, number of blocks, and all code of nodes as sequences of single reads and writes that depend on everything read so far", "why_tests_cant": "Tests compare a few outputs. Undefined behaviour from overlapping slices need not show in any output, and which buffers overlap depends on the execution order and the history of the allocator.", "anchors": ["knaster_graph/src/task.rs:18-32", "knaster_graph/src/block.rs:40-200", "knaster_core/src/ugen.rs:263-284", "knaster_graph/src/buffer_allocator.rs:60-140", "knaster_graph/src/graph_gen.rs:150-260"]}
{"id": "C72", "title": "Wavetables hold no harmonic that would alias", "statement": "A set of wavetables is built by adding sines, series of harmonics, sawtooths and odd harmonics to 17 tables, each of which is used up to its own highest frequency. Whatever is added, the discrete Fourier transform of a table is zero at every harmonic that would sound above 20 kHz at that frequency, so the table chosen for a frequency never sounds above 20 kHz; harmonics below the limit are present with the amplitude and phase asked for; the windows are the textbook functions; adding noise keeps the samples within -1..1; and normalising brings the peak to 1.", "quantifier": "for every sequence of additions with any parameters, every table, every finite f32 frequency, every harmonic, every seed and probability, and all finite samples", "why_tests_cant": "Whether a harmonic is in a table is a statement about a sum of 16384 products; tests look at a few samples of a few tables, and the limit in f32 is one rounding away from being off by one.", "anchors": ["knaster_core_dsp/src/dsp/wavetable.rs:70-330", "knaster_core_dsp/src/dsp/wavetable.rs:370-620", "knaster_core_dsp/src/dsp/xorrng.rs:20-60"]}
{"id": "C73", "title": "Panning follows the cosine law", "statement": "For every position in the documented range -1 to 1, the two gains are the cosine and the sine of (position+1) quarter-pi up to the error of the approximated functions plus 2^-22 for the rounding of the angle in f32; the power of the two channels together is that of the input up to the error of the approximations alone; the angle never moves against the position, rounding included; at the far left the right channel gets nothing but the error; and a frame depends only on the last position set.", "quantifier": "for every finite f32 position in the range, every finite sample of magnitude at most 1 in f32 and f64, every sequence of parameter changes and frames, and all sine and cosine approximations with any error bound on the first quadrant", "why_tests_cant": "A test checks a few positions; the law is a statement about all of the 2^31 positions and holds only because rounding the angle keeps it inside the quadrant where the approximation is valid.", "anchors": ["knaster_core_dsp/src/ugens/pan.rs:12-38"]}
{"id": "C74", "title": "A timed change is heard at exactly its frame", "statement": "From the handle to the samples: a node in the sample-accurate wrapper puts out, block after block, exactly what its generator puts out if every change sent to it is applied right before the frame that its time denotes (at the start of the next block if that has passed).", "quantifier": "for every generator, every input, every sequence of sends (to this and other nodes) and blocks, all block sizes and sample rates", "why_tests_cant": "Queue, block offsets and wrapper are each plausible alone; that the composition hits the frame depends on how they hand offsets on, over any number of blocks.", "anchors": ["knaster_graph/src/handle.rs:46-70", "knaster_graph/src/graph_gen.rs:107-189, 269-305", "knaster_core_dsp/src/wrappers_core/precise_timing.rs:67-148"]}
{"id": "C75", "title": "A graph inside a graph plays its contents", "statement": "Subgraphs used as nodes of other graphs, to any depth: if every graph of the nest renders correctly on its own (the condition of C17), the nest renders what its contents mean together - an inner graph outputs what its nodes play with the signals arriving at its node on the inner graph's inputs - and no other result agrees with all generators and connections.", "quantifier": "for every nesting of graphs, all sample types, generators, inputs, states and numbers of blocks", "why_tests_cant": "Tests nest one graph in another with fixed contents; aliasing between the memories and inputs of arbitrarily nested graphs is not enumerable.", "anchors": ["knaster_graph/src/graph.rs:1416-1459", "knaster_graph/src/graph_gen.rs:73-245", "knaster_graph/src/task.rs:25-31"]}
{"id": "C76", "title": "What is sent to the graph outputs is heard there", "statement": "Sending a handle to the graph outputs, with or without a list of output channels, connects each of its channels to the graph output of the same position (or the listed one), adds to or replaces what was there, and changes nothing else; this works for every handle that the types accept.", "quantifier": "for all graphs made by edits, all handles, channel lists and both forms (static and dynamic handles)", "why_tests_cant": "Tests send a few one and two channel handles to graphs with enough outputs; what was connected before, the position and number of channels are unbounded.", "anchors": ["knaster_graph/src/graph_edit.rs:363-405", "knaster_graph/src/graph_edit.rs:564-612", "knaster_graph/src/graph_edit.rs:332-345"]}
{"id": "C77", "title": "An edit neither blocks nor aborts the program", "statement": "Whatever a closure given to edit or subgraph does with the edits in scope, every call returns, and a panic in it unwinds to the caller of edit instead of ending the process.", "quantifier": "for all sequences of calls, nesting of subgraphs, places of panics and failing commits", "why_tests_cant": "A test cannot observe a deadlock or a process abort from inside, and combinations of nested closures and panics are unbounded.", "anchors": ["knaster_graph/src/graph_edit.rs:46-71", "knaster_graph/src/graph_edit.rs:207-228", "knaster_graph/src/graph_edit.rs:258-262", "knaster_graph/src/graph.rs:1410-1459"]}
{"id": "C78", "title": "A name finds its node", "statement": "A node given a name is found by that name (and by its id) for as long as it is in use, and the name a node gets from its type is the name of that type without module paths.", "quantifier": "for all graphs, slot orders, names, edits and namings, and all type names", "why_tests_cant": "Tests name one or two nodes; slot reuse, pending removals and arbitrary type names are not enumerated.", "anchors": ["knaster_graph/src/graph.rs:344-366", "knaster_graph/src/graph.rs:433-450", "knaster_graph/src/graph.rs:2150-2165", "knaster_graph/src/graph_edit.rs:126-145"]}
{"id": "C79", "title": "One-pole filters pass what their names say", "statement": "The one-pole low pass lets constants through unchanged, weakens sinusoids more the higher their frequency and halves their power at the cutoff; the high pass removes constants, lets the highest frequencies through unchanged and halves the power at the cutoff; the cutoff is always the latest one set, also when the sample rate changes.", "quantifier": "for all cutoffs, sample rates, frequencies, amplitudes, phases and earlier states of the filter, and all sequences of init, parameter changes and samples", "why_tests_cant": "The statement is about the limit of infinitely long signals, for a continuum of cutoffs and frequencies.", "anchors": ["knaster_core_dsp/src/ugens/onepole.rs:35-61", "knaster_core_dsp/src/ugens/onepole.rs:64-92", "knaster_core_dsp/src/ugens/onepole.rs:109-178"]}
{"id": "C80", "title": "The numeric sine oscillator plays the sine it is asked for", "statement": "From init on, sample n of SinNumeric is the sine of the turns made since the start or the latest reset of the phase, plus the offset; changes of frequency and offset take effect at the next sample; its phase stays between 0 and 1 so that this remains true for as long as it plays.", "quantifier": "for all frequencies (negative, zero, above the sample rate), offsets, sample rates, lengths and orders of init, parameter changes and samples, in exact arithmetic and in any IEEE format", "why_tests_cant": "The loss of precision appears after minutes of audio, and the orders of init and parameter changes are unbounded.", "anchors": ["knaster_core_dsp/src/ugens/osc.rs:215-227", "knaster_core_dsp/src/ugens/osc.rs:229-271"]}
{"id": "C81", "title": "Reads of a wavetable between two samples", "statement": "A read of a wavetable at a 32 bit phase gives the point of the line through the two samples around the phase, also across the end of the table; it lies between them, so reads stay in the range of the table and have no jumps, and no phase panics.", "quantifier": "for all tables, all 2^32 phases, all frequencies and any IEEE format of at least 24 bits", "why_tests_cant": "2^32 phases times all tables; the errors are single steps of a phase and single roundings.", "anchors": ["knaster_core_dsp/src/dsp/wavetable.rs:34-46", "knaster_core_dsp/src/dsp/wavetable.rs:306-317", "knaster_core_dsp/src/dsp/wavetable.rs:596-603"]}
{"id": "C82", "title": "Removing the constant part of a buffer", "statement": "Buffer::remove_dc removes a constant offset of every channel and leaves the rest of the sound as it was, for every buffer, and keeps the samples in their range.", "quantifier": "for all numbers of channels, lengths and samples, in exact arithmetic (and one unbounded family in f32)", "why_tests_cant": "What is left of the offset depends on the length of the buffer, and a residue in f32 needs buffers of any length.", "anchors": ["knaster_core_dsp/src/dsp/buffer.rs:134-144"]}
{"id": "C83", "title": "Saving a buffer as a 16 bit wave file", "statement": "The file that Buffer::save_to_disk writes has the channels, the sample rate and all samples of the buffer in order; every sample in -1..1 is written as the nearest of the 16 bit values, louder ones are clipped.", "quantifier": "for all buffers, numbers of channels, sample rates and samples (NaN and infinities included), in any IEEE format of at least 24 bits", "why_tests_cant": "All values of two float formats; the cut-off happens on a set of measure one but is never larger than one step.", "anchors": ["knaster_core_dsp/src/dsp/buffer.rs:315-331"]}
{"id": "C84", "title": "The band-limited waveforms have no corners", "statement": "Going around the circle of phases, every waveform of the polyblep oscillator has a continuous derivative; the ones whose simple form does not jump (triangles, trapezoids, triangular pulse, rectified sines) have a continuous second derivative; from a quarter of the sample rate on every waveform is the sine (in exact arithmetic).", "quantifier": "for all 14 waveforms, phases, steps above zero, pulse widths in 0..1, sample rates and frequencies", "why_tests_cant": "A corner is a property of the limit at single phases; samples never show it exactly.", "anchors": ["knaster_core_dsp/src/ugens/polyblep.rs:47-68", "knaster_core_dsp/src/ugens/polyblep.rs:209-230", "knaster_core_dsp/src/ugens/polyblep.rs:243-508"]}
{"id": "C85", "title": "The safe methods of the processor are memory safe", "statement": "A program that uses AudioProcessor (new, run, run_without_inputs, output_block, drop) without writing unsafe never reads or writes memory outside of its slices and of the live output buffers; a run uses exactly one block of every slice; the output block has what the graph wrote last, and processors do not disturb each other.", "quantifier": "for all programs: any number of processors, calls in any order, slices of any lengths, and all graphs", "why_tests_cant": "Reading behind the end of a slice usually returns some number; undefined behaviour is not observable by a test.", "anchors": ["knaster_graph/src/processor.rs:118-148", "knaster_graph/src/processor.rs:182-184", "knaster_graph/src/block.rs:19-76", "knaster_graph/src/block.rs:158-199"]}
{"id": "C86", "title": "A generator written by impl_ugen is what its functions say", "statement": "A unit generator written by the macro has one parameter for every function marked as one, in their order and with their names; setting a parameter calls its function with that value and nothing else; its hints are those of the attribute; its numbers of channels are the lengths of the arrays; every frame and every block is passed to the processing functions with all channels in order; the other functions are kept, and what the macro accepts compiles and does not panic.", "quantifier": "for all impl blocks (any functions, signatures, attributes and associated types), indices, values and frames", "why_tests_cant": "The macro is tested with eight generators; every combination of signatures, attributes and overrides is a different program.", "anchors": ["knaster_macros/src/lib.rs:74-771", "knaster_macros/src/lib.rs:773-968", "knaster_core/src/parameters.rs:240-262"]}
{"id": "C87", "title": "Arithmetic on handles is heard at the outputs", "statement": "When an expression over handles and constants is written and sent to graph outputs, every frame of every block has at these outputs the value of the expression, channel by channel and with the operands in the written order, of what the operands put out in that frame.", "quantifier": "for all expressions, sample types, operators, graphs, node behaviours and states, block sizes, inputs and numbers of blocks", "why_tests_cant": "It takes the macros for the operators, the edits, the order of the nodes, the sharing of their memory and the generators together; the tests listen to a few expressions of one or two operators.", "anchors": ["knaster_graph/src/graph_edit.rs:381-405", "knaster_graph/src/graph_edit.rs:588-612", "knaster_core_dsp/src/ugens/math.rs:114-153", "knaster_core_dsp/src/ugens/util.rs:33-64"]}
{"id": "C88", "title": "Signals connected to one place are heard as their sum", "statement": "When several outputs are connected, one after another and without replacing, to the same input of a node or to the same output of the graph, every frame of every block has there the sum of what these outputs carry in that frame, added up in the order of the connections; pushing nodes and connecting elsewhere in between make no difference.", "quantifier": "for all graphs, histories of pushes and connections, numbers of signals, sample types and additions, node behaviours and states, block sizes, inputs and numbers of blocks", "why_tests_cant": "The sums are made by nodes which each connection inserts in front of the ones before, and whose memory is shared with others; the tests mix two signals, once.", "anchors": ["knaster_graph/src/graph.rs:768-825", "knaster_graph/src/graph.rs:827-880"]}
{"id": "C89", "title": "Rounding does not take the band-limited waveforms out of -1..1", "statement": "In f32 and f64, after every history of sample rate, frequency, waveform, pulse width and phase changes in range, every sample of the sine, cosine, sawtooth, ramp, triangle and square of the polyblep oscillator is a number from -1 to 1.", "quantifier": "for all histories, frequencies, sample rates, run lengths, in f32 and f64", "why_tests_cant": "a single phase among 2^24 or 2^53 at which the correction is taken on the wrong side of a jump gives a click; which frequencies meet it depends on accumulated rounding", "anchors": ["knaster_core_dsp/src/ugens/polyblep.rs: PolyBlep::next_sample, blep, blamp, PolyBlep::saw, ramp, tri, sqr"]}
{"id": "C90", "title": "Rounding does not make the band-limited waveforms jump", "statement": "In f32 and f64, after every history of calls in range, each sample of the sawtooth, ramp and square of the polyblep oscillator is within a few rounding units divided by the phase step of the exact waveform at the same phase; so between two phases they change by at most what the exact waveform allows (C61) and a few such units.", "quantifier": "for all histories, phases and steps above zero and below a quarter, in f32 and f64", "why_tests_cant": "the wrong side of a jump is taken at a single phase among 2^24 or 2^53", "anchors": ["knaster_core_dsp/src/ugens/polyblep.rs: blep, PolyBlep::saw, ramp, sqr"]}
{"id": "C91", "title": "The wavetable sine oscillator plays the sine it is asked for", "statement": "Every sample SinWt puts out is the sine of the turns made since the start or the latest reset, at the frequency and offset set, up to the length of a table entry; no read is outside the table; the tables of a sine, a cosine and a sawtooth hold those functions.", "quantifier": "for all histories of samples, frequencies, offsets and resets of any length, all sample rates that fit u32, and every library sine within an error of at most 1/4", "why_tests_cant": "the error of the phase step grows with the number of samples, hours of audio; all frequencies, histories and sample rates", "anchors": ["knaster_core_dsp/src/ugens/osc.rs: SinWt, SINE_WAVETABLE_F32", "knaster_core_dsp/src/dsp/wavetable.rs: NonAaWavetable::sine, cosine, aliasing_saw, get"]}
{"id": "C92", "title": "A phasor stays in step for days", "statement": "After one init, with frequencies from zero to the sample rate, frame k of the phasor is the fraction of the turns made since the start, through all changes of frequency, up to k times 2^-51 turns and whole turns (and 2^-24 when the samples are f32), and each frame needs at most three turns of the wrap loop.", "quantifier": "for all histories of frames and frequency changes of any length and all sample rates that fit u32", "why_tests_cant": "the error accumulates over billions of frames", "anchors": ["knaster_core_dsp/src/ugens/osc.rs: Phasor"]}
{"id": "C93", "title": "The triangle is exact up to a few rounding units", "statement": "In f32 and f64, after every history of calls in range, each sample of the polyblep triangle is within 32 rounding units (2^-19 for f32) of the straight triangle whose two corners are rounded off over one phase step to either side; farther than a step from both corners it is the plain triangle to that precision.", "quantifier": "for all histories, phases and all steps above zero and below a quarter, in f32 and f64", "why_tests_cant": "the correction divides by a step that may be arbitrarily small; the loss would show at isolated phases and low frequencies only", "anchors": ["knaster_core_dsp/src/ugens/polyblep.rs: blamp, PolyBlep::tri"]}
{"id": "C94", "title": "The fixed trapezoid is exact up to a few rounding units", "statement": "In f32 and f64, after every history of calls in range, each sample of the polyblep fixed trapezoid is within 72 rounding units (less than 2^-17 for f32) of the cut-off triangle whose four corners, at odd eighths of the period, are rounded off over one phase step to either side; so it is within 1 up to as much.", "quantifier": "for all histories, phases and all steps above zero and below a quarter, in f32 and f64", "why_tests_cant": "two corners overlap within a step at high frequencies and the correction divides by the step at low ones", "anchors": ["knaster_core_dsp/src/ugens/polyblep.rs: blamp, PolyBlep::trap"]}
{"id": "C95", "title": "The variable trapezoid is exact up to rounding units over the slope", "statement": "In f32 and f64, after every history of calls in range and for every width up to 0.999, each sample of the polyblep variable trapezoid is within 72/(1 - width) rounding units of the steepened and cut-off triangle whose four corners are rounded off over one phase step to either side; so it is within 1 up to as much.", "quantifier": "for all histories, phases, widths up to 0.999 and all steps above zero and below a quarter, in f32 and f64", "why_tests_cant": "rounding of the slope and of the four corner phases is magnified by the slope; the worst case is at isolated phases", "anchors": ["knaster_core_dsp/src/ugens/polyblep.rs: blamp, PolyBlep::trap2"]}
{"id": "C96", "title": "The modified triangle is exact up to rounding units over the squared slope", "statement": "In f32 and f64, after every history of calls in range and for every width w from 0.01 to 0.99, each sample of the polyblep modified triangle is within 8/(w (1 - w))^2 rounding units of the skewed triangle with peaks at w/2 and 1 - w/2 whose two corners are rounded off over one phase step to either side; so it is within 1 up to as much.", "quantifier": "for all histories, phases, widths from 0.01 to 0.99 and all steps above zero and below a quarter, in f32 and f64", "why_tests_cant": "the test for the last line compares rounded numbers, so the wrong line can be taken beside a corner, and the factor of the corners cancels digits; the worst case is at isolated phases", "anchors": ["knaster_core_dsp/src/ugens/polyblep.rs: blamp, PolyBlep::tri2"]}
{"id": "C97", "title": "The rectified sines are exact up to 80 rounding units and the error of sin", "statement": "In f32 and f64, after every history of calls in range, each sample of the polyblep full-wave and half-wave rectified sines is within 80 rounding units plus twice the error of the platform's sin of the rectified sine without its mean, whose corners are filled over one phase step to either side.", "quantifier": "for all histories, phases and all steps above zero and below a quarter, in f32 and f64, on every platform whose sin stays within 1 and is wrong by at most delta from 0 to 4", "why_tests_cant": "the error depends on the phase, the step and the platform; the worst case is at isolated phases", "anchors": ["knaster_core_dsp/src/ugens/polyblep.rs: blamp, PolyBlep::half, PolyBlep::full"]}
{"id": "C98", "title": "The triangular pulse is exact up to rounding units over the width", "statement": "In f32 and f64, after every history of calls in range and for every width from 0.01 to 1, each sample of the polyblep triangular pulse is within 112/width rounding units of a triangle of that width and height 2 around phase 1/4, lowered by the width, whose two feet and peak are rounded off over one phase step to either side.", "quantifier": "for all histories, phases, widths from 0.01 to 1 and all steps above zero and below a quarter, in f32 and f64", "why_tests_cant": "the start of the pulse is found from a rounded phase that can wrap around early or late, and the slope magnifies its error; the worst case is at isolated phases", "anchors": ["knaster_core_dsp/src/ugens/polyblep.rs: blamp, PolyBlep::trip"]}
