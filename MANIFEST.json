{
 "claims": [
  {
   "property": "C01",
   "status": "proved",
   "theorems": [
    "C01_seconds_add_exact",
    "C01_beats_add_exact",
    "C01_seconds_add_comm",
    "C01_seconds_add_assoc",
    "C01_seconds_add_monotone",
    "C01_beats_sum_exact",
    "C01_beats_fraction_exact"
   ],
   "note": "Seconds and Beats: addition is exact on normalised values, panics exactly on overflow, is commutative, associative and monotone; sums of beats and the documented beat fractions are exact. Conversions from floats are C68."
  },
  {
   "property": "C02",
   "status": "proved",
   "theorems": [
    "C02_seconds_checked_sub",
    "C02_seconds_saturating_sub",
    "C02_beats_checked_sub",
    "C02_beats_saturating_sub"
   ],
   "note": "Checked and saturating subtraction of Seconds and Beats are exact on normalised values."
  },
  {
   "property": "C03",
   "status": "proved",
   "theorems": [
    "C03_seconds_order",
    "C03_beats_order",
    "C03_seconds_max"
   ],
   "note": "Ordering of normalised Seconds and Beats is the ordering of exact tick counts."
  },
  {
   "property": "C04",
   "status": "partial",
   "theorems": [
    "C04_frames_roundtrip_refuted",
    "C04_frames_roundtrip_iff_partial",
    "C04_resample_floor_partial",
    "C04_frames_roundtrip_loss_partial"
   ],
   "note": "REFUTED in general: at 44000 Hz frame 1 becomes frame 0. Proved: lossless iff the sample rate divides 282240000 (all common rates do), otherwise at most one frame is lost; cross-rate conversion is the exact floor."
  },
  {
   "property": "C05",
   "status": "partial",
   "theorems": [
    "C05_tesimals_roundtrip_partial",
    "C05_ticks_roundtrip_partial",
    "C05_tesimals_roundtrip_refuted"
   ],
   "note": "REFUTED for non-normalised values (such as Seconds::MAX) and for tick counts of 2^32 seconds or more. Proved for every normalised value and every tick count below that."
  },
  {
   "property": "C06",
   "status": "partial",
   "theorems": [
    "C06_mul_refuted",
    "C06_mul_too_small_refuted",
    "C06_mul_whole_partial",
    "C06_exactly"
   ],
   "note": "REFUTED: 0.5 s * 0.5 s gives 70560000 s and 1.5 s * 2 s gives 2 s. C06_exactly: the product is always seconds times seconds plus the product of the tick counts of the subsecond parts, and it is the rounded down product if and only if that product of tick counts equals the sum of the missing terms; in particular for whole seconds (C06_mul_whole_partial)."
  },
  {
   "property": "C07",
   "status": "partial",
   "theorems": [
    "C07_new_block_silent",
    "C07_writes_isolated_partial",
    "C07_window_shows_partial",
    "C07_slice_agrees",
    "C07_slice_write_agrees",
    "C07_iterator",
    "C07_window_escape_refuted",
    "C07_frame_overrun_refuted"
   ],
   "note": "REFUTED for partial blocks: a window or frame index past the window reaches samples outside it (of the same block) or panics. Proved: fresh blocks are silent; writes inside a window change exactly that sample; slices and the iterator show exactly the window."
  },
  {
   "property": "C08",
   "status": "proved",
   "theorems": [
    "C08_never_cyclic"
   ],
   "note": "For every edit history (failed edits, feedback connections, frees and commits included) the stored audio connections are acyclic."
  },
  {
   "property": "C09",
   "status": "partial",
   "theorems": [
    "C09_failed_edit_unchanged",
    "C09_references_exist_partial",
    "C09_feedback_refuted",
    "C09_freed_source_refuted"
   ],
   "note": "REFUTED: a feedback connection is stored as a connection from a node without outputs, and a connection from a node already freed is accepted. Proved: edits that return an error change nothing; after every other history each stored audio connection refers to a live node and an existing channel."
  },
  {
   "property": "C10",
   "status": "proved",
   "theorems": [
    "C10_circular_iff",
    "C10_circular_sound"
   ],
   "note": "For every reachable graph, existing nodes and channels and a sink not yet freed: refused as circular iff the sink already reaches the source; otherwise accepted. (Feedback connections are not checked.)"
  },
  {
   "property": "C11",
   "status": "proved",
   "theorems": [
    "C11_connect_to_node",
    "C11_connect_to_output",
    "C11_repeated",
    "C11_feedback"
   ],
   "note": "Sums are read through the inserted adders as lists of (source, channel); additive, replacing, repeated, graph-input, graph-output and feedback connections. The sink must not itself be an inserted adder."
  },
  {
   "property": "C12",
   "status": "partial",
   "theorems": [
    "C12_disconnect_output",
    "C12_disconnect_output_succeeds",
    "C12_disconnect_input_partial",
    "C12_disconnect_graph_output_partial",
    "C12_commit_keeps_sums_partial",
    "C12_commit_succeeds_partial",
    "C12_commit_panics_refuted",
    "C12_graph_input_refuted",
    "C12_graph_input_panics_refuted",
    "C12_commit_exactly",
    "C12_commit_untouched",
    "C12_through_handles",
    "C12_new_pair"
   ],
   "note": "REFUTED: commit panics when an adder lost one input while some graph output is unconnected; disconnecting a graph input also clears the graph output with that number (or panics). Proved: disconnecting a node output removes exactly it from every sum and always succeeds; disconnecting inputs and the clean-up of adders at commit keep all other sums (graphs without feedback pairs); as long as every adder keeps an input the commit succeeds exactly if every adder has both inputs or every graph output is connected; with complete adders and used feedback pairs a commit changes nothing. The two hidden nodes of a feedback connection are new, name each other and are marked to be freed when unused (C12_new_pair)."
  },
  {
   "property": "C13",
   "status": "partial",
   "theorems": [
    "C13_rejected_iff_partial",
    "C13_disconnect_rejects_partial",
    "C13_other_graph_refuted"
   ],
   "note": "REFUTED: the test compares with the bitwise complement, so handles of other graphs are accepted by connect, parameter link and free. Proved: exactly the handles whose id is the complement are rejected; disconnects reject correctly."
  },
  {
   "property": "C14",
   "status": "partial",
   "theorems": [
    "C14_free_unreferenced_partial",
    "C14_free_then_commit_partial",
    "C14_immortal_survives",
    "C14_immortal_error",
    "C14_parameter_link_refuted",
    "C14_commit_panics_refuted",
    "C14_free_then_commit_exactly"
   ],
   "note": "REFUTED: audio-rate parameter links from the freed node stay, and the next commit may panic. Proved: no audio input or graph output refers to the node; without adders and feedback pairs the next commit succeeds; with adders, and none reading the node twice, it succeeds exactly if no adder reads the node or every graph output has another source; no edit removes an immortal node."
  },
  {
   "property": "C15",
   "status": "partial",
   "theorems": [
    "C15_self_link_refuted",
    "C15_loop_refuted",
    "C15_audio_stays_acyclic_partial"
   ],
   "note": "REFUTED: a node may be linked to its own parameter, and to a parameter of a node it reads. Proved: linking never makes the audio connections cyclic."
  },
  {
   "property": "C16",
   "status": "partial",
   "theorems": [
    "C16_each_node_once",
    "C16_order_exists",
    "C16_order_exists_plain",
    "C16_topological_partial",
    "C16_topological_starts_partial",
    "C16_topological_refuted",
    "C16_unheard_refuted",
    "C16_freed_modulator_panics_refuted",
    "C16_starts_exactly",
    "C16_unheard_exactly"
   ],
   "note": "REFUTED in general: with two graph outputs a node can be ordered before the node it reads (A feeds output 0, a dead end and C; C feeds output 1), nodes connected to no output run in slot order, and freeing a node that still modulates a parameter makes ordering panic. Proved: every live node appears exactly once; ordering never panics or loops when all sources are live; without feedback edges and loops, the nodes connected to outputs run after all they read exactly if no start node picked is upstream of one processed before it (in particular when no output source feeds another one); a node connected to no output does exactly if its sources are connected to an output or in earlier slots."
  },
  {
   "property": "C17",
   "status": "partial",
   "theorems": [
    "C17_blocks_partial",
    "C17_block_partial",
    "C17_output_reuse_refuted",
    "C17_edits_keep_states",
    "C17_after_commit_partial",
    "C17_exactly_sound_plans",
    "C17_plain_graphs_sound"
   ],
   "note": "REFUTED in general: a node connected to a graph output that also feeds other nodes loses its buffer before the output is read, because graph outputs are not counted as borrows (C17_output_reuse_refuted). Proved for all behaviours, buffer contents and block counts when connections come from existing outputs, there is no feedback or modulation cycle, and output nodes feed nothing else. For graphs without feedback C17_exactly_sound_plans gives the exact condition, output nodes that feed others included: a plan renders the graph for all behaviours if and only if every heard node runs after what it reads and no task after the source of a graph output writes over the channel it sends there; the converse is proved with nodes whose samples record where they come from. In a session, no edit or commit changes the states of the nodes (C17_edits_keep_states), and from a commit of such a graph on the blocks are those of the graph starting in the states before the commit (C17_after_commit_partial)."
  },
  {
   "property": "C18",
   "status": "partial",
   "theorems": [
    "C18_unconnected_input",
    "C18_unconnected_output",
    "C18_disconnected_output_refuted"
   ],
   "note": "Proved for every session of edits, commits and blocks, relative to the graph as last planned. REFUTED for the current graph: disconnecting a graph output does not request new tasks, so the output keeps playing after a commit (C18_disconnected_output_refuted)."
  },
  {
   "property": "C19",
   "status": "partial",
   "theorems": [
    "C19_requests_succeed_partial",
    "C19_held_apart",
    "C19_held_inside",
    "C19_nodes_apart_partial",
    "C19_silent_channel_spared",
    "C19_plan_succeeds_partial",
    "C19_no_outputs_refuted",
    "C19_no_outputs_allocator_refuted",
    "C19_no_outputs_end_refuted"
   ],
   "note": "REFUTED for nodes without outputs: an empty region shares its offset with the next one and the commit panics. Proved for every history of requests for at least one channel, and for plans of graphs whose connections come from existing outputs."
  },
  {
   "property": "C20",
   "status": "partial",
   "theorems": [
    "C20_pair_delays_one_block_partial",
    "C20_pair_other_order_refuted",
    "C20_feedback_not_delayed_refuted"
   ],
   "note": "REFUTED: new_feedback_nodes creates two FeedbackSinks, so the feedback connection reads an output that does not exist (here: the current block). The intended Sink/Source pair is proved to delay by exactly one block when the sink runs first; in the other order the delay is two blocks."
  },
  {
   "property": "C21",
   "status": "partial",
   "theorems": [
    "C21_continues_partial",
    "C21_blocks_run_partial",
    "C21_stays_partial",
    "C21_complete_partial",
    "C21_one_owner_partial",
    "C21_ring_full_refuted",
    "C21_ring_full_swaps_refuted"
   ],
   "note": "REFUTED when the task-data ring buffer is full: commit_changes has already moved the UGens into the list that is then dropped, so (if the caller survives the unwrap in GraphEdit's Drop, e.g. by catch_unwind) a later block panics (C21_ring_full_refuted) or runs a node with another node's UGen (C21_ring_full_swaps_refuted). Proved for all interleavings of edits, commits and audio-thread steps in which no commit met a full ring: every node in a block has exactly the state earlier blocks left, nodes that ran and were not freed keep running, no step panics, every UGen has exactly one owner, and an idle system runs exactly the nodes of the graph."
  },
  {
   "property": "C22",
   "status": "partial",
   "theorems": [
    "C22_removed_after_release",
    "C22_never_run_again",
    "C22_ugen_dropped_late",
    "C22_reclaimed",
    "C22_record_removed_before_switch_refuted"
   ],
   "note": "REFUTED in the literal wording for the node record only: the applied flag is stored one step before the list is replaced, so the record can go while the old list is still current (it is not run again). Proved for all interleavings, full ring included: a commit removes a node only after the audio thread applied a list without it, everything it may still pick up is without it, and no later block runs it. Proved while no commit met a full ring: the UGen itself is dropped only when it is in neither the current nor any waiting list, and pending nodes are removed by the next commit once everything was picked up."
  },
  {
   "property": "C23",
   "status": "partial",
   "theorems": [
    "C23_at_most_once",
    "C23_fate_partial",
    "C23_on_time_partial",
    "C23_within_a_second_partial",
    "C23_far_future_refuted",
    "C23_queue_full_refuted",
    "C23_offset_truncated_refuted",
    "C23_fate_relative"
   ],
   "note": "REFUTED: a change more than sr/bs+1 blocks (about a second) ahead is discarded (C23_far_future_refuted; the documentation of Time::after mentions it), one received while the queue is full is dropped (C23_queue_full_refuted), and in blocks above 65536 frames the offset is truncated (C23_offset_truncated_refuted). Proved for all runs: at most once; and, when there was room, the complete fate: delivered in the first of the next sr/bs+2 blocks in which it is due, its node runs and its token is active, with the exact offset; in particular always on time within a second. C23_fate_relative gives the complete fate of relative times at every sample rate."
  },
  {
   "property": "C24",
   "status": "proved",
   "theorems": [
    "C24_order",
    "C24_last_sent_wins"
   ],
   "note": "For all runs and all token/node patterns: deliveries of one block are in the order of sending, and the value given last is that of the change sent last."
  },
  {
   "property": "C25",
   "status": "partial",
   "theorems": [
    "C25_exact_partial",
    "C25_drift_refuted",
    "C25_long_delay_refuted",
    "C25_every_rate_partial"
   ],
   "note": "REFUTED for sample rates that do not divide the tick rate (one frame late, C25_drift_refuted) and for delays beyond about a second (discarded, C25_long_delay_refuted). Proved for sample rates that divide the tick rate (all common ones) and delays up to a second: exactly floor(T*sr) frames after the start of the receiving block. At every other rate with (sr/bs + 1) * sr <= 282240000 and a node that runs in every block: applied once, never early, at most one frame late (C25_every_rate_partial)."
  },
  {
   "property": "C26",
   "status": "partial",
   "theorems": [
    "C26_on_time_partial",
    "C26_no_offset_at_block_start_refuted",
    "C26_out_of_order_refuted",
    "C26_per_sample_lost_refuted",
    "C26_per_sample_partial",
    "C26_samples_partial"
   ],
   "note": "REFUTED: an offset given once for a parameter stays in force: a later change without offset is delayed by it (next_delay is never reset, GraphGen only sends non-zero offsets). Changes out of time order are applied late; per-sample processing never resets the change counter, so changes are lost. Proved for whole runs over any frame-wise UGen when each parameter is always or never changed with offsets, changes come in time order, offsets lie in the block and their number is within the maximum. C26_samples_partial says the same sample by sample and channel by channel: what the block holds at frame f, channel c is what the UGen puts out there with every change in force from its own frame. One sample at a time, with room for the changes, all of them are made before the sample in their order (C26_per_sample_partial)."
  },
  {
   "property": "C27",
   "status": "proved",
   "theorems": [
    "C27_parts_are_whole",
    "C27_wrapper_splits",
    "C27_samples"
   ],
   "note": "Any list of partial lengths, on windows of real block models, panics included; and the wrapper's own splitting. For UGens with the default process_block whose process does not read the block metadata. C27_samples says which samples these are: frame f, channel c of the output is channel c of what the UGen puts out for input frame f after the frames before it, and nothing outside the window is written."
  },
  {
   "property": "C28",
   "status": "partial",
   "theorems": [
    "C28_value_at_partial",
    "C28_ramp_partial",
    "C28_off_on_partial",
    "C28_exact_end_refuted",
    "C28_starts_at_current_refuted",
    "C28_length_change_refuted",
    "C28_zero_length_refuted",
    "C28_audio_rate_refuted",
    "C28_partial_blocks_refuted"
   ],
   "note": "REFUTED: the first ramp starts at 0 instead of the current value; changing the ramp length during a ramp stops it for ever; a ramp of length 0 gives NaN; an audio-rate ramp advances one frame per block; partial blocks advance it by whole blocks; the end value (end-start)*1+start is not exactly the target in f64. Proved in IEEE arithmetic (Flocq): for a block-rate ramp, the value in each block is that of the line, monotone, starting at the start value, and at and after the end it is the target (exactly if target-start is representable, else within two half-ulps). Proved: switching smoothing off and on again during a ramp keeps the value reached (C28_off_on_partial)."
  },
  {
   "property": "C29",
   "status": "proved",
   "theorems": [
    "C29_matching_sample",
    "C29_read_in_bounds",
    "C29_driven_for_ever"
   ],
   "note": "For every inner UGen, all link/set calls, blocks and divisions into parts. Also: the raw pointer read stays inside the block, and a driven parameter stays driven for ever (no call unsets a buffer)."
  },
  {
   "property": "C30",
   "status": "partial",
   "theorems": [
    "C30_silence_partial",
    "C30_no_request",
    "C30_free_self",
    "C30_remove_me",
    "C30_two_requests_refuted"
   ],
   "note": "REFUTED when several nodes ask in the same block: the request of the node processed last counts, so an earlier frame is ignored (C30_two_requests_refuted). Proved for all task lists, node behaviours, inputs and block counts: blocks before the first request are exactly the rendered ones, the block of the request is the rendered one before the frame of the last request and zero from it on in every channel, all later blocks are zero; without a request nothing changes. Also: a block of a live graph marks for freeing exactly the nodes pushed with FreeSelf that are done in it, in processing order, and a freed graph marks none (C30_free_self). The flag that makes the parent drop the graph is set exactly if some block had a request, and from then on no block changes the graph (C30_remove_me)."
  },
  {
   "property": "C31",
   "status": "partial",
   "theorems": [
    "C31_frame_clock",
    "C31_shared_clock_partial",
    "C31_shared_clock_wraps_refuted"
   ],
   "note": "Frame clock proved for all n with n*b < 2^64; the shared clock is the exact tick (rounded down) until 2^32 seconds, after which its seconds wrap (C31_shared_clock_wraps_refuted)."
  },
  {
   "property": "C32",
   "status": "partial",
   "theorems": [
    "C32_cpal",
    "C32_inputs_refuted",
    "C32_no_channels_refuted",
    "C32_jack_partial",
    "C32_jack_refuted",
    "C32_jack_inputs_refuted"
   ],
   "note": "REFUTED: a graph with inputs is accepted by the cpal backend and panics in its first callback (C32_inputs_refuted); so does any callback of a device that reports no channels (C32_no_channels_refuted); the JACK callback skips frames of every block, leaves part of the device buffer unwritten and repeats stale input when the server's buffer size differs from the one at creation (C32_jack_refuted, C32_jack_inputs_refuted). Proved in full for cpal output with any sequence of buffer sizes and any processor without inputs (C32_cpal), and for JACK with a constant buffer size. Buffers that are not whole frames, and the sample format conversions, are outside of the statement."
  },
  {
   "property": "C33",
   "status": "partial",
   "theorems": [
    "C33_kept",
    "C33_messages_partial",
    "C33_unambiguous",
    "C33_channels",
    "C33_full_refuted",
    "C33_stuck_forever",
    "C33_stuck_refuted"
   ],
   "note": "REFUTED: parts are dropped one by one when the buffer is full, so messages are truncated and merged with the next (C33_full_refuted), and a message with as many parts as the capacity blocks the log for ever (C33_stuck_refuted, C33_stuck_forever). Proved: for every interleaving of sends and polls, every capacity and every wrap-around the handler gets complete messages in two calls each, together with the queue exactly what was kept, in order and once (C33_kept); without drops these are the logged messages and a poll delivers all complete ones (C33_messages_partial); channels are independent."
  },
  {
   "property": "C34",
   "status": "partial",
   "theorems": [
    "C34_one_value",
    "C34_expr_partial",
    "C34_handles",
    "C34_constant_right",
    "C34_constant_left_swapped",
    "C34_counts_differ",
    "C34_left_refuted",
    "C34_integer_partial",
    "C34_integer_refuted"
   ],
   "note": "REFUTED: a constant on the left is always used as the second operand, so `1 - x` computes x - 1 and `1 / x` computes x / 1 (C34_left_refuted, C34_constant_left_swapped for every operator); an i32 constant goes through f32 and 16777217 becomes 16777216 even in an f64 graph (C34_integer_refuted). Proved: two handles and constants on the right in full, and arbitrary expressions whose left constants meet commuting operators, for every sample type, operator meaning and reachable graph; existing connections and signals are undisturbed. Dynamic handles with different counts panic (C34_counts_differ)."
  },
  {
   "property": "C35",
   "status": "partial",
   "theorems": [
    "C35_stack",
    "C35_chain",
    "C35_all_connected",
    "C35_positions",
    "C35_try_edits",
    "C35_dropped_refuted",
    "C35_feedback",
    "C35_feedback_all_connected",
    "C35_node",
    "C35_out",
    "C35_inputs"
   ],
   "note": "REFUTED: a pair that would close a loop is logged and skipped while the other pairs are connected (C35_dropped_refuted). Proved: stacking, static and dynamic, in full; after `x >> y` or the replacing form what is heard at every node input is exactly what was heard before plus (or replaced by) the accepted pairs of equal position; every pair is accepted when the channels exist and nothing leads back from y to x. With feedback (to_feedback and the replacing form) every accepted node output reaches its input through its own new pair of feedback nodes, everything else is heard as before (C35_feedback), and all pairs are accepted when the channels exist (C35_feedback_all_connected); that the heard node of a pair has no outputs is C09_feedback_refuted. try_to keeps the connections made before its error (C35_try_edits). Handles of pushed nodes, selected outputs and graph inputs have exactly those channels, in order, and only numbers out of range are refused."
  },
  {
   "property": "C36",
   "status": "partial",
   "theorems": [
    "C36_direct",
    "C36_static",
    "C36_dynamic_partial",
    "C36_index_refuted",
    "C36_index_wraps",
    "C36_connect_refuted",
    "C36_duplicate_refuted"
   ],
   "note": "REFUTED: indices are compared after truncation to 16 bits, so index 65536 addresses parameter 0 over a dynamic handle and is sent as 65536 by Graph::set (C36_index_refuted, C36_index_wraps); connecting to a parameter index is unchecked (C36_connect_refuted); the second of two parameters with the same name cannot be addressed by name (C36_duplicate_refuted). Proved: direct and static addressing in full (at most 2^16 parameters), dynamic addressing and Graph::set for indices below 2^16."
  },
  {
   "property": "C37",
   "status": "partial",
   "theorems": [
    "C37_range_partial",
    "C37_release_partial",
    "C37_range_refuted",
    "C37_never_done_refuted",
    "C37_release_time_partial"
   ],
   "note": "REFUTED: a restart while the envelope is held at its sustain level attacks from t above 1, so the output leaves [0,1] (2 after two restarts with attack 0); a release longer than about 699 s at 48 kHz in f32 never moves and never reports done. Proved in IEEE arithmetic for every format, sample rate, non-negative times and histories without such a restart: outputs finite and in [0,1]. Proved: after a release with rate above half an ulp of 1 there is exactly one done report, with the right frame whatever the block sizes, after the number of steps the rate implies (with the rounding error per step), and 0 afterwards. Proved: with times set in seconds, the release rate used is the one for the release time last set, whatever was set before or after for the attack (C37_release_time_partial)."
  },
  {
   "property": "C38",
   "status": "partial",
   "theorems": [
    "C38_range",
    "C38_trigger_partial",
    "C38_never_done_refuted",
    "C38_time_partial"
   ],
   "note": "The range part is proved for all times and histories (C38_range). REFUTED for very long times: an f32 attack of 700 s at 48 kHz stops at 0.5. Proved for rates above half an ulp of 1: each trigger gives a non-falling attack to exactly 1, then one done report after the release, frame-accurate over any blocks, then 0. Proved: the attack and release rates used are those for the times last set, in either order (C38_time_partial)."
  },
  {
   "property": "C39",
   "status": "partial",
   "theorems": [
    "C39_finite_partial",
    "C39_breakpoints_partial",
    "C39_line_end_partial",
    "C39_zero_duration_refuted",
    "C39_no_segments_refuted",
    "C39_stop_refuted",
    "C39_loop_start_refuted",
    "C39_duration_partial"
   ],
   "note": "REFUTED: a zero-length segment followed by another one outputs NaN; an envelope without segments panics; a stop just after the end of a segment jumps beyond both breakpoints; a loop restarts from the last value, not the start value. Proved in IEEE f64: for segment durations in [2^-64, 2^20] s and any history of restarts, jumps, speed changes and samples (no stops) there is no panic and every sample is finite; a restart passes exactly through all breakpoint values in order, stays between neighbours (between a and the computed a+(b-a), which is b when the difference is representable), reports done once, with the last value, and holds it for ever; the number of samples before the end, times the time scale over the sample rate, is the sum of the durations up to one step and a rounding error per sample."
  },
  {
   "property": "C40",
   "status": "partial",
   "theorems": [
    "C40_delay_partial",
    "C40_max_delay_refuted",
    "C40_longer_refuted",
    "C40_empty_refuted"
   ],
   "note": "REFUTED: the maximal delay itself gives no delay at all, and longer settings panic. Proved for every delay below the buffer length, including changes while running. A line shorter than one sample panics at its first frame (C40_empty_refuted)."
  },
  {
   "property": "C41",
   "status": "partial",
   "theorems": [
    "C41_access_partial",
    "C41_change_partial",
    "C41_change_blocks_refuted",
    "C41_change_panics_refuted"
   ],
   "note": "REFUTED: after set_delay_length block access keeps using the old length or panics. Proved: any mixture of block and sample access without a length change; sample access after a change settles after d+1 samples."
  },
  {
   "property": "C42",
   "status": "partial",
   "theorems": [
    "C42_silent_partial",
    "C42_feedback_silent_partial",
    "C42_fresh_refuted",
    "C42_clear_refuted",
    "C42_negative_refuted",
    "C42_delay_time",
    "C42_clear_forgets",
    "C42_clear_short_refuted",
    "C42_reset_partial",
    "C42_reset_refuted",
    "C42_empty_refuted"
   ],
   "note": "REFUTED: a fresh allpass delay set to two frames, or a cleared one, clicks with an output of 1 on silence (the interpolator starts with an imaginary input of one). Proved: silence once one frame has been processed with the default setting, for all delay settings within the capacity, with and without feedback; the parameter for the delay time never panics for delays that are not negative and ignores those beyond the line. Beyond silence: a delay of one and a half frames or more that is set and cleared has forgotten its contents, for every precision, length, history and input, with and without feedback (C42_clear_forgets); a delay of one frame has not (C42_clear_short_refuted). set_delay_in_frames_and_clear forgets the line but not the interpolator: the sample read last before it is heard after it (C42_reset_refuted); delays that agree on the interpolator sound the same after it (C42_reset_partial). A line shorter than one sample panics at its first frame (C42_empty_refuted)."
  },
  {
   "property": "C43",
   "status": "proved",
   "theorems": [
    "C43_never_zero",
    "C43_period",
    "C43_every_value",
    "C43_unit_f32",
    "C43_unit_f64"
   ],
   "note": "Full period proved for every seed (linear algebra over bits, checked by the kernel): never zero, two numbers equal exactly when their positions differ by a multiple of 2^32-1, every non-zero value occurs; gen_f32/gen_f64 are in (0,1]."
  },
  {
   "property": "C44",
   "status": "proved",
   "theorems": [
    "C44_rows",
    "C44_white_f32",
    "C44_range"
   ],
   "note": "No assertion fires for any inputs; with f64 the running sum is the exact sum of the rows (no rounding) and the output is in -1..1. The random number generator itself is an input."
  },
  {
   "property": "C45",
   "status": "partial",
   "theorems": [
    "C45_default_partial",
    "C45_range_partial",
    "C45_block",
    "C45_start_refuted",
    "C45_end_refuted",
    "C45_start_at_refuted",
    "C45_new_refuted",
    "C45_channels_refuted",
    "C45_empty_refuted",
    "C45_negative_refuted"
   ],
   "note": "REFUTED: start_s, duration_s, end_s and start_at are not limited to the buffer, Buffer::new with several channels counts samples as frames, a player may have more channels than the buffer, and an empty buffer is accepted; each reads outside the memory. Proved (f64 arithmetic via Flocq): with the default range, a rate dividing the tesimals per second and no more channels than the buffer, every history of rate/looping/restart/render operations of any length reads inside (rates may be negative, infinite or NaN); the same for any range while start and end stay inside the buffer; blocks read what frames read."
  },
  {
   "property": "C46",
   "status": "proved",
   "theorems": [
    "C46_limit_f32",
    "C46_limit_f64"
   ],
   "note": "Proved for every IEEE number of both precisions, including infinities, NaN and signed zeros."
  },
  {
   "property": "C47",
   "status": "partial",
   "theorems": [
    "C47_phase",
    "C47_in_table",
    "C47_constant",
    "C47_table_choice",
    "C47_offset_refuted",
    "C47_offset_bound_partial",
    "C47_negative_refuted",
    "C47_short_table_refuted"
   ],
   "note": "REFUTED: the phase offset is scaled by 65536 instead of 2^30, so half a period moves the lookup by nothing; negative frequencies stop the oscillator; set_from_buffer accepts too short tables, which the unchecked lookup then overruns. Proved: exact phase modulo the table size for all histories, lookups inside full-size tables, table choice in range."
  },
  {
   "property": "C48",
   "status": "partial",
   "theorems": [
    "C48_math",
    "C48_math1",
    "C48_default",
    "C48_value",
    "C48_wrapper",
    "C48_closure_partial",
    "C48_closure_mono_partial",
    "C48_stack",
    "C48_history",
    "C48_transparent",
    "C48_closure_transparent",
    "C48_closure_refuted"
   ],
   "note": "REFUTED for the closure wrapper with a closure that keeps state and more than one channel (a block calls it channel by channel, frames call it frame by frame). Proved for every sample type, operation, channel count, block size, state and previous output contents: MathUGen, Math1UGen, the default process_block, all arithmetic wrappers, closures without state or on one channel, and whole histories of parameter changes and blocks for any stack of wrappers."
  },
  {
   "property": "C49",
   "status": "partial",
   "theorems": [
    "C49_apply",
    "C49_shape",
    "C49_delay_partial",
    "C49_link_partial",
    "C49_never_fails_partial",
    "C49_delay_refuted",
    "C49_link_refuted",
    "C49_drop_refuted",
    "C49_smoothing_refuted"
   ],
   "note": "REFUTED: WrMul passes delays and links for its own parameter to the wrapper inside, which panics; WrDone, WrArParams, WrSmoothParams and WrArParamToInput drop delays (all but WrArParams also links); a smoothing setting panics without WrSmoothParams. Proved for any stack and call history: setting a parameter with a value of its type never panics, touches no other parameter, and reaches its owner unless a delay, link or smoothing is active. Delays and links proved for stacks whose outer layers forward them."
  },
  {
   "property": "C50",
   "status": "partial",
   "theorems": [
    "C50_range_partial",
    "C50_wrap_partial",
    "C50_f32_partial",
    "C50_one_refuted",
    "C50_negative_refuted",
    "C50_hang_refuted"
   ],
   "note": "REFUTED: in f32 the output can be exactly 1; negative frequencies run away; huge or infinite frequencies hang the audio thread. Proved: for steps of 0 to 2^52 periods per sample the loop ends after at most that many turns plus one and the f64 phase stays in [0,1)."
  },
  {
   "property": "C51",
   "status": "partial",
   "theorems": [
    "C51_interval_partial",
    "C51_interval_refuted"
   ],
   "note": "REFUTED: a probe configured for N samples logs every N+1 samples (counter reset to N and then counted down to 0 before the next log). Proved for every N and every run length: the logged samples are exactly the multiples of N+1."
  },
  {
   "property": "C52",
   "status": "partial",
   "theorems": [
    "C52_round_trip",
    "C52_total",
    "C52_descriptions_partial",
    "C52_range_refuted",
    "C52_explicit_refuted"
   ],
   "note": "REFUTED for the advertised range: the inclusive upper bound is the number of variants, which is no variant; and for enums with explicit discriminants the descriptions are keyed by position rather than by value. Proved: encode/decode round trip for every enum with distinct discriminants, every integer decodes to the encoded variant or the default, and without explicit discriminants the descriptions list exactly the legal values."
  },
  {
   "property": "C53",
   "status": "partial",
   "theorems": [
    "C53_one_pole",
    "C53_one_pole_f32",
    "C53_one_pole_f64",
    "C53_negative_cutoff_refuted",
    "C53_brown_f32",
    "C53_brown_f64",
    "C53_random_f32",
    "C53_random_f64",
    "C53_negative_freq_refuted"
   ],
   "note": "REFUTED for negative frequencies: a negative cutoff gives a coefficient above 1 and a negative random frequency runs out of range. Proved otherwise: one-pole range in exact arithmetic and powers of two in IEEE arithmetic (both precisions), brown noise in -1..1, interpolated random in 0..1 exactly in IEEE arithmetic. exp() is not modelled: the coefficient is any number in 0..1."
  },
  {
   "property": "C54",
   "status": "partial",
   "theorems": [
    "C54_whole_partial",
    "C54_one_refuted",
    "C54_too_long_refuted",
    "C54_first_frame_refuted",
    "C54_cleared_partial"
   ],
   "note": "REFUTED: a delay of one frame becomes a delay of the whole line plus one. Proved for all whole delays from two frames up to the capacity (frame 0 excluded: the click of C42). Frame 0 is always one, whatever the input (C54_first_frame_refuted). From any state, in any precision: after setting N frames (two up to below the capacity) and clearing, the output is zero before frame N-1, one at it, and the input N frames earlier from frame N on (C54_cleared_partial)."
  },
  {
   "property": "C55",
   "status": "partial",
   "theorems": [
    "C55_drift_refuted",
    "C55_bound_partial"
   ],
   "note": "REFUTED: in f32 the running sum accumulates rounding errors; a sequence of 512 possible random numbers drives the output above 1 after 256 samples (C55_drift_refuted). Proved: sample n of any run of up to 2^20 samples exceeds 1 by at most n * 2^-22 + 2^-24, being that close to the exact average."
  },
  {
   "property": "C56",
   "status": "partial",
   "theorems": [
    "C56_done_partial",
    "C56_once_refuted"
   ],
   "note": "REFUTED: the triggered flag is never cleared, so every later sample marks the node done again. Proved for all histories: no sample before the first trigger is marked and all samples after it are."
  },
  {
   "property": "C57",
   "status": "partial",
   "theorems": [
    "C57_energy_partial",
    "C57_bounded_partial",
    "C57_ring_out_partial",
    "C57_init_ready",
    "C57_stays_ready",
    "C57_above_nyquist_refuted",
    "C57_zero_resonance_refuted",
    "C57_float_partial",
    "C57_double_damping",
    "C57_single_damping",
    "C57_rounding_partial"
   ],
   "note": "REFUTED: cutoff and resonance are not limited. With a cutoff of three quarters of the sample rate the impulse response of a low pass grows without bound (exact arithmetic), and with a resonance of zero a high pass outputs NaN for silence (f32). Proved for settings in range (0 < cutoff < half the sample rate, 0 < q), in exact real arithmetic: energy never grows under any parameter sequence with silent input, bounded input gives bounded output, the output dies out exponentially; init establishes these settings and every parameter change in range keeps them. Proved with rounding, in any IEEE format and with any tangent, square root and power: if the damping of the (rounded) settings exceeds the rounding error, every bounded input gives finite, bounded output with an explicit bound, the stored state dies out to the size of a subnormal number, and the output stays for ever within an explicit multiple of one rounding error of the exact filter with the same g, k and mix (seven digits for a double precision low pass at a quarter of the sample rate). Double precision has enough damping from 1 Hz to 22 kHz (at 48 kHz) and q from 1/4 to 64, single precision from 310 Hz to 12 kHz and q from 1/2 to 2."
  },
  {
   "property": "C58",
   "status": "proved",
   "theorems": [
    "C58_constant",
    "C58_alternating",
    "C58_rounded"
   ],
   "note": "In exact real arithmetic, for settings in range (0 < cutoff < half the sample rate, 0 < q), from any state of the filter. C58_rounded: with rounding, in any IEEE format, the six types whose output mix is exact (low, high and band pass, notch, peak, all pass) have the same gains up to an explicit multiple of one rounding error."
  },
  {
   "property": "C59",
   "status": "partial",
   "theorems": [
    "C59_phase_partial",
    "C59_drift_partial",
    "C59_exact_partial",
    "C59_sample_rate_partial",
    "C59_negative_frequency_refuted",
    "C59_sync_refuted",
    "C59_early_frequency_refuted",
    "C59_second_init_refuted"
   ],
   "note": "REFUTED: a negative frequency gives a negative phase, sync(-1) and sync of a tiny negative phase give 1, a frequency set before init gives NaN for good, and a second init with another sample rate keeps the old step so the pitch changes (f32 witnesses). Proved for all histories with parameters in range (frequency, step and phase from 0 to 2^100, sample rate at least 1; set_sample_rate excluded) in f32 and f64: phase in [0,1); drift at most n rounding errors after n samples. In exact arithmetic: the phase is exact and set_sample_rate keeps the frequency."
  },
  {
   "property": "C60",
   "status": "partial",
   "theorems": [
    "C60_range_partial",
    "C60_rectangle_refuted",
    "C60_half_wave_refuted",
    "C60_narrow_pulse_refuted",
    "C60_negative_frequency_refuted"
   ],
   "note": "REFUTED: the rectangle reaches -7/4, the half-wave rectified sine exceeds 1, the triangular pulse with a narrow width outputs values beyond 1000 in f32 (rounding errors divided by the width), and with a negative frequency the sawtooth leaves the range. Proved in exact arithmetic after every history in range: within 1 for the other ten waveforms, within 2 for the rectangle, within 3 for the triangular pulse and the rectified sines."
  },
  {
   "property": "C61",
   "status": "proved",
   "theorems": [
    "C61_no_jump",
    "C61_output"
   ],
   "note": "In exact arithmetic, for steps strictly between 0 and a quarter and pulse widths in 0..1."
  },
  {
   "property": "C62",
   "status": "partial",
   "theorems": [
    "C62_never_panics",
    "C62_report_partial",
    "C62_drawing_partial",
    "C62_unconnected_partial",
    "C62_uncommitted_refuted",
    "C62_pending_refuted",
    "C62_feedback_refuted",
    "C62_disconnected_refuted"
   ],
   "note": "REFUTED as documented: nodes pushed since the last commit and nodes pending removal are not reported, a feedback connection is shown as ordinary, and a node taken off its graph output is still shown as connected after a commit. Proved for all interleavings: no panic; every reported node is described correctly; with no uncommitted edit exactly the nodes not freed are reported, once each; the drawing shows no arrow without connection, and every connection if none comes from a freed node; nodes not heard are shown unconnected after a commit with edits (and only those, without feedback). Missing: parameter links are not reported by the code at all; node names are not modelled."
  },
  {
   "property": "C63",
   "status": "partial",
   "theorems": [
    "C63_response_partial",
    "C63_cutoff",
    "C63_bell_partial",
    "C63_bell_refuted",
    "C63_float_partial"
   ],
   "note": "REFUTED for the bell: its centre is not the cutoff; the code divides the tangent by the root of the amplitude (as for a low shelf), so a bell set to +24 dB multiplies a sinusoid at its cutoff by less than 3 instead of 16. Proved: the other eight types have exactly the response of their analog model at every frequency, whatever the initial state, and the bell is the analog bell at the shifted frequency. With rounding, in any IEEE format, the six types whose output mix is exact have the response of the analog model belonging to the computed g and k, up to an explicit multiple of one rounding error and of the error of the input samples; missing with rounding: bell and shelves."
  },
  {
   "property": "C64",
   "status": "partial",
   "theorems": [
    "C64_line_partial",
    "C64_amplitude_partial",
    "C64_feedback_partial",
    "C64_short_refuted",
    "C64_unset",
    "C64_unset_rounding_refuted"
   ],
   "note": "REFUTED for delays below one and a half frames: the read position then equals the write position and the signal comes out a whole line length too late. Proved for all longer delays within the capacity, set at any moment: lines come out exactly x frames late, every sinusoid keeps its amplitude, and the feedback version is stable and an all pass for every feedback below one. A delay that was never set delays by exactly the whole line in exact arithmetic (C64_unset); in f32 its rounding errors stay audible in silence (C64_unset_rounding_refuted)."
  },
  {
   "property": "C65",
   "status": "partial",
   "theorems": [
    "C65_smooth_partial",
    "C65_attack",
    "C65_release_asr",
    "C65_release_ar",
    "C65_restart_refuted"
   ],
   "note": "REFUTED: retriggered during its release the envelope jumps, because the attack goes on from t while the output was the cube of t (C65_restart_refuted: neighbouring samples 1/4 apart where 3/100 is the bound; a TODO in the code mentions it). Proved: for every history without a restart during release or sustain no two neighbouring samples are more than 3/n + 24 eps apart (both envelopes, any format), the attack is linear at its rate and the release is the scaled cube of a line, each up to rounding."
  },
  {
   "property": "C66",
   "status": "proved",
   "theorems": [
    "C66_octaves",
    "C66_average",
    "C66_brown",
    "C66_random_line",
    "C66_random_smooth"
   ],
   "note": "Proved for all random numbers: octave schedule in any format, the average in f64 (in f32 the sum drifts, see C55), brown noise and RandomLin in any IEEE format. fastrand is not modelled: its numbers are inputs."
  },
  {
   "property": "C67",
   "status": "partial",
   "theorems": [
    "C67_blocks",
    "C67_own_rate",
    "C67_rate_partial",
    "C67_step",
    "C67_loop_refuted",
    "C67_negative_refuted",
    "C67_tail_refuted",
    "C67_section"
   ],
   "note": "REFUTED: looping at a rate other than 1 drops the position beyond the end, so that the loop is out of tempo; a negative rate leaves the range of the samples and never ends; the last fractional frame of a buffer played once is mixed with its first sample. Proved: value-exact playback at the own rate (looping or not, any block sizes) of the whole buffer and of any section of whole seconds set by start and duration or end, whatever was played before, and, without looping, positions, interpolation, range, duration, silence and done report at any positive rate."
  },
  {
   "property": "C68",
   "status": "partial",
   "theorems": [
    "C68_from",
    "C68_from_order",
    "C68_to",
    "C68_to_order",
    "C68_back_partial",
    "C68_back_refuted",
    "C68_samples_refuted",
    "C68_loss",
    "C68_scale",
    "C68_scale_f32",
    "C68_beats_refuted",
    "C68_times",
    "C68_duration",
    "C68_long_duration_refuted"
   ],
   "note": "REFUTED: converting to f64 and back can lose one tesimal, because the conversion truncates, and with it one sample (49 samples at 48000 Hz come back as 48); 1920 times 123/1920 of a beat is not 123 beats; a Duration of 2^32 s or more wraps. Proved for every format (f32, f64) and both tick rates: from_* is normalised, within one tick (plus the rounding of one product), and monotone; to_* is within reading_error and monotone; there and back in f64 loses at most one tick and never gains one; the reported precision loss is exact; scaling within the stated bound; Duration conversion is exactly the floor, for all nanosecond values. The product of two times is the product of the durations up to a tesimal and the errors of reading."
  },
  {
   "property": "C69",
   "status": "partial",
   "theorems": [
    "C69_tail",
    "C69_resize",
    "C69_feedback",
    "C69_dies_out",
    "C69_bounded",
    "C69_blocks",
    "C69_overload_refuted",
    "C69_filter_refuted"
   ],
   "note": "REFUTED: with overflow checks (debug builds) a sample of 2 or more makes the reverb panic, because the dither computes 2_u64.pow(exponent + 62); without checks the power is 0 and the sample is left undithered. At 11025 Hz and below the filters of the brightest setting diverge (coefficient above 2). Proved, in exact arithmetic: with silent input the energy of the tank never grows for any feedback up to the highest setting, and resizing doesn't change it; below the highest feedback the tail dies out exponentially from any state; from init, at 11026 Hz and more, with settings in [0,1] and replace above 0, no input panics (without overflow checks) and the outputs are at most a constant times the largest input and the dither; any division into blocks gives the same output. Rounding is not modelled."
  },
  {
   "property": "C70",
   "status": "partial",
   "theorems": [
    "C70_parts",
    "C70_whole",
    "C70_units",
    "C70_envelopes",
    "C70_flags",
    "C70_reader",
    "C70_reader_refuted",
    "C70_looping_refuted",
    "C70_done_refuted"
   ],
   "note": "REFUTED: the done frame is relative to the part, so that an envelope that ends in frame 3 of a block of 4 split in two is reported done in frame 1, and FreeParent silences the graph two frames early (C70_done_refuted, for all splits C70_flags); BufferReader uses the block size of the graph in every part: it plays a whole block in the first part, and then writes beyond the end of the block and panics on the audio thread; a looping reader always does (C70_reader_refuted, C70_looping_refuted). Proved: for all other generators the samples and the state are the same in parts as in one go, with parameter changes in effect from their frame on; the reader is right on whole blocks."
  },
  {
   "property": "C71",
   "status": "partial",
   "theorems": [
    "C71_confined",
    "C71_isolated",
    "C71_apart_partial",
    "C71_blocks_partial",
    "C71_frames",
    "C71_unheard_alias_refuted",
    "C71_self_modulation_refuted"
   ],
   "note": "REFUTED: a node that is not heard can be run before its source and the source then be given the node's own memory, so that its input and its output are the same samples - a shared and a mutable slice of the same memory, undefined behaviour (C71_unheard_alias_refuted); a node that modulates its own parameter reads its own output, so that code that fills one channel after the other sees the new block (C71_self_modulation_refuted). Proved: no node changes anything but its own output (C71_confined); with an output of its own it does exactly what it does on private memory, panics included (C71_isolated); with every sound plan of C17 (plain graphs have one) every heard node has such an output (C71_apart_partial) and any number of blocks run without failing assertions or accesses outside of the allocation and give the network's meaning, for code of single reads and writes in any order (C71_blocks_partial), which the default block code is for every generator (C71_frames)."
  },
  {
   "property": "C72",
   "status": "partial",
   "theorems": [
    "C72_choice",
    "C72_limit",
    "C72_new",
    "C72_sine",
    "C72_sine_content",
    "C72_fill",
    "C72_multiply",
    "C72_negative_refuted",
    "C72_fill_refuted",
    "C72_saw_partial",
    "C72_saw_refuted",
    "C72_odd_partial",
    "C72_odd_refuted",
    "C72_triangle_refuted",
    "C72_windows",
    "C72_noise_f32",
    "C72_noise_f64",
    "C72_normalize_f32",
    "C72_normalize_f64",
    "C72_normalize_silent_refuted",
    "C72_normalize_loud_refuted"
   ],
   "note": "REFUTED: four of the ways to fill a set of wavetables leave harmonics above the 20 kHz limit in it. `add_saw`/`add_aliasing_saw` include both ends of the range, one harmonic too many (`C72_saw_refuted`: table 15 is used up to 14 kHz and has the second harmonic, 28 kHz); `add_odd_harmonics` limits the number of odd harmonics by the number of harmonics, so they go up to twice the limit (`C72_odd_refuted`: 38 kHz); `fill_sine` multiplies the limit by the base frequency instead of dividing (`C72_fill_refuted`); a negative frequency is added to every table because the cast saturates at 0 (`C72_negative_refuted`). The odd harmonics are not a triangle: the alternating sign is used as a phase of 1 radian (`C72_triangle_refuted`). `normalize` panics on a silent table (0 * inf is NaN, which fails an assert_eq in update_diff_buffer; `C72_normalize_silent_refuted`) and takes the peak of the first table only (`C72_normalize_loud_refuted`). Proved: the limit computed in f32 is exact (`C72_limit`); sines of whole frequencies and `fill_sine` at 1 keep the tables limited and leave everything else as it was; the table chosen for any finite frequency then has nothing above 20 kHz; the exact content of sawtooths and odd harmonics (`_partial`, what is missing is the limit); windows, noise in f32 and f64, and normalising with a peak in [2^-126, 2^126]. The additive part is over the real numbers: rounding of the samples is not modelled. Multiplying scales every harmonic and keeps the limit."
  },
  {
   "property": "C73",
   "status": "proved",
   "theorems": [
    "C73_law",
    "C73_left",
    "C73_monotone",
    "C73_frame_f32",
    "C73_frame_f64",
    "C73_history",
    "C73_outside"
   ],
   "note": "Proved for any approximation of sine and cosine with an error bound on [0, 2] (`fastapprox` is external and not modelled beyond that; `C73_near` shows such functions exist). The range is not enforced: `C73_outside` shows that at position 3 the left channel is inverted."
  },
  {
   "property": "C74",
   "status": "partial",
   "theorems": [
    "C74_heard_partial",
    "C74_block_start_refuted",
    "C74_sending_order_refuted"
   ],
   "note": "REFUTED: a parameter that was changed with an offset and is then changed exactly at a block start is heard late by the old offset (the wrapper keeps it), and a change sent after one for a later frame of the same block waits for that frame; both shown from the handle to the samples. C74_heard_partial: under the conditions that exclude this (each parameter always or never with an offset; per block at most the declared number of changes with offsets, sent in frame order), with room in channel and queue, the node running in every block, times at most a second ahead, no smoothing or tokens for that node, relative times at sample rates dividing the tick rate, every change is heard at exactly its frame, for every generator, input and sequence of sends and blocks."
  },
  {
   "property": "C75",
   "status": "proved",
   "theorems": [
    "C75_nested",
    "C75_unique",
    "C75_plain"
   ],
   "note": "Proved for every tree of graphs without feedback whose plans satisfy the condition of C17_exactly_sound_plans, at any depth; C75_plain shows that the graphs of C17_blocks_partial satisfy it. Self-removal (C30) and edits between blocks (C21) are modelled separately."
  },
  {
   "property": "C76",
   "status": "partial",
   "theorems": [
    "C76_heard",
    "C76_in_order",
    "C76_static_exactly",
    "C76_too_many_refuted",
    "C76_replace_refuted"
   ],
   "note": "REFUTED: the types do not know how many outputs a graph has: with more channels than graph outputs the static form panics and the dynamic form loses channels (C76_too_many_refuted), and `to_replace`, which says its types rule out errors, panics on a loop (C76_replace_refuted). Proved for all graphs made by edits: dynamic handles never panic, exactly the existing channels and outputs are accepted, each output then carries what it had plus the channels sent to it in order (or the last one), inputs of nodes are unchanged (C76_heard, C76_in_order); static handles do the same edit exactly when everything exists and panic otherwise (C76_static_exactly)."
  },
  {
   "property": "C77",
   "status": "partial",
   "theorems": [
    "C77_exactly",
    "C77_abort_refuted",
    "C77_subgraph_abort_refuted",
    "C77_block_refuted"
   ],
   "note": "REFUTED: a panic inside any method that writes to the graph, or anywhere in the closure of a subgraph, poisons the lock, and the commit in `Drop` then panics during unwinding, which aborts the process (C77_abort_refuted, C77_subgraph_abort_refuted); using the outer edit in the closure of a subgraph never returns (C77_block_refuted). C77_exactly gives the outcome of every edit."
  },
  {
   "property": "C78",
   "status": "partial",
   "theorems": [
    "C78_finds_exactly",
    "C78_recovers",
    "C78_taken_refuted",
    "C78_freed_refuted",
    "C78_short_names",
    "C78_parameters_refuted"
   ],
   "note": "REFUTED: names are not unique, so the second node given a name is not found (C78_taken_refuted); a freed node is still found and connecting it panics (C78_freed_refuted); shortening drops all but the last type parameter, so different types share a name (C78_parameters_refuted). Proved: a name finds exactly the first node with it in slot order (C78_finds_exactly); a node with a name of its own is found after any edits while it is in the graph (C78_recovers); names of types without commas are shortened to the last names of their paths (C78_short_names)."
  },
  {
   "property": "C79",
   "status": "partial",
   "theorems": [
    "C79_low",
    "C79_high",
    "C79_unique",
    "C79_monotone",
    "C79_constants",
    "C79_complement",
    "C79_low_cutoff_partial",
    "C79_high_cutoff_partial",
    "C79_low_cutoff_refuted",
    "C79_high_top_refuted",
    "C79_settings",
    "C79_second_rate_refuted",
    "C79_rounding",
    "C79_rounded_sinusoid",
    "C79_rounded_constant",
    "C79_silence",
    "C79_stall_refuted",
    "C79_never_silent_refuted"
   ],
   "note": "REFUTED: in part. At the cutoff the low pass always lets more than half of the power through and the high pass less than half (C79_low_cutoff_refuted gives 52 in 100 at a quarter of the sample rate); the high pass does not let the highest frequencies through unchanged, its gain there falls to less than a fifth of the power (C79_high_top_refuted); a second init at another sample rate keeps the old coefficients (C79_second_rate_refuted); in f32 with a cutoff of 10 Hz a constant 1 stays at 1 - 382/2^24 for ever (C79_stall_refuted), and a filter left alone may put out a subnormal number for ever (C79_never_silent_refuted). Proved in exact arithmetic for all cutoffs, sample rates, frequencies and states: the exact power of both filters and its uniqueness, monotone in the frequency, constants, that both outputs add up to the input, half the power within a tenth of the squared cutoff angle, and that the latest cutoff is in force at a constant sample rate. Proved with rounding, in every IEEE format and for any exponential function: both filters stay within 4 units of rounding divided by 1 - b1 (plus 2 for the high pass) of the exact filter with the same coefficient, for any input and for ever, and so sinusoids come out with the powers above and constants unchanged up to that error; with silent input the output never grows. The f32 stall shows that the error is at most eight times too large."
  },
  {
   "property": "C80",
   "status": "partial",
   "theorems": [
    "C80_exact",
    "C80_constant",
    "C80_range_partial",
    "C80_drift_partial",
    "C80_above_rate_refuted",
    "C80_negative_freezes_refuted",
    "C80_zero_frequency_refuted",
    "C80_reset_refuted",
    "C80_second_init_refuted",
    "C80_near_partial"
   ],
   "note": "REFUTED: in part. Only one turn is taken off, and only upwards: above the sample rate the phase grows without bound (C80_above_rate_refuted), and for every negative frequency, in every IEEE format, the phase falls until rounding stops it, after which the output is constant (C80_negative_freezes_refuted, about ten minutes at -440 Hz in f32). init takes an increment of zero as a sign that phase holds the frequency, so a frequency of 0 set before init is ignored, a phase reset before init silences the oscillator, and a second init keeps the pitch of the old sample rate or takes the phase for a frequency (C80_zero_frequency_refuted, C80_reset_refuted, C80_second_init_refuted). Proved: in exact arithmetic every sample is the right one for all frequencies and changes after init; in any format the phase stays in [0,1] for frequencies up to the sample rate, and drifts by at most 2^-prec turns each sample. For every history of samples, resets, frequencies up to the sample rate and offsets of up to a turn, sample k is within 2 pi times 2 (k + 1) 2^-prec, 8 times 2^-prec and the errors of the library's sine and circle constant of the sine asked for (`C80_near_partial`)."
  },
  {
   "property": "C81",
   "status": "partial",
   "theorems": [
    "C81_line_partial",
    "C81_samples",
    "C81_no_jump",
    "C81_set",
    "C81_early_refuted",
    "C81_between_refuted",
    "C81_short_refuted"
   ],
   "note": "REFUTED: the fraction of a phase is divided by 65535 instead of 65536 (dsp/wavetable.rs:40), so the next sample is reached one step early and heard twice (`C81_early_refuted`); rounding can put a read outside of its two neighbours (`C81_between_refuted`); a table filled from a shorter buffer panics behind its end (`C81_short_refuted`). Proved for full tables with samples in -1..1, in any IEEE format: no panic, in -1..1, within |difference|/65536 + 2^-22 of the line (`C81_line_partial`), exact at samples, no jumps (also across the end of the table), and a set of tables reads one of its tables."
  },
  {
   "property": "C82",
   "status": "partial",
   "theorems": [
    "C82_channels",
    "C82_offset",
    "C82_vanishes",
    "C82_sinusoids",
    "C82_passband",
    "C82_dc",
    "C82_loudness",
    "C82_louder_refuted",
    "C82_short_refuted",
    "C82_no_channels_refuted",
    "C82_residue_refuted",
    "C82_rounding_f32",
    "C82_rounding_f64"
   ],
   "note": "REFUTED: a short buffer keeps most of its offset (`C82_short_refuted`: at least half of it in the first 500 frames, because the filter starts at 0), the result can be louder than full scale (`C82_louder_refuted`), 0 channels panic, and in f32 an offset of 1 never gets below 125*2^-21 (`C82_residue_refuted`). Proved in exact arithmetic: every channel for itself loses the mean of its past weighted by 0.999^age; an offset decays as 0.999^n and changes nothing else; sinusoids from an angle of 1/100 per sample on keep 99 % to 100.2 % of their power; the bound (2 - 0.999^n) of the loudness. Proved with rounding, in f32 and f64 and for buffers of any length and number of channels: every sample of the result is finite and within 11000 units of rounding of the exact one (`C82_rounding_f32`, `C82_rounding_f64`; the residue above is 1000 units)."
  },
  {
   "property": "C83",
   "status": "partial",
   "theorems": [
    "C83_contents",
    "C83_error_partial",
    "C83_symmetric",
    "C83_monotone",
    "C83_clip",
    "C83_special",
    "C83_faint_refuted",
    "C83_nearest_refuted",
    "C83_description_refuted"
   ],
   "note": "REFUTED: samples are cut off towards zero instead of rounded to the nearest value (`C83_nearest_refuted`), so everything up to 1/32768 becomes silence (`C83_faint_refuted`); 65537 channels are written as 1, fractions of the sample rate are lost (`C83_description_refuted`). Proved in any IEEE format: all samples in order, rate and channels when they fit, error below 1 + 1/512 steps (`C83_error_partial`, instead of half a step), symmetric, monotone, clipping, NaN and infinities."
  },
  {
   "property": "C84",
   "status": "proved",
   "theorems": [
    "C84_jumps",
    "C84_corners",
    "C84_fast"
   ],
   "note": "In exact arithmetic, for steps strictly between 0 and a quarter (and the sine above). It is about the phase only: `C84_switch` shows that the sound changes at once when the frequency crosses a quarter of the sample rate."
  },
  {
   "property": "C85",
   "status": "partial",
   "theorems": [
    "C85_safe_partial",
    "C85_output",
    "C85_apart",
    "C85_number",
    "C85_only_block",
    "C85_short_refuted",
    "C85_swap_refuted"
   ],
   "note": "REFUTED: `run` is a safe function that checks the number of the slices but not their lengths, so every slice shorter than a block is read behind its end (`C85_short_refuted`, processor.rs:119-132); `output_block` hands out `&mut RawContiguousBlock`, so that blocks can be exchanged between processors with `mem::swap` and then outlive their memory (`C85_swap_refuted`). Proved for all other programs: no undefined behaviour (`C85_safe_partial`), the output is what the graph wrote last, processors do not disturb each other, a wrong number of slices panics without effect, only one block of every slice is heard."
  },
  {
   "property": "C86",
   "status": "partial",
   "theorems": [
    "C86_parameters",
    "C86_wrapped",
    "C86_process",
    "C86_block",
    "C86_channels",
    "C86_given_channels",
    "C86_hints_partial",
    "C86_others_stay",
    "C86_todo_refuted",
    "C86_inputs_refuted",
    "C86_default_refuted",
    "C86_range_refuted",
    "C86_integer_range_refuted",
    "C86_flags_refuted",
    "C86_vanishes_refuted",
    "C86_lengths"
   ],
   "note": "REFUTED: a generator with only process_block compiles and panics (todo!()) when asked for a frame; `type Inputs` smaller than the array of process compiles and panics on every frame; the default of an integer parameter and a range not written as a range are dropped silently; a range for an integer parameter and a parameter function taking UGenFlags are accepted by the macro but what it writes never compiles; of two functions marked process the first vanishes. Proved for all impl blocks whose written code compiles: number, order, names, hint types and dispatch of parameters, channel numbers, and which arguments process and process_block get. What rustc demands is part of the model (`compiles`); token parsing is not modelled. A process_block whose arrays differ in length from those of process is refused by the macro itself (C86_lengths)."
  },
  {
   "property": "C87",
   "status": "partial",
   "theorems": [
    "C87_formula_partial",
    "C87_records",
    "C87_nodes",
    "C87_reuse_refuted"
   ],
   "note": "REFUTED: `let y = x * 2; (y + 1 + 1).to_graph_out_channels(0); y.to_graph_out_channels(1)` puts 12 on output 1 when x is 5, instead of 10 (C87_reuse_refuted): graph outputs are not counted as readers, so the memory of y is given to a later node. Proved for every expression sent to different outputs, whatever was connected to them before, in graphs without feedback whose plan is sound in the sense of C17 (C87_formula_partial), with arbitrary operators and other nodes; the pushed generators do what the theorem asks of them (C87_nodes), and building keeps the record of them right (C87_records). The sending is that of static handles; dynamic handles make the same graph when they log no error (C76_static_exactly). Missing: constants on the left of operators that do not commute (false, C34), graphs with feedback, an output named twice."
  },
  {
   "property": "C88",
   "status": "partial",
   "theorems": [
    "C88_input_partial",
    "C88_output_partial",
    "C88_reuse_refuted"
   ],
   "note": "REFUTED: false when the memory of a node that is connected to an output is used again (C88_reuse_refuted: of four nodes in a row the first is also connected to output 1, alone; output 1 has the samples of the third; same cause as C17). Proved for all graphs without feedback and histories of pushes and connections: at the inputs of every node that is heard (C88_input_partial, for any values of the nodes in the block) and at the outputs over any number of blocks if the plan is sound (C88_output_partial; C17 says that plans are, when no node connected to an output feeds another node). Nothing is assumed of the addition, so the order of the additions is part of the claim. Missing: graphs with feedback, disconnecting in between."
  },
  {
   "property": "C89",
   "status": "partial",
   "theorems": [
    "C89_range",
    "C89_square_partial",
    "C89_square_refuted",
    "C89_width_refuted"
   ],
   "note": "REFUTED for the square: where the phase is below one half but phase + 1/2 is rounded to 1, the sample is exactly 2 instead of about 0; this happens at ordinary settings (48 kHz: 7200 Hz and 4000 Hz in f32 from the start, 800 Hz in f64). Proved for any precision and all histories in range: sine, cosine, sawtooth, ramp and triangle are within [-1,1] (C89_range; the platform's sin and cos are assumed to return numbers in [-1,1]); the square too except for exactly that case (C89_square_partial). The waveforms with a pulse width fail in the same way (C89_width_refuted): modified square of width 0.2 up to 1.5 (exact arithmetic: 1), rectangle of width 0.001 at 16 Hz 2.998 (exact: at most 2)."
  },
  {
   "property": "C90",
   "status": "partial",
   "theorems": [
    "C90_close_partial",
    "C90_no_jump_partial",
    "C90_square_refuted"
   ],
   "note": "REFUTED for the square: at a phase one rounding step below one half it jumps from about 0 to 2 (f32, 7200 Hz at 48 kHz, eleventh sample). Proved for any precision and all histories in range: sawtooth and ramp within 7*2^-prec/dt of the exact waveform, the square within 11*2^-prec/dt except at that phase (C90_close_partial), hence no jumps beyond C61 and 22 such units (C90_no_jump_partial)."
  },
  {
   "property": "C91",
   "status": "partial",
   "theorems": [
    "C91_tables",
    "C91_saw",
    "C91_sine_partial",
    "C91_slow_refuted",
    "C91_negative_refuted",
    "C91_offset_refuted"
   ],
   "note": "REFUTED: the phase step is cut to a whole number of 2^-30 turns, so the oscillator drifts and a frequency below the sample rate divided by 2^30 stands still (`C91_slow_refuted`); a negative frequency stands still; an offset moves the phase by at most one table entry instead of up to a period (see C47). Proved: for all histories of samples, resets and frequencies between zero and the sample rate, sample k is within 2 pi (2^-14 + k (1 + 2^-20) 2^-30) + 2^-23 and the library's error of the sine asked for, and no read is outside the table; the tables of sine and cosine are within 2^-23 and the library's error, that of the sawtooth is exact in f32 and f64. The library's sin and cos are any functions within an error of at most 1/4 on 0..7; `C91_case` shows such functions."
  },
  {
   "property": "C92",
   "status": "proved",
   "theorems": [
    "C92_ramp",
    "C92_ramp_f32"
   ],
   "note": "Proved for every history of frames and frequencies from zero to the sample rate, all u32 sample rates, f64 and f32 output; a day at 48 kHz is less than two millionths of a turn off (`C92_day`). Outside of it: negative and too large frequencies (C50), and a second init, which divides the step by the sample rate again (`C92_second_init`)."
  },
  {
   "property": "C93",
   "status": "proved",
   "theorems": [
    "C93_triangle",
    "C93_triangle_f32",
    "C93_triangle_sides"
   ],
   "note": "Proved for any precision from f32 up, all histories in range, all steps above zero and below a quarter: 32*2^-prec from the triangle with rounded corners (C93_triangle, C93_triangle_f32), and from the plain triangle beyond a step from the corners (C93_triangle_sides)."
  },
  {
   "property": "C94",
   "status": "proved",
   "theorems": [
    "C94_trapezoid",
    "C94_trapezoid_f32"
   ],
   "note": "Proved for any precision from f32 up, all histories in range, all steps above zero and below a quarter: 72*2^-prec from the cut-off triangle with rounded corners, hence within 1 + 72*2^-prec."
  },
  {
   "property": "C95",
   "status": "proved",
   "theorems": [
    "C95_trapezoid",
    "C95_trapezoid_f32"
   ],
   "note": "Proved for any precision from f32 up, all histories in range, all steps above zero and below a quarter and all widths from 0 to 0.999 (beyond 0.9999 the program caps the width)."
  },
  {
   "property": "C96",
   "status": "proved",
   "theorems": [
    "C96_skew",
    "C96_skew_f32"
   ],
   "note": "Proved for any precision from f32 up, all histories in range, all steps above zero and below a quarter and all widths from 0.01 to 0.99."
  },
  {
   "property": "C97",
   "status": "proved",
   "theorems": [
    "C97_full",
    "C97_half",
    "C97_f32"
   ],
   "note": "Proved for any precision from f32 up, all histories in range and all steps above zero and below a quarter. The accuracy of the platform (constants within 4 and 8 rounding units, sin from 0 to 4 within delta and not beyond 1) is a hypothesis of the theorems, met by correctly rounded functions (C97_platform); it is not proved of a particular libm."
  },
  {
   "property": "C98",
   "status": "proved",
   "theorems": [
    "C98_pulse",
    "C98_pulse_f32"
   ],
   "note": "Proved for any precision from f32 up, all histories in range, all steps above zero and below a quarter and all widths from 0.01 to 1. For much narrower widths the error grows without bound (C60_narrow_pulse_refuted)."
  }
 ]
}