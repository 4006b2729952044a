# Formal model of knaster: design

The deliverable is a Rocq/Coq (8.16.1) model of parts of `/repo` (ErikNatanael/knaster), in
`rocq/theories`, with theorems for the properties in `properties.jsonl`.

## Method

* Each area has up to four files: `XModel.v` (definitions that follow the Rust code, each with a
  comment citing file and lines), `XSpec.v` (small independent specification, where the property needs
  more than a formula), `XProofs.v` (lemmas), `XProps.v` (only the property theorems, each closed by
  `exact`, followed by `Print Assumptions`, and `Example`s showing that the hypotheses are met).
* `&mut self` becomes state in, state out. Panics, out-of-bounds accesses and debug-build arithmetic
  overflow are explicit error values (`None` / a `Panic` constructor), never a default value.
* Machine integers are `N`/`Z` with explicit `mod 2^32` / `mod 2^64` where the property is about range.
* Floats: structural results (routing, block/frame agreement, delays, allocation, rendering) hold for an
  arbitrary sample type and arbitrary operations. Results about arithmetic use Flocq's
  `BinarySingleNaN` IEEE-754 numbers with round-to-nearest-even (`FloatBase.v`: any precision, and the
  binary32/binary64 instances): NaN, infinities, signed zeros and rounding are part of the model. Where
  a theorem is about exact real arithmetic instead (one-pole range, `C53`) its note says so.
  Transcendental functions (`exp`, `sin`, `powf`, ...) are never modelled; their results are inputs.
* A property which is false of the faithful model gets a theorem named `..._refuted` with a concrete
  witness, plus the strongest true restriction as `..._partial`. Those are findings about the code.

## Plan per property

| id | model | how it is proved |
|----|-------|------------------|
| C01-C03, C05 | `Seconds`, `Beats` as pairs of `N` with wrap; spec: total ticks | arithmetic (`lia`), induction on the carry loop |
| C04 | `from_samples`/`to_samples` | division lemmas; refuted for non-dividing rates, exact for dividing ones, error at most one frame |
| C06 | `Mul` | refutation by witness; true part: whole seconds |
| C07 | `VecBlock`, `StaticBlock`, partial blocks over a flat list | list update lemmas; out-of-range frames refuted |
| C08-C12, C14, C15 | graph edit state (node table, input edges, output edges, parameter edges, flags) and one function per edit | invariants by induction on edit lists; denotation of sinks as sums of sources for C11/C12; refutations for the known defects; exact conditions for a commit to succeed (`CommitProps`) |
| C13 | the id test as written (bitwise not on u64) | refutation and exact characterisation |
| C16 | `depth_first_search`, `get_deepest_output_node`, `calculate_node_order` | topological-order proof when no start node is upstream of one processed earlier, and its converse (`OrderExactProps`); refutation for several roots; permutation theorem |
| C17-C19 | buffer allocator, `allocate_node_buffers`, task list, one block run on a flat memory | register-allocation style simulation against a dataflow evaluator; refutation for outputs fed by consumed nodes and zero-output nodes; `SoundSpec.v`/`SoundProofs.v`: the exact condition on plans, converse by running nodes whose samples record their origin |
| C20 | feedback pair as inserted by the graph | refutation for the inserted pair; theorem for the intended pair |
| C21, C22 | two-thread transition system: commits, task hand-over, applied flags, clean-up | refinement to a map node -> state; safety invariant over all interleavings |
| C23-C25 | parameter event queues and the block loop | per-event reasoning, refutation for the 1-second discard, exactness theorem otherwise |
| C26, C27 | precise timing wrapper over an arbitrary frame-wise UGen, on windows of block models | induction over split points; samples of the block given frame by frame and channel by channel (FrameSpec); refutation for stale delay |
| C28 | smoothing state machine | exact-arithmetic ramp theorem, refutations |
| C29 | audio-rate wrapper | induction over frames |
| C30, C31 | `GraphGen::process_block` tail, done wrapper, processor | induction over blocks |
| C32 | cpal callback loop | stream equality by induction over device buffers |
| C33 | log ring and receiver | refinement to a queue of messages |
| C34-C36 | handle arithmetic, stacking, parameter lookup | evaluation of the built graph; refutations |
| C37-C39, C41-C46, C48, C50, C51, C53 | UGen state machines | invariants over all input/trigger histories |
| C40 | sample delay | ring buffer refinement to the input history |
| C47 | phase accumulator | modular arithmetic |
| C49 | wrapper stacks | induction over the stack; refutation |
| C52 | derive macro and hints | induction over variant lists |
| C42 (clearing) | `clear` and `set_delay_in_frames_and_clear` (`ClearModel.v`) in IEEE arithmetic | two delays whose buffers agree between the end of the cleared part and the writer stay so frame by frame |
| C54 | allpass delay with whole delays (interpolator coefficient 0) | IEEE arithmetic, ring buffer refinement; one-frame delay refuted |
| C55 | Voss-McCartney pink noise in f32 | refuted by an evaluated run of 512 numbers |
| C56 | `DoneOnTrig` | induction over the trigger history |
| C57 | `SvfFilter` over an abstract number type; instantiated with exact real arithmetic (and with `f32` for one counterexample) | passivity: the energy of the two integrators changes by `4 g v1 (u - k v1)` per sample, so it cannot grow for silent input under any parameter sequence; a second quadratic form contracts strictly, which gives the bounded output and the exponential decay; with rounding (`SvfFloat*.v`): the error of one sample is bounded by 50 units of roundoff of the state and input, coefficients included, and the same quadratic form absorbs it while the contraction is stronger; the difference to the exact filter (`SvfErr*.v`) obeys the same recursion with the rounding error as input |
| C58 | as C57 | the state for a constant (alternating) input is a fixed point; by linearity the difference to it is a silent run, which dies out by C57; with rounding by `SvfErr*.v` |
| C59 | `PolyBlep` over an abstract number type; phase in IEEE arithmetic (any format at least as wide as `f32`) and in exact arithmetic | subtracting the integral part is exact in floating point, so one sample is one rounding; invariant over histories; drift by induction |
| C60 | the fourteen waveforms in exact arithmetic; counterexamples in `f32` | case analysis of the corrections; the corner correction as a 1/dt-Lipschitz function of the distance to the corner |
| C61 | the five waveforms with jumps, exact arithmetic | step plus correction is monotone and Lipschitz on the line; the waveforms are differences of shifted copies |
| C62 | the report of the last order with the current nodes and edges, the arrows of the drawing, beside the runtime model | an invariant relating the kept order to nodes and pending removals through every interleaving |
| C63 | the same model in exact arithmetic; the analog transfer functions over Coquelicot's complex numbers as specification | an explicit steady run for a sinusoid (half-angle identities turn the trapezoidal integrators into multiplication by `i tan`), then C57's convergence; the mix of each type by `field` |
| C64 | the allpass delays over an abstract number type (shown equal to the IEEE model of C42/C54), in exact arithmetic | the ring as sequences (each read returns the write `nf` frames ago); a lossless-energy argument shows any two runs converge; explicit steady runs for lines and sinusoids |
| C65 | envelopes.rs:10-303 as modelled for C37/C38 (`EnvModel`), in IEEE arithmetic | invariant: the value the next sample will have (`level`) stays within the bound of the last sample; triggers do not move it; one rounding error per operation bounds each step; shape by induction on the sample number; retriggering in mid-release is computed and jumps |
| C66 | noise.rs:50-216 as modelled for C44/C53 (`NoiseModel`), random numbers as inputs | induction on the run: the counter is the sample number modulo 256, whose trailing zeros are compared with the arithmetic schedule for all 256 residues; running sum exact in f64; one rounding error per operation otherwise; single precision drift of the pink sum bounded for C55 |
| C67 | the values read by `get_linear_interp_f64` and the frames of `BufferReader::process`/`process_block` (`PlayModel`), positions from `BufferModel`; conversion of the fraction to the sample type is a rounding | exactness of the fraction in f64, error bounds for every operation of the interpolation, induction over the frames with a rounding error per step for the position; termination by comparing with the length |
| C68 | `ClockModel`: the float conversions of `Seconds` and `Beats` in IEEE arithmetic (Flocq), for any format and both tick rates | error bounds by rounding lemmas, exactness of the fractional part, Sterbenz for the reported loss; durations by comparing with the midpoint below each integer; counterexamples by computation |
| C69 | `ReverbModel`: all of galactic.rs in exact arithmetic: 24 delay lines with feedback, detuning, filters, dither, overflow of the power of two | energy of the lines as a Lyapunov function; a weighted energy, younger samples weighing more, that shrinks by a fixed factor each frame for the decay and the bound; invariant over frames and blocks |
| C70 | `SplitModel.v`: windows of blocks, the parts loop of the sample-accurate wrapper, generators that fill a slice sample by sample (constant, oscillators, envelopes with the done flag), the block code of `BufferReader` on a window of a block with its panics | A generator is described by a frame function; induction over the parts with the contents of the block; the flag of the parts is the place of the flag of the block; cell by cell for the reader |
| C71 | `RawModel.v`: the code of a node as a program of single sample reads and writes at pointers into the shared allocation, with the assertions of the pointer blocks; the default frame-by-frame `process_block` | Induction on programs (only the own output changes; on separate memory the program behaves as on private copies); the invariant of C17 along the execution order, with the heard nodes' inputs shown to be separate from their outputs by the placement facts of C19 |
| C72 | `WaveModel.v`: the additive constructions and windows over the real numbers, the number of harmonics per table in f32 as in the code; noise, normalising and the asserting difference buffer in floating point | Orthogonality of the sampled sines (telescoping sums), so every addition changes exactly one harmonic of the DFT (`WaveSpec.v`); the limit is compared with the table boundaries exactly; rounding of `x * (1/peak)` by the half-ulp bound and the midpoint above 1; counterexamples for sawtooths, odd harmonics, other base frequencies and silent tables |
| C73 | `PanModel.v`: `Pan2` in f32 with the external `fastapprox` functions as parameters | Rounding errors of the three operations with Flocq; sine and cosine change no faster than the angle; bounds on pi from Machin-like sums; existence of approximations shown by an instance |
| C74 | `TimedModel.v`: the scheduler of `SchedModel.v` feeding one node in the wrapper of `PreciseModel.v` | The deliveries of a block, sorted by serial number (C24), have the same members as the changes wanted in it (C23), so they are the same list; then C26 |
| C75 | `NestModel.v`: a tree of graphs with their plans, each with its own memory; the inner generator as a node of the outer graph | Induction on the tree with the sound-plan theorem of C17 at every level (C17 holds for all node behaviours, so also for inner graphs); uniqueness by induction along the execution order |
| C76 | `OutModel.v`: the four `to_graph_out` methods of both kinds of handles, `to_replace`, disconnecting through handles, on `GraphModel` | Induction over the channels with the sum-seen-through meaning of C11/C35; the panicking loop equals the logging loop when all channels are accepted; witnesses by computation |
| C77 | `LockModel.v`: the `RwLock` of `GraphRef` (held, poisoned), closures as programs of calls, panics and nested subgraphs, and the commit when a `GraphEdit` is dropped | Induction on the program with all outer locks held; the outcome is given exactly by the first trouble in program order |
| C78 | `NameModel.v`: names beside `GraphModel`, lookup in slot order, `set_name`, `shorten_name` on characters | Induction over the slots and over the edits; the shortened text by induction over the parts of the type name; witnesses by computation |
| C79 | `PoleModel.v`: the `OnePoleLpf` and `OnePoleHpf` UGens with their `init` sentinel on the one-pole of `NoiseModel` | The distance to the steady sinusoid shrinks by the pole each sample; the power is computed exactly with `cosh`; bounds on `sinh` and `sin` give the power at the cutoff; induction over events for the settings; with rounding (`PoleFloatSpec.v`) the error of a sample is bounded and shrinks by the pole each sample; the f32 witnesses by computation |
| C80 | `SineModel.v`: `SinNumeric` over any arithmetic (exact and Flocq) | Induction over events with the phase equal to the unwrapped turns up to an integer; range and drift by error bounds per sample; freezing because a falling sequence on a grid that rounding keeps above a bound must stop; witnesses by computation |
| C81 | `LerpModel.v`: phases, the lookup with interpolation, the choice of the table, with rounding | Error bounds for each operation; convexity; the neighbour of the neighbour at the end of the table by modular arithmetic; witnesses by computation |
| C82 | `DcModel.v`: the loop over frames and channels, over any arithmetic | The output of a channel as a closed sum; linearity; response to sinusoids as for C79; the constant residue in f32 as a fixed point of the loop; with rounding the loop runs beside the exact one, an invariant bounds the distance |
| C83 | `SaveModel.v`: the description of the file and the conversion of samples (multiply, narrow to f32, `as i16`) | Rounding is monotone, odd and exact on small integers; truncation; witnesses by computation |
| C84 | `PolyModel.v` in exact arithmetic | Every waveform is a sum of shifted copies of one corrected corner (or its derivative, one corrected jump), whose ends meet up to the second derivative; gluing of derivatives around the circle |
| C85 | `ProcModel.v`: allocations, processors, the calls of a safe program; a graph is any program that takes input slices and writes outputs | Invariant: every processor alone owns the live allocation that its block points to; witnesses by computation |
| C86 | `MacroModel.v`: the impl block as the macro sees it, the written generator, what rustc demands of it, and how it calls the functions | `MacroSpec.v` says what every argument has to get; induction over items and arguments; witnesses by computation |
| C87 | `HandleModel.v`, `OutModel.v`, `GraphModel.v`, `AllocModel.v`, `RenderModel.v`, and the generators of `MathModel.v` and `SplitModel.v` | `FormulaSpec.v` says what the samples are; induction over the value of a connection, over C34, C17 and C48; witness by computation |
| C88 | `GraphModel.v`, `AllocModel.v`, `RenderModel.v` | `MixSpec.v` says what is heard where; induction over the history (the inserted sums form a comb), then over the comb with C17; witness by computation |
| C89 | `PolyModel.v` in floats | `PolyFloatSpec.v` says what is assumed of the platform's sine; intervals with rounded ends through every operation, for any precision; the square's one exception characterised, witnesses by computation |
| C90 | `PolyModel.v` in floats and in real numbers | rounding errors through every operation, branch by branch; the exact waveform's continuity (C61) absorbs the rounding of the shifted phase; witness by computation |
| C91 | `SinTabModel.v` (tables in f64 rounded to f32) on the phases of `OscModel.v` | rounding of the angle and of the phase step bounded; the sine does not change faster than its angle; the library's sine and cosine are any functions within an error bound on 0..7 |
| C92 | the phasor of `OscModel.v` in f64 | induction over the history: the wrap is exact, so each frame adds the rounding of one sum and of the step |
| C93 | `PolyModel.v` in floating point | rounding errors of `blamp` step by step, times the step; the exact corner correction is Lipschitz in the phase; the exact waveform is rewritten by distance from the corners |
| C94 | `PolyModel.v` in floating point | the corner lemma of C93 for each of the two pairs of corners; the naive trapezoid is a clamp of twice the naive triangle |
| C95 | `PolyModel.v` in floating point | relative error of the slope, the corner lemma of C93 at the rounded corner phases, all scaled by the slope |
| C96 | `PolyModel.v` in floating point | error of each line and of taking the wrong one, the corner lemma of C93 at the rounded corner phases, error of the factor |
| C97 | `PolyModel.v` in floating point | Lipschitz bound of sin for the rounded angle, the corner lemma of C93 scaled by the rounded 2 pi; a correctly rounded platform as witness |
| C98 | `PolyModel.v` in floating point | the shape is periodic and Lipschitz in the unwrapped phase, so early and late wraps cost no more than the phase error; corners as in C93 |

The numbering follows `properties.jsonl`.

## Trusted base

* Coq 8.16.1's kernel, including its `vm_compute` reduction machine (used for concrete witnesses and for
  the bit-matrix computations of C43). The build is also re-checked by `coqchk`.
* The standard library, Flocq (`BinarySingleNaN` and what it needs) and Coquelicot's complex numbers (C63, C64),
  used as definitions and proved lemmas. No other library is used, no plugin, no axiom of our own, no
  `Admitted`, no disabled check.
* The axioms listed by `Print Assumptions` (below). They are the standard library's construction of the
  real numbers (`sig_forall_dec`, `sig_not_dec`), functional extensionality and classical logic, which
  Flocq's theorems about rounding use. Every theorem that does not speak about floats is axiom-free.
* That the Gallina definitions say what the Rust text says. This is by reading; every definition cites
  file and lines. The repository was not built or run.

### Assumptions per theorem

Generated from `Print Assumptions` on the built files.

<!-- assumptions:begin -->
* *Closed under the global context* (no axioms), 297 theorems: `C01_beats_add_exact`, `C01_beats_fraction_exact`, `C01_beats_sum_exact`, `C01_seconds_add_assoc`, `C01_seconds_add_comm`, `C01_seconds_add_exact`, `C01_seconds_add_monotone`, `C02_beats_checked_sub`, `C02_beats_saturating_sub`, `C02_seconds_checked_sub`, `C02_seconds_saturating_sub`, `C03_beats_order`, `C03_seconds_max`, `C03_seconds_order`, `C04_frames_roundtrip_iff_partial`, `C04_frames_roundtrip_loss_partial`, `C04_frames_roundtrip_refuted`, `C04_resample_floor_partial`, `C05_tesimals_roundtrip_partial`, `C05_tesimals_roundtrip_refuted`, `C05_ticks_roundtrip_partial`, `C06_exactly`, `C06_mul_refuted`, `C06_mul_too_small_refuted`, `C06_mul_whole_partial`, `C07_frame_overrun_refuted`, `C07_iterator`, `C07_new_block_silent`, `C07_slice_agrees`, `C07_slice_write_agrees`, `C07_window_escape_refuted`, `C07_window_shows_partial`, `C07_writes_isolated_partial`, `C08_never_cyclic`, `C09_failed_edit_unchanged`, `C09_feedback_refuted`, `C09_freed_source_refuted`, `C09_references_exist_partial`, `C10_circular_iff`, `C10_circular_sound`, `C11_connect_to_node`, `C11_connect_to_output`, `C11_feedback`, `C11_repeated`, `C12_commit_exactly`, `C12_commit_keeps_sums_partial`, `C12_commit_panics_refuted`, `C12_commit_succeeds_partial`, `C12_commit_untouched`, `C12_disconnect_graph_output_partial`, `C12_disconnect_input_partial`, `C12_disconnect_output_succeeds`, `C12_disconnect_output`, `C12_graph_input_panics_refuted`, `C12_graph_input_refuted`, `C12_new_pair`, `C12_through_handles`, `C13_disconnect_rejects_partial`, `C13_other_graph_refuted`, `C13_rejected_iff_partial`, `C14_commit_panics_refuted`, `C14_free_then_commit_exactly`, `C14_free_then_commit_partial`, `C14_free_unreferenced_partial`, `C14_immortal_error`, `C14_immortal_survives`, `C14_parameter_link_refuted`, `C15_audio_stays_acyclic_partial`, `C15_loop_refuted`, `C15_self_link_refuted`, `C16_each_node_once`, `C16_freed_modulator_panics_refuted`, `C16_order_exists_plain`, `C16_order_exists`, `C16_starts_exactly`, `C16_topological_partial`, `C16_topological_refuted`, `C16_topological_starts_partial`, `C16_unheard_exactly`, `C16_unheard_refuted`, `C17_after_commit_partial`, `C17_block_partial`, `C17_blocks_partial`, `C17_edits_keep_states`, `C17_exactly_sound_plans`, `C17_output_reuse_refuted`, `C17_plain_graphs_sound`, `C18_disconnected_output_refuted`, `C18_unconnected_input`, `C18_unconnected_output`, `C19_held_apart`, `C19_held_inside`, `C19_no_outputs_allocator_refuted`, `C19_no_outputs_end_refuted`, `C19_no_outputs_refuted`, `C19_nodes_apart_partial`, `C19_plan_succeeds_partial`, `C19_requests_succeed_partial`, `C19_silent_channel_spared`, `C20_feedback_not_delayed_refuted`, `C20_pair_delays_one_block_partial`, `C20_pair_other_order_refuted`, `C21_blocks_run_partial`, `C21_complete_partial`, `C21_continues_partial`, `C21_one_owner_partial`, `C21_ring_full_refuted`, `C21_ring_full_swaps_refuted`, `C21_stays_partial`, `C22_never_run_again`, `C22_reclaimed`, `C22_record_removed_before_switch_refuted`, `C22_removed_after_release`, `C22_ugen_dropped_late`, `C23_at_most_once`, `C23_far_future_refuted`, `C23_fate_partial`, `C23_fate_relative`, `C23_offset_truncated_refuted`, `C23_on_time_partial`, `C23_queue_full_refuted`, `C23_within_a_second_partial`, `C24_last_sent_wins`, `C24_order`, `C25_drift_refuted`, `C25_every_rate_partial`, `C25_exact_partial`, `C25_long_delay_refuted`, `C26_no_offset_at_block_start_refuted`, `C26_on_time_partial`, `C26_out_of_order_refuted`, `C26_per_sample_lost_refuted`, `C26_per_sample_partial`, `C26_samples_partial`, `C27_parts_are_whole`, `C27_samples`, `C27_wrapper_splits`, `C29_driven_for_ever`, `C29_matching_sample`, `C29_read_in_bounds`, `C30_free_self`, `C30_no_request`, `C30_remove_me`, `C30_silence_partial`, `C30_two_requests_refuted`, `C31_frame_clock`, `C31_shared_clock_partial`, `C31_shared_clock_wraps_refuted`, `C32_cpal`, `C32_inputs_refuted`, `C32_jack_inputs_refuted`, `C32_jack_partial`, `C32_jack_refuted`, `C32_no_channels_refuted`, `C33_channels`, `C33_full_refuted`, `C33_kept`, `C33_messages_partial`, `C33_stuck_forever`, `C33_stuck_refuted`, `C33_unambiguous`, `C34_constant_left_swapped`, `C34_constant_right`, `C34_counts_differ`, `C34_expr_partial`, `C34_handles`, `C34_left_refuted`, `C34_one_value`, `C35_all_connected`, `C35_chain`, `C35_dropped_refuted`, `C35_feedback_all_connected`, `C35_feedback`, `C35_inputs`, `C35_node`, `C35_out`, `C35_positions`, `C35_stack`, `C35_try_edits`, `C36_connect_refuted`, `C36_direct`, `C36_duplicate_refuted`, `C36_dynamic_partial`, `C36_index_refuted`, `C36_index_wraps`, `C36_static`, `C40_delay_partial`, `C40_empty_refuted`, `C40_longer_refuted`, `C40_max_delay_refuted`, `C41_access_partial`, `C41_change_blocks_refuted`, `C41_change_panics_refuted`, `C41_change_partial`, `C43_every_value`, `C43_never_zero`, `C43_period`, `C48_closure_mono_partial`, `C48_closure_partial`, `C48_closure_refuted`, `C48_closure_transparent`, `C48_default`, `C48_history`, `C48_math1`, `C48_math`, `C48_stack`, `C48_transparent`, `C48_value`, `C48_wrapper`, `C49_apply`, `C49_delay_partial`, `C49_delay_refuted`, `C49_drop_refuted`, `C49_link_partial`, `C49_link_refuted`, `C49_never_fails_partial`, `C49_shape`, `C49_smoothing_refuted`, `C51_interval_partial`, `C51_interval_refuted`, `C52_descriptions_partial`, `C52_explicit_refuted`, `C52_range_refuted`, `C52_round_trip`, `C52_total`, `C56_done_partial`, `C56_once_refuted`, `C62_disconnected_refuted`, `C62_drawing_partial`, `C62_feedback_refuted`, `C62_never_panics`, `C62_pending_refuted`, `C62_report_partial`, `C62_uncommitted_refuted`, `C62_unconnected_partial`, `C70_parts`, `C70_units`, `C70_whole`, `C71_apart_partial`, `C71_blocks_partial`, `C71_confined`, `C71_frames`, `C71_isolated`, `C71_self_modulation_refuted`, `C71_unheard_alias_refuted`, `C74_block_start_refuted`, `C74_heard_partial`, `C74_sending_order_refuted`, `C75_nested`, `C75_plain`, `C75_unique`, `C76_heard`, `C76_in_order`, `C76_replace_refuted`, `C76_static_exactly`, `C76_too_many_refuted`, `C77_abort_refuted`, `C77_block_refuted`, `C77_exactly`, `C77_subgraph_abort_refuted`, `C78_finds_exactly`, `C78_freed_refuted`, `C78_parameters_refuted`, `C78_recovers`, `C78_short_names`, `C78_taken_refuted`, `C82_no_channels_refuted`, `C85_apart`, `C85_number`, `C85_only_block`, `C85_output`, `C85_safe_partial`, `C85_short_refuted`, `C85_swap_refuted`, `C86_block`, `C86_channels`, `C86_default_refuted`, `C86_flags_refuted`, `C86_given_channels`, `C86_hints_partial`, `C86_inputs_refuted`, `C86_integer_range_refuted`, `C86_lengths`, `C86_others_stay`, `C86_parameters`, `C86_process`, `C86_range_refuted`, `C86_todo_refuted`, `C86_vanishes_refuted`, `C86_wrapped`, `C87_formula_partial`, `C87_nodes`, `C87_records`, `C87_reuse_refuted`, `C88_input_partial`, `C88_output_partial`, `C88_reuse_refuted`.
* Exactly `ClassicalDedekindReals.sig_forall_dec`, `FunctionalExtensionality.functional_extensionality_dep`, 15 theorems: `C53_negative_cutoff_refuted`, `C53_one_pole`, `C57_double_damping`, `C57_single_damping`, `C64_unset`, `C69_dies_out`, `C69_feedback`, `C69_resize`, `C69_tail`, `C82_channels`, `C82_louder_refuted`, `C82_loudness`, `C82_offset`, `C82_short_refuted`, `C82_vanishes`.
* Exactly `ClassicalDedekindReals.sig_forall_dec`, `ClassicalDedekindReals.sig_not_dec`, `FunctionalExtensionality.functional_extensionality_dep`, 23 theorems: `C59_exact_partial`, `C59_sample_rate_partial`, `C61_no_jump`, `C61_output`, `C64_amplitude_partial`, `C64_feedback_partial`, `C64_line_partial`, `C64_short_refuted`, `C69_filter_refuted`, `C72_windows`, `C79_complement`, `C79_settings`, `C79_unique`, `C80_above_rate_refuted`, `C80_constant`, `C80_exact`, `C80_reset_refuted`, `C80_zero_frequency_refuted`, `C82_dc`, `C82_sinusoids`, `C84_corners`, `C84_fast`, `C84_jumps`.
* Exactly `ClassicalDedekindReals.sig_forall_dec`, `ClassicalDedekindReals.sig_not_dec`, `Classical_Prop.classic`, `FunctionalExtensionality.functional_extensionality_dep`, 250 theorems: `C28_audio_rate_refuted`, `C28_exact_end_refuted`, `C28_length_change_refuted`, `C28_off_on_partial`, `C28_partial_blocks_refuted`, `C28_ramp_partial`, `C28_starts_at_current_refuted`, `C28_value_at_partial`, `C28_zero_length_refuted`, `C34_integer_partial`, `C34_integer_refuted`, `C37_never_done_refuted`, `C37_range_partial`, `C37_range_refuted`, `C37_release_partial`, `C37_release_time_partial`, `C38_never_done_refuted`, `C38_range`, `C38_time_partial`, `C38_trigger_partial`, `C39_breakpoints_partial`, `C39_duration_partial`, `C39_finite_partial`, `C39_line_end_partial`, `C39_loop_start_refuted`, `C39_no_segments_refuted`, `C39_stop_refuted`, `C39_zero_duration_refuted`, `C42_clear_forgets`, `C42_clear_refuted`, `C42_clear_short_refuted`, `C42_delay_time`, `C42_empty_refuted`, `C42_feedback_silent_partial`, `C42_fresh_refuted`, `C42_negative_refuted`, `C42_reset_partial`, `C42_reset_refuted`, `C42_silent_partial`, `C43_unit_f32`, `C43_unit_f64`, `C44_range`, `C44_rows`, `C44_white_f32`, `C45_block`, `C45_channels_refuted`, `C45_default_partial`, `C45_empty_refuted`, `C45_end_refuted`, `C45_negative_refuted`, `C45_new_refuted`, `C45_range_partial`, `C45_start_at_refuted`, `C45_start_refuted`, `C46_limit_f32`, `C46_limit_f64`, `C47_constant`, `C47_in_table`, `C47_negative_refuted`, `C47_offset_bound_partial`, `C47_offset_refuted`, `C47_phase`, `C47_short_table_refuted`, `C47_table_choice`, `C50_f32_partial`, `C50_hang_refuted`, `C50_negative_refuted`, `C50_one_refuted`, `C50_range_partial`, `C50_wrap_partial`, `C53_brown_f32`, `C53_brown_f64`, `C53_negative_freq_refuted`, `C53_one_pole_f32`, `C53_one_pole_f64`, `C53_random_f32`, `C53_random_f64`, `C54_cleared_partial`, `C54_first_frame_refuted`, `C54_one_refuted`, `C54_too_long_refuted`, `C54_whole_partial`, `C55_bound_partial`, `C55_drift_refuted`, `C57_above_nyquist_refuted`, `C57_bounded_partial`, `C57_energy_partial`, `C57_float_partial`, `C57_init_ready`, `C57_ring_out_partial`, `C57_rounding_partial`, `C57_stays_ready`, `C57_zero_resonance_refuted`, `C58_alternating`, `C58_constant`, `C58_rounded`, `C59_drift_partial`, `C59_early_frequency_refuted`, `C59_negative_frequency_refuted`, `C59_phase_partial`, `C59_second_init_refuted`, `C59_sync_refuted`, `C60_half_wave_refuted`, `C60_narrow_pulse_refuted`, `C60_negative_frequency_refuted`, `C60_range_partial`, `C60_rectangle_refuted`, `C63_bell_partial`, `C63_bell_refuted`, `C63_cutoff`, `C63_float_partial`, `C63_response_partial`, `C64_unset_rounding_refuted`, `C65_attack`, `C65_release_ar`, `C65_release_asr`, `C65_restart_refuted`, `C65_smooth_partial`, `C66_average`, `C66_brown`, `C66_octaves`, `C66_random_line`, `C66_random_smooth`, `C67_blocks`, `C67_loop_refuted`, `C67_negative_refuted`, `C67_own_rate`, `C67_rate_partial`, `C67_section`, `C67_step`, `C67_tail_refuted`, `C68_back_partial`, `C68_back_refuted`, `C68_beats_refuted`, `C68_duration`, `C68_from_order`, `C68_from`, `C68_long_duration_refuted`, `C68_loss`, `C68_samples_refuted`, `C68_scale_f32`, `C68_scale`, `C68_times`, `C68_to_order`, `C68_to`, `C69_blocks`, `C69_bounded`, `C69_overload_refuted`, `C70_done_refuted`, `C70_envelopes`, `C70_flags`, `C70_looping_refuted`, `C70_reader_refuted`, `C70_reader`, `C72_choice`, `C72_fill_refuted`, `C72_fill`, `C72_limit`, `C72_multiply`, `C72_negative_refuted`, `C72_new`, `C72_noise_f32`, `C72_noise_f64`, `C72_normalize_f32`, `C72_normalize_f64`, `C72_normalize_loud_refuted`, `C72_normalize_silent_refuted`, `C72_odd_partial`, `C72_odd_refuted`, `C72_saw_partial`, `C72_saw_refuted`, `C72_sine_content`, `C72_sine`, `C72_triangle_refuted`, `C73_frame_f32`, `C73_frame_f64`, `C73_history`, `C73_law`, `C73_left`, `C73_monotone`, `C73_outside`, `C79_constants`, `C79_high_cutoff_partial`, `C79_high_top_refuted`, `C79_high`, `C79_low_cutoff_partial`, `C79_low_cutoff_refuted`, `C79_low`, `C79_monotone`, `C79_never_silent_refuted`, `C79_rounded_constant`, `C79_rounded_sinusoid`, `C79_rounding`, `C79_second_rate_refuted`, `C79_silence`, `C79_stall_refuted`, `C80_drift_partial`, `C80_near_partial`, `C80_negative_freezes_refuted`, `C80_range_partial`, `C80_second_init_refuted`, `C81_between_refuted`, `C81_early_refuted`, `C81_line_partial`, `C81_no_jump`, `C81_samples`, `C81_set`, `C81_short_refuted`, `C82_passband`, `C82_residue_refuted`, `C82_rounding_f32`, `C82_rounding_f64`, `C83_clip`, `C83_contents`, `C83_description_refuted`, `C83_error_partial`, `C83_faint_refuted`, `C83_monotone`, `C83_nearest_refuted`, `C83_special`, `C83_symmetric`, `C89_range`, `C89_square_partial`, `C89_square_refuted`, `C89_width_refuted`, `C90_close_partial`, `C90_no_jump_partial`, `C90_square_refuted`, `C91_negative_refuted`, `C91_offset_refuted`, `C91_saw`, `C91_sine_partial`, `C91_slow_refuted`, `C91_tables`, `C92_ramp_f32`, `C92_ramp`, `C93_triangle_f32`, `C93_triangle_sides`, `C93_triangle`, `C94_trapezoid_f32`, `C94_trapezoid`, `C95_trapezoid_f32`, `C95_trapezoid`, `C96_skew_f32`, `C96_skew`, `C97_f32`, `C97_full`, `C97_half`, `C98_pulse_f32`, `C98_pulse`.
<!-- assumptions:end -->

## What is modelled and what is not

| source | modelled in | not modelled |
|--------|-------------|--------------|
| `knaster_primitives/src/time.rs` | `TimeModel`: constructors from ticks, samples and fractions, add, sub, mul, order, sum; `ClockModel`: float conversions, multiplication by floats and integers, durations (`to_samples_f64` in `BufferModel`) | serde |
| `knaster_primitives/src/block.rs` | `BlockModel`: `VecBlock`, `StaticBlock`, partial blocks, iterator | `EmptyBlock`, `PartialBlockIterkMut` (never constructed) (a block is a list; the pointer blocks of the graph are in `RawModel`) |
| `knaster_primitives/src/float.rs` | the four operations, comparisons, min/max, casts via Flocq | transcendental functions |
| `knaster_core/src/log.rs` | `LogModel` | formatting of parts |
| `knaster_core/src/parameters.rs` | enum parameter hints (`UtilModel`, C52), `Param`, value kinds (`WrapModel`), which hints the macro writes (`MacroModel`) | |
| `knaster_core/src/ugen.rs` | the trait's default `process_block`, `param`, `param_apply` (`Precise`, `Wrap`, `Math` models) | `Send`/lifetime bounds |
| `knaster_core_dsp/src/dsp/{buffer,wavetable,xorrng}.rs` | `BufferModel`, `PlayModel`, `DcModel` (`remove_dc`), `SaveModel` (`save_to_disk`), `OscModel` (lookup, table choice), `LerpModel` (interpolated reads), `WaveModel` (adding harmonics, in real numbers), `SinTabModel` (`sine`, `cosine`, `aliasing_saw`, in floats), `RngModel` | loading sound files, the library `hound`, rounding when harmonics are added to wavetables |
| `knaster_core_dsp/src/ugens/{buffer,closure,delay,dynamics,envelopes,math,noise,onepole,osc,pan,polyblep,svf,util}.rs` | `Buffer`, `Play`, `Math`, `Delay`, `Allpass`, `Clear`, `Frac`, `Util`, `Env`, `Seg`, `Noise`, `Osc`, `Pan`, `Pole`, `Poly`, `Sine`, `Svf` models | the `exp`/`sin` in the coefficients (the filter's `tan`, `sqrt`, `powf` are the mathematical functions), `no_denormals` |
| `knaster_core_dsp/src/wrappers_core/*` | `ArModel`, `MathModel`, `PreciseModel`, `SmoothModel`, `SplitModel` (parts of a block for generators with own block code), `WrapModel` | |
| `knaster_graph/src/graph.rs`, `graph_edit.rs`, `node.rs`, `edge.rs` | `GraphModel` (edits, clean-up at commit), `OrderModel`, `AllocModel` (buffers and tasks), `HandleModel`, `OutModel` (graph outputs), `LockModel` (the lock around the graph, panics in edits), `NameModel` (names of nodes) | threads sharing one edit, `link` to a graph input (ignored with a log message) |
| `knaster_graph/src/{graph_gen,task,processor,wrappers_graph/done}.rs` | `RenderModel`, `NestModel` (graphs as nodes of graphs), `RawModel` (single reads and writes through the pointer blocks of `knaster_graph/src/block.rs`), `ProcModel` (the memory that the safe methods of the processor reach), `SessionModel`, `RuntimeModel`, `FreedModel`, `FeedbackModel` | memory ordering: each atomic access is one sequentially consistent step |
| `knaster_graph/src/{scheduling,handle}.rs` | `SchedModel` (queues, absolute/relative times, tokens), `HandleModel`, `TimedModel` (queue and sample-accurate wrapper together) | |
| `knaster_graph/src/audio_backend/{cpal,jack}.rs` | `DeviceModel` (the callbacks) | device enumeration, stream creation, the cpal/jack crates |
| `knaster_macros` | the enum derive (C52), `MacroModel` (`impl_ugen`: what it finds, writes and calls, C86) | token-level parsing, types of expressions and array elements |
| `graph.rs` `inspection`, `knaster_graph/src/inspection.rs` | `InspectModel`: the report, handle addresses, arrows of `to_dot_string` | names, hints, the rest of the dot text, `show_dot_svg` |
| `knaster_airwindows/src/galactic.rs` | `ReverbModel` | rounding; parameter registration |
| `knaster_graph/src/dynugen.rs` | `UGenEnum` as a box, a reference to a task, or taken, with its `unreachable!` (`RuntimeModel`) | the other methods, which only delegate |
| not modelled at all | | `connectable2.rs` (not compiled), preludes, examples, benchmarks, visualiser |

External crates are modelled by their documented behaviour: `rtrb` as a bounded FIFO with wrap-around
positions (`LogModel`) or as a bounded queue (`SchedModel`, `RuntimeModel`), `slotmap` as a map with fresh
keys and an arbitrary slot order (`GraphModel`).

## Outcomes

"REFUTED" means that the property as stated is false of the model of the code; the witness is a theorem
ending in `_refuted`, and the strongest restrictions proved end in `_partial`.

<!-- outcomes:begin -->
| id | status | outcome |
|----|--------|---------|
| C01 | proved | Seconds and Beats: addition is exact on normalised values, panics exactly on overflow, is commutative, associative and monotone; sums of beats and the documented beat fractions are exact. Conversions from floats are C68. |
| C02 | proved | Checked and saturating subtraction of Seconds and Beats are exact on normalised values. |
| C03 | proved | Ordering of normalised Seconds and Beats is the ordering of exact tick counts. |
| C04 | partial | REFUTED in general: at 44000 Hz frame 1 becomes frame 0. Proved: lossless iff the sample rate divides 282240000 (all common rates do), otherwise at most one frame is lost; cross-rate conversion is the exact floor. |
| C05 | partial | REFUTED for non-normalised values (such as Seconds::MAX) and for tick counts of 2^32 seconds or more. Proved for every normalised value and every tick count below that. |
| C06 | partial | REFUTED: 0.5 s * 0.5 s gives 70560000 s and 1.5 s * 2 s gives 2 s. C06_exactly: the product is always seconds times seconds plus the product of the tick counts of the subsecond parts, and it is the rounded down product if and only if that product of tick counts equals the sum of the missing terms; in particular for whole seconds (C06_mul_whole_partial). |
| C07 | partial | REFUTED for partial blocks: a window or frame index past the window reaches samples outside it (of the same block) or panics. Proved: fresh blocks are silent; writes inside a window change exactly that sample; slices and the iterator show exactly the window. |
| C08 | proved | For every edit history (failed edits, feedback connections, frees and commits included) the stored audio connections are acyclic. |
| C09 | partial | REFUTED: a feedback connection is stored as a connection from a node without outputs, and a connection from a node already freed is accepted. Proved: edits that return an error change nothing; after every other history each stored audio connection refers to a live node and an existing channel. |
| C10 | proved | For every reachable graph, existing nodes and channels and a sink not yet freed: refused as circular iff the sink already reaches the source; otherwise accepted. (Feedback connections are not checked.) |
| C11 | proved | Sums are read through the inserted adders as lists of (source, channel); additive, replacing, repeated, graph-input, graph-output and feedback connections. The sink must not itself be an inserted adder. |
| C12 | partial | REFUTED: commit panics when an adder lost one input while some graph output is unconnected; disconnecting a graph input also clears the graph output with that number (or panics). Proved: disconnecting a node output removes exactly it from every sum and always succeeds; disconnecting inputs and the clean-up of adders at commit keep all other sums (graphs without feedback pairs); as long as every adder keeps an input the commit succeeds exactly if every adder has both inputs or every graph output is connected; with complete adders and used feedback pairs a commit changes nothing. The two hidden nodes of a feedback connection are new, name each other and are marked to be freed when unused (C12_new_pair). |
| C13 | partial | REFUTED: the test compares with the bitwise complement, so handles of other graphs are accepted by connect, parameter link and free. Proved: exactly the handles whose id is the complement are rejected; disconnects reject correctly. |
| C14 | partial | REFUTED: audio-rate parameter links from the freed node stay, and the next commit may panic. Proved: no audio input or graph output refers to the node; without adders and feedback pairs the next commit succeeds; with adders, and none reading the node twice, it succeeds exactly if no adder reads the node or every graph output has another source; no edit removes an immortal node. |
| C15 | partial | REFUTED: a node may be linked to its own parameter, and to a parameter of a node it reads. Proved: linking never makes the audio connections cyclic. |
| C16 | partial | REFUTED in general: with two graph outputs a node can be ordered before the node it reads (A feeds output 0, a dead end and C; C feeds output 1), nodes connected to no output run in slot order, and freeing a node that still modulates a parameter makes ordering panic. Proved: every live node appears exactly once; ordering never panics or loops when all sources are live; without feedback edges and loops, the nodes connected to outputs run after all they read exactly if no start node picked is upstream of one processed before it (in particular when no output source feeds another one); a node connected to no output does exactly if its sources are connected to an output or in earlier slots. |
| C17 | partial | REFUTED in general: a node connected to a graph output that also feeds other nodes loses its buffer before the output is read, because graph outputs are not counted as borrows (C17_output_reuse_refuted). Proved for all behaviours, buffer contents and block counts when connections come from existing outputs, there is no feedback or modulation cycle, and output nodes feed nothing else. For graphs without feedback C17_exactly_sound_plans gives the exact condition, output nodes that feed others included: a plan renders the graph for all behaviours if and only if every heard node runs after what it reads and no task after the source of a graph output writes over the channel it sends there; the converse is proved with nodes whose samples record where they come from. In a session, no edit or commit changes the states of the nodes (C17_edits_keep_states), and from a commit of such a graph on the blocks are those of the graph starting in the states before the commit (C17_after_commit_partial). |
| C18 | partial | Proved for every session of edits, commits and blocks, relative to the graph as last planned. REFUTED for the current graph: disconnecting a graph output does not request new tasks, so the output keeps playing after a commit (C18_disconnected_output_refuted). |
| C19 | partial | REFUTED for nodes without outputs: an empty region shares its offset with the next one and the commit panics. Proved for every history of requests for at least one channel, and for plans of graphs whose connections come from existing outputs. |
| C20 | partial | REFUTED: new_feedback_nodes creates two FeedbackSinks, so the feedback connection reads an output that does not exist (here: the current block). The intended Sink/Source pair is proved to delay by exactly one block when the sink runs first; in the other order the delay is two blocks. |
| C21 | partial | REFUTED when the task-data ring buffer is full: commit_changes has already moved the UGens into the list that is then dropped, so (if the caller survives the unwrap in GraphEdit's Drop, e.g. by catch_unwind) a later block panics (C21_ring_full_refuted) or runs a node with another node's UGen (C21_ring_full_swaps_refuted). Proved for all interleavings of edits, commits and audio-thread steps in which no commit met a full ring: every node in a block has exactly the state earlier blocks left, nodes that ran and were not freed keep running, no step panics, every UGen has exactly one owner, and an idle system runs exactly the nodes of the graph. |
| C22 | partial | REFUTED in the literal wording for the node record only: the applied flag is stored one step before the list is replaced, so the record can go while the old list is still current (it is not run again). Proved for all interleavings, full ring included: a commit removes a node only after the audio thread applied a list without it, everything it may still pick up is without it, and no later block runs it. Proved while no commit met a full ring: the UGen itself is dropped only when it is in neither the current nor any waiting list, and pending nodes are removed by the next commit once everything was picked up. |
| C23 | partial | REFUTED: a change more than sr/bs+1 blocks (about a second) ahead is discarded (C23_far_future_refuted; the documentation of Time::after mentions it), one received while the queue is full is dropped (C23_queue_full_refuted), and in blocks above 65536 frames the offset is truncated (C23_offset_truncated_refuted). Proved for all runs: at most once; and, when there was room, the complete fate: delivered in the first of the next sr/bs+2 blocks in which it is due, its node runs and its token is active, with the exact offset; in particular always on time within a second. C23_fate_relative gives the complete fate of relative times at every sample rate. |
| C24 | proved | For all runs and all token/node patterns: deliveries of one block are in the order of sending, and the value given last is that of the change sent last. |
| C25 | partial | REFUTED for sample rates that do not divide the tick rate (one frame late, C25_drift_refuted) and for delays beyond about a second (discarded, C25_long_delay_refuted). Proved for sample rates that divide the tick rate (all common ones) and delays up to a second: exactly floor(T*sr) frames after the start of the receiving block. At every other rate with (sr/bs + 1) * sr <= 282240000 and a node that runs in every block: applied once, never early, at most one frame late (C25_every_rate_partial). |
| C26 | partial | REFUTED: an offset given once for a parameter stays in force: a later change without offset is delayed by it (next_delay is never reset, GraphGen only sends non-zero offsets). Changes out of time order are applied late; per-sample processing never resets the change counter, so changes are lost. Proved for whole runs over any frame-wise UGen when each parameter is always or never changed with offsets, changes come in time order, offsets lie in the block and their number is within the maximum. C26_samples_partial says the same sample by sample and channel by channel: what the block holds at frame f, channel c is what the UGen puts out there with every change in force from its own frame. One sample at a time, with room for the changes, all of them are made before the sample in their order (C26_per_sample_partial). |
| C27 | proved | Any list of partial lengths, on windows of real block models, panics included; and the wrapper's own splitting. For UGens with the default process_block whose process does not read the block metadata. C27_samples says which samples these are: frame f, channel c of the output is channel c of what the UGen puts out for input frame f after the frames before it, and nothing outside the window is written. |
| C28 | partial | REFUTED: the first ramp starts at 0 instead of the current value; changing the ramp length during a ramp stops it for ever; a ramp of length 0 gives NaN; an audio-rate ramp advances one frame per block; partial blocks advance it by whole blocks; the end value (end-start)*1+start is not exactly the target in f64. Proved in IEEE arithmetic (Flocq): for a block-rate ramp, the value in each block is that of the line, monotone, starting at the start value, and at and after the end it is the target (exactly if target-start is representable, else within two half-ulps). Proved: switching smoothing off and on again during a ramp keeps the value reached (C28_off_on_partial). |
| C29 | proved | For every inner UGen, all link/set calls, blocks and divisions into parts. Also: the raw pointer read stays inside the block, and a driven parameter stays driven for ever (no call unsets a buffer). |
| C30 | partial | REFUTED when several nodes ask in the same block: the request of the node processed last counts, so an earlier frame is ignored (C30_two_requests_refuted). Proved for all task lists, node behaviours, inputs and block counts: blocks before the first request are exactly the rendered ones, the block of the request is the rendered one before the frame of the last request and zero from it on in every channel, all later blocks are zero; without a request nothing changes. Also: a block of a live graph marks for freeing exactly the nodes pushed with FreeSelf that are done in it, in processing order, and a freed graph marks none (C30_free_self). The flag that makes the parent drop the graph is set exactly if some block had a request, and from then on no block changes the graph (C30_remove_me). |
| C31 | partial | Frame clock proved for all n with n*b < 2^64; the shared clock is the exact tick (rounded down) until 2^32 seconds, after which its seconds wrap (C31_shared_clock_wraps_refuted). |
| C32 | partial | REFUTED: a graph with inputs is accepted by the cpal backend and panics in its first callback (C32_inputs_refuted); so does any callback of a device that reports no channels (C32_no_channels_refuted); the JACK callback skips frames of every block, leaves part of the device buffer unwritten and repeats stale input when the server's buffer size differs from the one at creation (C32_jack_refuted, C32_jack_inputs_refuted). Proved in full for cpal output with any sequence of buffer sizes and any processor without inputs (C32_cpal), and for JACK with a constant buffer size. Buffers that are not whole frames, and the sample format conversions, are outside of the statement. |
| C33 | partial | REFUTED: parts are dropped one by one when the buffer is full, so messages are truncated and merged with the next (C33_full_refuted), and a message with as many parts as the capacity blocks the log for ever (C33_stuck_refuted, C33_stuck_forever). Proved: for every interleaving of sends and polls, every capacity and every wrap-around the handler gets complete messages in two calls each, together with the queue exactly what was kept, in order and once (C33_kept); without drops these are the logged messages and a poll delivers all complete ones (C33_messages_partial); channels are independent. |
| C34 | partial | REFUTED: a constant on the left is always used as the second operand, so `1 - x` computes x - 1 and `1 / x` computes x / 1 (C34_left_refuted, C34_constant_left_swapped for every operator); an i32 constant goes through f32 and 16777217 becomes 16777216 even in an f64 graph (C34_integer_refuted). Proved: two handles and constants on the right in full, and arbitrary expressions whose left constants meet commuting operators, for every sample type, operator meaning and reachable graph; existing connections and signals are undisturbed. Dynamic handles with different counts panic (C34_counts_differ). |
| C35 | partial | REFUTED: a pair that would close a loop is logged and skipped while the other pairs are connected (C35_dropped_refuted). Proved: stacking, static and dynamic, in full; after `x >> y` or the replacing form what is heard at every node input is exactly what was heard before plus (or replaced by) the accepted pairs of equal position; every pair is accepted when the channels exist and nothing leads back from y to x. With feedback (to_feedback and the replacing form) every accepted node output reaches its input through its own new pair of feedback nodes, everything else is heard as before (C35_feedback), and all pairs are accepted when the channels exist (C35_feedback_all_connected); that the heard node of a pair has no outputs is C09_feedback_refuted. try_to keeps the connections made before its error (C35_try_edits). Handles of pushed nodes, selected outputs and graph inputs have exactly those channels, in order, and only numbers out of range are refused. |
| C36 | partial | REFUTED: indices are compared after truncation to 16 bits, so index 65536 addresses parameter 0 over a dynamic handle and is sent as 65536 by Graph::set (C36_index_refuted, C36_index_wraps); connecting to a parameter index is unchecked (C36_connect_refuted); the second of two parameters with the same name cannot be addressed by name (C36_duplicate_refuted). Proved: direct and static addressing in full (at most 2^16 parameters), dynamic addressing and Graph::set for indices below 2^16. |
| C37 | partial | REFUTED: a restart while the envelope is held at its sustain level attacks from t above 1, so the output leaves [0,1] (2 after two restarts with attack 0); a release longer than about 699 s at 48 kHz in f32 never moves and never reports done. Proved in IEEE arithmetic for every format, sample rate, non-negative times and histories without such a restart: outputs finite and in [0,1]. Proved: after a release with rate above half an ulp of 1 there is exactly one done report, with the right frame whatever the block sizes, after the number of steps the rate implies (with the rounding error per step), and 0 afterwards. Proved: with times set in seconds, the release rate used is the one for the release time last set, whatever was set before or after for the attack (C37_release_time_partial). |
| C38 | partial | The range part is proved for all times and histories (C38_range). REFUTED for very long times: an f32 attack of 700 s at 48 kHz stops at 0.5. Proved for rates above half an ulp of 1: each trigger gives a non-falling attack to exactly 1, then one done report after the release, frame-accurate over any blocks, then 0. Proved: the attack and release rates used are those for the times last set, in either order (C38_time_partial). |
| C39 | partial | REFUTED: a zero-length segment followed by another one outputs NaN; an envelope without segments panics; a stop just after the end of a segment jumps beyond both breakpoints; a loop restarts from the last value, not the start value. Proved in IEEE f64: for segment durations in [2^-64, 2^20] s and any history of restarts, jumps, speed changes and samples (no stops) there is no panic and every sample is finite; a restart passes exactly through all breakpoint values in order, stays between neighbours (between a and the computed a+(b-a), which is b when the difference is representable), reports done once, with the last value, and holds it for ever; the number of samples before the end, times the time scale over the sample rate, is the sum of the durations up to one step and a rounding error per sample. |
| C40 | partial | REFUTED: the maximal delay itself gives no delay at all, and longer settings panic. Proved for every delay below the buffer length, including changes while running. A line shorter than one sample panics at its first frame (C40_empty_refuted). |
| C41 | partial | REFUTED: after set_delay_length block access keeps using the old length or panics. Proved: any mixture of block and sample access without a length change; sample access after a change settles after d+1 samples. |
| C42 | partial | REFUTED: a fresh allpass delay set to two frames, or a cleared one, clicks with an output of 1 on silence (the interpolator starts with an imaginary input of one). Proved: silence once one frame has been processed with the default setting, for all delay settings within the capacity, with and without feedback; the parameter for the delay time never panics for delays that are not negative and ignores those beyond the line. Beyond silence: a delay of one and a half frames or more that is set and cleared has forgotten its contents, for every precision, length, history and input, with and without feedback (C42_clear_forgets); a delay of one frame has not (C42_clear_short_refuted). set_delay_in_frames_and_clear forgets the line but not the interpolator: the sample read last before it is heard after it (C42_reset_refuted); delays that agree on the interpolator sound the same after it (C42_reset_partial). A line shorter than one sample panics at its first frame (C42_empty_refuted). |
| C43 | proved | Full period proved for every seed (linear algebra over bits, checked by the kernel): never zero, two numbers equal exactly when their positions differ by a multiple of 2^32-1, every non-zero value occurs; gen_f32/gen_f64 are in (0,1]. |
| C44 | proved | No assertion fires for any inputs; with f64 the running sum is the exact sum of the rows (no rounding) and the output is in -1..1. The random number generator itself is an input. |
| C45 | partial | REFUTED: start_s, duration_s, end_s and start_at are not limited to the buffer, Buffer::new with several channels counts samples as frames, a player may have more channels than the buffer, and an empty buffer is accepted; each reads outside the memory. Proved (f64 arithmetic via Flocq): with the default range, a rate dividing the tesimals per second and no more channels than the buffer, every history of rate/looping/restart/render operations of any length reads inside (rates may be negative, infinite or NaN); the same for any range while start and end stay inside the buffer; blocks read what frames read. |
| C46 | proved | Proved for every IEEE number of both precisions, including infinities, NaN and signed zeros. |
| C47 | partial | REFUTED: the phase offset is scaled by 65536 instead of 2^30, so half a period moves the lookup by nothing; negative frequencies stop the oscillator; set_from_buffer accepts too short tables, which the unchecked lookup then overruns. Proved: exact phase modulo the table size for all histories, lookups inside full-size tables, table choice in range. |
| C48 | partial | REFUTED for the closure wrapper with a closure that keeps state and more than one channel (a block calls it channel by channel, frames call it frame by frame). Proved for every sample type, operation, channel count, block size, state and previous output contents: MathUGen, Math1UGen, the default process_block, all arithmetic wrappers, closures without state or on one channel, and whole histories of parameter changes and blocks for any stack of wrappers. |
| C49 | partial | REFUTED: WrMul passes delays and links for its own parameter to the wrapper inside, which panics; WrDone, WrArParams, WrSmoothParams and WrArParamToInput drop delays (all but WrArParams also links); a smoothing setting panics without WrSmoothParams. Proved for any stack and call history: setting a parameter with a value of its type never panics, touches no other parameter, and reaches its owner unless a delay, link or smoothing is active. Delays and links proved for stacks whose outer layers forward them. |
| C50 | partial | REFUTED: in f32 the output can be exactly 1; negative frequencies run away; huge or infinite frequencies hang the audio thread. Proved: for steps of 0 to 2^52 periods per sample the loop ends after at most that many turns plus one and the f64 phase stays in [0,1). |
| C51 | partial | REFUTED: a probe configured for N samples logs every N+1 samples (counter reset to N and then counted down to 0 before the next log). Proved for every N and every run length: the logged samples are exactly the multiples of N+1. |
| C52 | partial | REFUTED for the advertised range: the inclusive upper bound is the number of variants, which is no variant; and for enums with explicit discriminants the descriptions are keyed by position rather than by value. Proved: encode/decode round trip for every enum with distinct discriminants, every integer decodes to the encoded variant or the default, and without explicit discriminants the descriptions list exactly the legal values. |
| C53 | partial | REFUTED for negative frequencies: a negative cutoff gives a coefficient above 1 and a negative random frequency runs out of range. Proved otherwise: one-pole range in exact arithmetic and powers of two in IEEE arithmetic (both precisions), brown noise in -1..1, interpolated random in 0..1 exactly in IEEE arithmetic. exp() is not modelled: the coefficient is any number in 0..1. |
| C54 | partial | REFUTED: a delay of one frame becomes a delay of the whole line plus one. Proved for all whole delays from two frames up to the capacity (frame 0 excluded: the click of C42). Frame 0 is always one, whatever the input (C54_first_frame_refuted). From any state, in any precision: after setting N frames (two up to below the capacity) and clearing, the output is zero before frame N-1, one at it, and the input N frames earlier from frame N on (C54_cleared_partial). |
| C55 | partial | REFUTED: in f32 the running sum accumulates rounding errors; a sequence of 512 possible random numbers drives the output above 1 after 256 samples (C55_drift_refuted). Proved: sample n of any run of up to 2^20 samples exceeds 1 by at most n * 2^-22 + 2^-24, being that close to the exact average. |
| C56 | partial | REFUTED: the triggered flag is never cleared, so every later sample marks the node done again. Proved for all histories: no sample before the first trigger is marked and all samples after it are. |
| C57 | partial | REFUTED: cutoff and resonance are not limited. With a cutoff of three quarters of the sample rate the impulse response of a low pass grows without bound (exact arithmetic), and with a resonance of zero a high pass outputs NaN for silence (f32). Proved for settings in range (0 < cutoff < half the sample rate, 0 < q), in exact real arithmetic: energy never grows under any parameter sequence with silent input, bounded input gives bounded output, the output dies out exponentially; init establishes these settings and every parameter change in range keeps them. Proved with rounding, in any IEEE format and with any tangent, square root and power: if the damping of the (rounded) settings exceeds the rounding error, every bounded input gives finite, bounded output with an explicit bound, the stored state dies out to the size of a subnormal number, and the output stays for ever within an explicit multiple of one rounding error of the exact filter with the same g, k and mix (seven digits for a double precision low pass at a quarter of the sample rate). Double precision has enough damping from 1 Hz to 22 kHz (at 48 kHz) and q from 1/4 to 64, single precision from 310 Hz to 12 kHz and q from 1/2 to 2. |
| C58 | proved | In exact real arithmetic, for settings in range (0 < cutoff < half the sample rate, 0 < q), from any state of the filter. C58_rounded: with rounding, in any IEEE format, the six types whose output mix is exact (low, high and band pass, notch, peak, all pass) have the same gains up to an explicit multiple of one rounding error. |
| C59 | partial | REFUTED: a negative frequency gives a negative phase, sync(-1) and sync of a tiny negative phase give 1, a frequency set before init gives NaN for good, and a second init with another sample rate keeps the old step so the pitch changes (f32 witnesses). Proved for all histories with parameters in range (frequency, step and phase from 0 to 2^100, sample rate at least 1; set_sample_rate excluded) in f32 and f64: phase in [0,1); drift at most n rounding errors after n samples. In exact arithmetic: the phase is exact and set_sample_rate keeps the frequency. |
| C60 | partial | REFUTED: the rectangle reaches -7/4, the half-wave rectified sine exceeds 1, the triangular pulse with a narrow width outputs values beyond 1000 in f32 (rounding errors divided by the width), and with a negative frequency the sawtooth leaves the range. Proved in exact arithmetic after every history in range: within 1 for the other ten waveforms, within 2 for the rectangle, within 3 for the triangular pulse and the rectified sines. |
| C61 | proved | In exact arithmetic, for steps strictly between 0 and a quarter and pulse widths in 0..1. |
| C62 | partial | REFUTED as documented: nodes pushed since the last commit and nodes pending removal are not reported, a feedback connection is shown as ordinary, and a node taken off its graph output is still shown as connected after a commit. Proved for all interleavings: no panic; every reported node is described correctly; with no uncommitted edit exactly the nodes not freed are reported, once each; the drawing shows no arrow without connection, and every connection if none comes from a freed node; nodes not heard are shown unconnected after a commit with edits (and only those, without feedback). Missing: parameter links are not reported by the code at all; node names are not modelled. |
| C63 | partial | REFUTED for the bell: its centre is not the cutoff; the code divides the tangent by the root of the amplitude (as for a low shelf), so a bell set to +24 dB multiplies a sinusoid at its cutoff by less than 3 instead of 16. Proved: the other eight types have exactly the response of their analog model at every frequency, whatever the initial state, and the bell is the analog bell at the shifted frequency. With rounding, in any IEEE format, the six types whose output mix is exact have the response of the analog model belonging to the computed g and k, up to an explicit multiple of one rounding error and of the error of the input samples; missing with rounding: bell and shelves. |
| C64 | partial | REFUTED for delays below one and a half frames: the read position then equals the write position and the signal comes out a whole line length too late. Proved for all longer delays within the capacity, set at any moment: lines come out exactly x frames late, every sinusoid keeps its amplitude, and the feedback version is stable and an all pass for every feedback below one. A delay that was never set delays by exactly the whole line in exact arithmetic (C64_unset); in f32 its rounding errors stay audible in silence (C64_unset_rounding_refuted). |
| C65 | partial | REFUTED: retriggered during its release the envelope jumps, because the attack goes on from t while the output was the cube of t (C65_restart_refuted: neighbouring samples 1/4 apart where 3/100 is the bound; a TODO in the code mentions it). Proved: for every history without a restart during release or sustain no two neighbouring samples are more than 3/n + 24 eps apart (both envelopes, any format), the attack is linear at its rate and the release is the scaled cube of a line, each up to rounding. |
| C66 | proved | Proved for all random numbers: octave schedule in any format, the average in f64 (in f32 the sum drifts, see C55), brown noise and RandomLin in any IEEE format. fastrand is not modelled: its numbers are inputs. |
| C67 | partial | REFUTED: looping at a rate other than 1 drops the position beyond the end, so that the loop is out of tempo; a negative rate leaves the range of the samples and never ends; the last fractional frame of a buffer played once is mixed with its first sample. Proved: value-exact playback at the own rate (looping or not, any block sizes) of the whole buffer and of any section of whole seconds set by start and duration or end, whatever was played before, and, without looping, positions, interpolation, range, duration, silence and done report at any positive rate. |
| C68 | partial | REFUTED: converting to f64 and back can lose one tesimal, because the conversion truncates, and with it one sample (49 samples at 48000 Hz come back as 48); 1920 times 123/1920 of a beat is not 123 beats; a Duration of 2^32 s or more wraps. Proved for every format (f32, f64) and both tick rates: from_* is normalised, within one tick (plus the rounding of one product), and monotone; to_* is within reading_error and monotone; there and back in f64 loses at most one tick and never gains one; the reported precision loss is exact; scaling within the stated bound; Duration conversion is exactly the floor, for all nanosecond values. The product of two times is the product of the durations up to a tesimal and the errors of reading. |
| C69 | partial | REFUTED: with overflow checks (debug builds) a sample of 2 or more makes the reverb panic, because the dither computes 2_u64.pow(exponent + 62); without checks the power is 0 and the sample is left undithered. At 11025 Hz and below the filters of the brightest setting diverge (coefficient above 2). Proved, in exact arithmetic: with silent input the energy of the tank never grows for any feedback up to the highest setting, and resizing doesn't change it; below the highest feedback the tail dies out exponentially from any state; from init, at 11026 Hz and more, with settings in [0,1] and replace above 0, no input panics (without overflow checks) and the outputs are at most a constant times the largest input and the dither; any division into blocks gives the same output. Rounding is not modelled. |
| C70 | partial | REFUTED: the done frame is relative to the part, so that an envelope that ends in frame 3 of a block of 4 split in two is reported done in frame 1, and FreeParent silences the graph two frames early (C70_done_refuted, for all splits C70_flags); BufferReader uses the block size of the graph in every part: it plays a whole block in the first part, and then writes beyond the end of the block and panics on the audio thread; a looping reader always does (C70_reader_refuted, C70_looping_refuted). Proved: for all other generators the samples and the state are the same in parts as in one go, with parameter changes in effect from their frame on; the reader is right on whole blocks. |
| C71 | partial | REFUTED: a node that is not heard can be run before its source and the source then be given the node's own memory, so that its input and its output are the same samples - a shared and a mutable slice of the same memory, undefined behaviour (C71_unheard_alias_refuted); a node that modulates its own parameter reads its own output, so that code that fills one channel after the other sees the new block (C71_self_modulation_refuted). Proved: no node changes anything but its own output (C71_confined); with an output of its own it does exactly what it does on private memory, panics included (C71_isolated); with every sound plan of C17 (plain graphs have one) every heard node has such an output (C71_apart_partial) and any number of blocks run without failing assertions or accesses outside of the allocation and give the network's meaning, for code of single reads and writes in any order (C71_blocks_partial), which the default block code is for every generator (C71_frames). |
| C72 | partial | REFUTED: four of the ways to fill a set of wavetables leave harmonics above the 20 kHz limit in it. `add_saw`/`add_aliasing_saw` include both ends of the range, one harmonic too many (`C72_saw_refuted`: table 15 is used up to 14 kHz and has the second harmonic, 28 kHz); `add_odd_harmonics` limits the number of odd harmonics by the number of harmonics, so they go up to twice the limit (`C72_odd_refuted`: 38 kHz); `fill_sine` multiplies the limit by the base frequency instead of dividing (`C72_fill_refuted`); a negative frequency is added to every table because the cast saturates at 0 (`C72_negative_refuted`). The odd harmonics are not a triangle: the alternating sign is used as a phase of 1 radian (`C72_triangle_refuted`). `normalize` panics on a silent table (0 * inf is NaN, which fails an assert_eq in update_diff_buffer; `C72_normalize_silent_refuted`) and takes the peak of the first table only (`C72_normalize_loud_refuted`). Proved: the limit computed in f32 is exact (`C72_limit`); sines of whole frequencies and `fill_sine` at 1 keep the tables limited and leave everything else as it was; the table chosen for any finite frequency then has nothing above 20 kHz; the exact content of sawtooths and odd harmonics (`_partial`, what is missing is the limit); windows, noise in f32 and f64, and normalising with a peak in [2^-126, 2^126]. The additive part is over the real numbers: rounding of the samples is not modelled. Multiplying scales every harmonic and keeps the limit. |
| C73 | proved | Proved for any approximation of sine and cosine with an error bound on [0, 2] (`fastapprox` is external and not modelled beyond that; `C73_near` shows such functions exist). The range is not enforced: `C73_outside` shows that at position 3 the left channel is inverted. |
| C74 | partial | REFUTED: a parameter that was changed with an offset and is then changed exactly at a block start is heard late by the old offset (the wrapper keeps it), and a change sent after one for a later frame of the same block waits for that frame; both shown from the handle to the samples. C74_heard_partial: under the conditions that exclude this (each parameter always or never with an offset; per block at most the declared number of changes with offsets, sent in frame order), with room in channel and queue, the node running in every block, times at most a second ahead, no smoothing or tokens for that node, relative times at sample rates dividing the tick rate, every change is heard at exactly its frame, for every generator, input and sequence of sends and blocks. |
| C75 | proved | Proved for every tree of graphs without feedback whose plans satisfy the condition of C17_exactly_sound_plans, at any depth; C75_plain shows that the graphs of C17_blocks_partial satisfy it. Self-removal (C30) and edits between blocks (C21) are modelled separately. |
| C76 | partial | REFUTED: the types do not know how many outputs a graph has: with more channels than graph outputs the static form panics and the dynamic form loses channels (C76_too_many_refuted), and `to_replace`, which says its types rule out errors, panics on a loop (C76_replace_refuted). Proved for all graphs made by edits: dynamic handles never panic, exactly the existing channels and outputs are accepted, each output then carries what it had plus the channels sent to it in order (or the last one), inputs of nodes are unchanged (C76_heard, C76_in_order); static handles do the same edit exactly when everything exists and panic otherwise (C76_static_exactly). |
| C77 | partial | REFUTED: a panic inside any method that writes to the graph, or anywhere in the closure of a subgraph, poisons the lock, and the commit in `Drop` then panics during unwinding, which aborts the process (C77_abort_refuted, C77_subgraph_abort_refuted); using the outer edit in the closure of a subgraph never returns (C77_block_refuted). C77_exactly gives the outcome of every edit. |
| C78 | partial | REFUTED: names are not unique, so the second node given a name is not found (C78_taken_refuted); a freed node is still found and connecting it panics (C78_freed_refuted); shortening drops all but the last type parameter, so different types share a name (C78_parameters_refuted). Proved: a name finds exactly the first node with it in slot order (C78_finds_exactly); a node with a name of its own is found after any edits while it is in the graph (C78_recovers); names of types without commas are shortened to the last names of their paths (C78_short_names). |
| C79 | partial | REFUTED: in part. At the cutoff the low pass always lets more than half of the power through and the high pass less than half (C79_low_cutoff_refuted gives 52 in 100 at a quarter of the sample rate); the high pass does not let the highest frequencies through unchanged, its gain there falls to less than a fifth of the power (C79_high_top_refuted); a second init at another sample rate keeps the old coefficients (C79_second_rate_refuted); in f32 with a cutoff of 10 Hz a constant 1 stays at 1 - 382/2^24 for ever (C79_stall_refuted), and a filter left alone may put out a subnormal number for ever (C79_never_silent_refuted). Proved in exact arithmetic for all cutoffs, sample rates, frequencies and states: the exact power of both filters and its uniqueness, monotone in the frequency, constants, that both outputs add up to the input, half the power within a tenth of the squared cutoff angle, and that the latest cutoff is in force at a constant sample rate. Proved with rounding, in every IEEE format and for any exponential function: both filters stay within 4 units of rounding divided by 1 - b1 (plus 2 for the high pass) of the exact filter with the same coefficient, for any input and for ever, and so sinusoids come out with the powers above and constants unchanged up to that error; with silent input the output never grows. The f32 stall shows that the error is at most eight times too large. |
| C80 | partial | REFUTED: in part. Only one turn is taken off, and only upwards: above the sample rate the phase grows without bound (C80_above_rate_refuted), and for every negative frequency, in every IEEE format, the phase falls until rounding stops it, after which the output is constant (C80_negative_freezes_refuted, about ten minutes at -440 Hz in f32). init takes an increment of zero as a sign that phase holds the frequency, so a frequency of 0 set before init is ignored, a phase reset before init silences the oscillator, and a second init keeps the pitch of the old sample rate or takes the phase for a frequency (C80_zero_frequency_refuted, C80_reset_refuted, C80_second_init_refuted). Proved: in exact arithmetic every sample is the right one for all frequencies and changes after init; in any format the phase stays in [0,1] for frequencies up to the sample rate, and drifts by at most 2^-prec turns each sample. For every history of samples, resets, frequencies up to the sample rate and offsets of up to a turn, sample k is within 2 pi times 2 (k + 1) 2^-prec, 8 times 2^-prec and the errors of the library's sine and circle constant of the sine asked for (`C80_near_partial`). |
| C81 | partial | REFUTED: the fraction of a phase is divided by 65535 instead of 65536 (dsp/wavetable.rs:40), so the next sample is reached one step early and heard twice (`C81_early_refuted`); rounding can put a read outside of its two neighbours (`C81_between_refuted`); a table filled from a shorter buffer panics behind its end (`C81_short_refuted`). Proved for full tables with samples in -1..1, in any IEEE format: no panic, in -1..1, within \|difference\|/65536 + 2^-22 of the line (`C81_line_partial`), exact at samples, no jumps (also across the end of the table), and a set of tables reads one of its tables. |
| C82 | partial | REFUTED: a short buffer keeps most of its offset (`C82_short_refuted`: at least half of it in the first 500 frames, because the filter starts at 0), the result can be louder than full scale (`C82_louder_refuted`), 0 channels panic, and in f32 an offset of 1 never gets below 125*2^-21 (`C82_residue_refuted`). Proved in exact arithmetic: every channel for itself loses the mean of its past weighted by 0.999^age; an offset decays as 0.999^n and changes nothing else; sinusoids from an angle of 1/100 per sample on keep 99 % to 100.2 % of their power; the bound (2 - 0.999^n) of the loudness. Proved with rounding, in f32 and f64 and for buffers of any length and number of channels: every sample of the result is finite and within 11000 units of rounding of the exact one (`C82_rounding_f32`, `C82_rounding_f64`; the residue above is 1000 units). |
| C83 | partial | REFUTED: samples are cut off towards zero instead of rounded to the nearest value (`C83_nearest_refuted`), so everything up to 1/32768 becomes silence (`C83_faint_refuted`); 65537 channels are written as 1, fractions of the sample rate are lost (`C83_description_refuted`). Proved in any IEEE format: all samples in order, rate and channels when they fit, error below 1 + 1/512 steps (`C83_error_partial`, instead of half a step), symmetric, monotone, clipping, NaN and infinities. |
| C84 | proved | In exact arithmetic, for steps strictly between 0 and a quarter (and the sine above). It is about the phase only: `C84_switch` shows that the sound changes at once when the frequency crosses a quarter of the sample rate. |
| C85 | partial | REFUTED: `run` is a safe function that checks the number of the slices but not their lengths, so every slice shorter than a block is read behind its end (`C85_short_refuted`, processor.rs:119-132); `output_block` hands out `&mut RawContiguousBlock`, so that blocks can be exchanged between processors with `mem::swap` and then outlive their memory (`C85_swap_refuted`). Proved for all other programs: no undefined behaviour (`C85_safe_partial`), the output is what the graph wrote last, processors do not disturb each other, a wrong number of slices panics without effect, only one block of every slice is heard. |
| C86 | partial | REFUTED: a generator with only process_block compiles and panics (todo!()) when asked for a frame; `type Inputs` smaller than the array of process compiles and panics on every frame; the default of an integer parameter and a range not written as a range are dropped silently; a range for an integer parameter and a parameter function taking UGenFlags are accepted by the macro but what it writes never compiles; of two functions marked process the first vanishes. Proved for all impl blocks whose written code compiles: number, order, names, hint types and dispatch of parameters, channel numbers, and which arguments process and process_block get. What rustc demands is part of the model (`compiles`); token parsing is not modelled. A process_block whose arrays differ in length from those of process is refused by the macro itself (C86_lengths). |
| C87 | partial | REFUTED: `let y = x * 2; (y + 1 + 1).to_graph_out_channels(0); y.to_graph_out_channels(1)` puts 12 on output 1 when x is 5, instead of 10 (C87_reuse_refuted): graph outputs are not counted as readers, so the memory of y is given to a later node. Proved for every expression sent to different outputs, whatever was connected to them before, in graphs without feedback whose plan is sound in the sense of C17 (C87_formula_partial), with arbitrary operators and other nodes; the pushed generators do what the theorem asks of them (C87_nodes), and building keeps the record of them right (C87_records). The sending is that of static handles; dynamic handles make the same graph when they log no error (C76_static_exactly). Missing: constants on the left of operators that do not commute (false, C34), graphs with feedback, an output named twice. |
| C88 | partial | REFUTED: false when the memory of a node that is connected to an output is used again (C88_reuse_refuted: of four nodes in a row the first is also connected to output 1, alone; output 1 has the samples of the third; same cause as C17). Proved for all graphs without feedback and histories of pushes and connections: at the inputs of every node that is heard (C88_input_partial, for any values of the nodes in the block) and at the outputs over any number of blocks if the plan is sound (C88_output_partial; C17 says that plans are, when no node connected to an output feeds another node). Nothing is assumed of the addition, so the order of the additions is part of the claim. Missing: graphs with feedback, disconnecting in between. |
| C89 | partial | REFUTED for the square: where the phase is below one half but phase + 1/2 is rounded to 1, the sample is exactly 2 instead of about 0; this happens at ordinary settings (48 kHz: 7200 Hz and 4000 Hz in f32 from the start, 800 Hz in f64). Proved for any precision and all histories in range: sine, cosine, sawtooth, ramp and triangle are within [-1,1] (C89_range; the platform's sin and cos are assumed to return numbers in [-1,1]); the square too except for exactly that case (C89_square_partial). The waveforms with a pulse width fail in the same way (C89_width_refuted): modified square of width 0.2 up to 1.5 (exact arithmetic: 1), rectangle of width 0.001 at 16 Hz 2.998 (exact: at most 2). |
| C90 | partial | REFUTED for the square: at a phase one rounding step below one half it jumps from about 0 to 2 (f32, 7200 Hz at 48 kHz, eleventh sample). Proved for any precision and all histories in range: sawtooth and ramp within 7*2^-prec/dt of the exact waveform, the square within 11*2^-prec/dt except at that phase (C90_close_partial), hence no jumps beyond C61 and 22 such units (C90_no_jump_partial). |
| C91 | partial | REFUTED: the phase step is cut to a whole number of 2^-30 turns, so the oscillator drifts and a frequency below the sample rate divided by 2^30 stands still (`C91_slow_refuted`); a negative frequency stands still; an offset moves the phase by at most one table entry instead of up to a period (see C47). Proved: for all histories of samples, resets and frequencies between zero and the sample rate, sample k is within 2 pi (2^-14 + k (1 + 2^-20) 2^-30) + 2^-23 and the library's error of the sine asked for, and no read is outside the table; the tables of sine and cosine are within 2^-23 and the library's error, that of the sawtooth is exact in f32 and f64. The library's sin and cos are any functions within an error of at most 1/4 on 0..7; `C91_case` shows such functions. |
| C92 | proved | Proved for every history of frames and frequencies from zero to the sample rate, all u32 sample rates, f64 and f32 output; a day at 48 kHz is less than two millionths of a turn off (`C92_day`). Outside of it: negative and too large frequencies (C50), and a second init, which divides the step by the sample rate again (`C92_second_init`). |
| C93 | proved | Proved for any precision from f32 up, all histories in range, all steps above zero and below a quarter: 32*2^-prec from the triangle with rounded corners (C93_triangle, C93_triangle_f32), and from the plain triangle beyond a step from the corners (C93_triangle_sides). |
| C94 | proved | Proved for any precision from f32 up, all histories in range, all steps above zero and below a quarter: 72*2^-prec from the cut-off triangle with rounded corners, hence within 1 + 72*2^-prec. |
| C95 | proved | Proved for any precision from f32 up, all histories in range, all steps above zero and below a quarter and all widths from 0 to 0.999 (beyond 0.9999 the program caps the width). |
| C96 | proved | Proved for any precision from f32 up, all histories in range, all steps above zero and below a quarter and all widths from 0.01 to 0.99. |
| C97 | proved | Proved for any precision from f32 up, all histories in range and all steps above zero and below a quarter. The accuracy of the platform (constants within 4 and 8 rounding units, sin from 0 to 4 within delta and not beyond 1) is a hypothesis of the theorems, met by correctly rounded functions (C97_platform); it is not proved of a particular libm. |
| C98 | proved | Proved for any precision from f32 up, all histories in range, all steps above zero and below a quarter and all widths from 0.01 to 1. For much narrower widths the error grows without bound (C60_narrow_pulse_refuted). |
<!-- outcomes:end -->
