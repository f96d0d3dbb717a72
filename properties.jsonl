{"id": "C01", "title": "Constructor accepts exactly the documented configurations", "statement": "EbuR128::new(channels, rate, mode) succeeds exactly when 1<=channels<=64, 16<=rate<=2822400 and mode includes M (on 64-bit targets); channel or rate violations give NoMem, a missing M gives InvalidMode, and on success the getters report the given mode, channels and rate, window 3000 ms iff mode includes S else 400 ms, unlimited history and the default channel map.", "quantifier": "every u32 channel count, every u32 rate, every u8 mode", "why_tests_cant": "2^72 argument combinations; tests try a handful", "anchors": ["src/ebur128.rs:EbuR128::new", "src/ebur128.rs:default_channel_map"]}
{"id": "C02", "title": "No sequence of API calls panics", "statement": "Starting from any successfully constructed 64-bit analyzer whose rate is supported (at least 18 Hz or mode S; with LRA, 29 rounded 100 ms steps shorter than 3 s, which holds for all rates from 146 Hz), no finite sequence of mutating calls (set_channel, set_channel_map, change_parameters to such rates, set_max_window, set_max_history, reset, add_frames_*, seed_frames_*, planar variants with the configured number of channels) and no query in between ever panics, reads or writes out of bounds or loops forever, whatever the samples are (NaN and infinities included).", "quantifier": "every history of API calls of any length, all sample values, all chunk sizes", "why_tests_cant": "unbounded histories and float values; ring-buffer index errors only show at particular positions", "anchors": ["src/ebur128.rs:EbuR128", "src/filter.rs:Filter::process", "src/filter.rs:Filter::calc_gating_block", "src/history.rs:History", "src/interp.rs:RollingBuffer", "src/true_peak.rs:UpsamplingScanner"]}
{"id": "C03", "title": "400 ms buffer fits for every accepted rate (refuted at 16 and 17 Hz)", "statement": "The audio buffer allocated by a successful new holds at least one 400 ms gating block (4 x rounded 100 ms). True for all accepted configurations except rates 16 and 17 without S, where adding a block of audio panics.", "quantifier": "every accepted channels/rate/mode", "why_tests_cant": "only two rates fail", "anchors": ["src/ebur128.rs:EbuR128::allocate_audio_data", "src/ebur128.rs:EbuR128::add_frames", "src/filter.rs:Filter::process"]}
{"id": "C04", "title": "Short-term loudness available whenever mode includes S (refuted below 146 Hz)", "statement": "With mode S loudness_shortterm() succeeds in every reachable state and with LRA add_frames never fails. True for all rates >= 146 Hz; at some lower accepted rates (exactly characterised) the 3 s buffer is shorter than thirty 100 ms steps, loudness_shortterm() returns InvalidMode and add_frames with LRA returns InvalidMode midway through the input. A later add_frames call then panics.", "quantifier": "every accepted rate, every history", "why_tests_cant": "failing rates are an arithmetic family nobody tests", "anchors": ["src/ebur128.rs:EbuR128::allocate_audio_data", "src/ebur128.rs:EbuR128::energy_in_interval", "src/ebur128.rs:EbuR128::energy_shortterm", "src/ebur128.rs:EbuR128::add_frames"]}
{"id": "C05", "title": "Input container validation", "statement": "Interleaved add/seed calls return NoMem exactly when the sample count is not a multiple of the channel count; planar calls return NoMem exactly when there are no planes or planes differ in length; in all these cases the analyzer is unchanged. A planar call whose plane count differs from the configured channel count panics instead of returning an error (refutation of 'always an error').", "quantifier": "every buffer shape, every state", "why_tests_cant": "shape x state product is infinite", "anchors": ["src/utils.rs:Interleaved::new", "src/utils.rs:Planar::new", "src/filter.rs:Filter::process", "src/filter.rs:Filter::seed", "src/ebur128.rs:EbuR128::add_frames_planar_i16"]}
{"id": "C06", "title": "Failed calls change nothing", "statement": "Whenever set_channel, set_channel_map, change_parameters or set_max_window (on 32- or 64-bit targets) returns an error, the analyzer state is exactly what it was before the call.", "quantifier": "every state, every argument, every usize width", "why_tests_cant": "needs all states and error branches", "anchors": ["src/ebur128.rs:EbuR128::set_channel", "src/ebur128.rs:EbuR128::set_channel_map", "src/ebur128.rs:EbuR128::change_parameters", "src/ebur128.rs:EbuR128::set_max_window"]}
{"id": "C07", "title": "Feeding audio in chunks gives the same measurement as feeding it at once", "statement": "On targets with hardware flush-to-zero, splitting the input of add_frames at any frame positions leaves the analyzer in the same state as a single call, except for the prev_* peaks; hence all loudness values, histories and overall peaks are bit-identical.", "quantifier": "every state, every input, every partition into chunks", "why_tests_cant": "number of partitions is exponential and the ring/gating position matters", "anchors": ["src/ebur128.rs:EbuR128::add_frames", "src/filter.rs:Filter::process", "src/utils.rs:Samples::split_at"]}
{"id": "C08", "title": "Chunking invariance without hardware flush-to-zero (refuted)", "statement": "On targets without SSE2 the filter state is flushed at every internal call boundary, so the same audio fed in different chunks can yield different filter states and loudness; the block schedule and the peaks still do not depend on chunking.", "quantifier": "every input, every partition", "why_tests_cant": "needs exact float reasoning on a platform tests are not run on", "anchors": ["src/filter.rs:Filter::process", "src/filter.rs:ftz"]}
{"id": "C09", "title": "Gating-block schedule", "statement": "With mode I, after n frames since construction, reset, change_parameters or set_max_window, exactly the block energies at 400 ms and at every further 100 ms boundary (4s,5s,6s,... frames with s=(rate+5)/10) have been offered to the gating history, in order, and each is the mean-square energy of the preceding 400 ms.", "quantifier": "every n, every input, every chunking", "why_tests_cant": "all positions of the ring and of chunk boundaries", "anchors": ["src/ebur128.rs:EbuR128::add_frames", "src/filter.rs:Filter::calc_gating_block"]}
{"id": "C10", "title": "Short-term block schedule", "statement": "With mode LRA (and a buffer of at least 3 s), after n frames exactly the short-term energies at 30s, 40s, 50s, ... frames (3 s, then every second) have been offered to the loudness-range history, each over the preceding 3 s.", "quantifier": "every n, every input, every chunking", "why_tests_cant": "as C09", "anchors": ["src/ebur128.rs:EbuR128::add_frames", "src/ebur128.rs:EbuR128::energy_shortterm"]}
{"id": "C11", "title": "Momentary, short-term and window loudness read exactly the last W frames", "statement": "loudness_momentary, loudness_shortterm and loudness_window(w) return the loudness of the mean square of exactly the last W filtered frames (W = 4s, 30s, rate*w/1000), older frames not contributing and frames before the start counting as zero, for every buffer position; they fail with InvalidMode exactly when W exceeds the buffer.", "quantifier": "every ring position, every history, every window length", "why_tests_cant": "wrap-around positions", "anchors": ["src/ebur128.rs:EbuR128::energy_in_interval", "src/ebur128.rs:EbuR128::loudness_window", "src/filter.rs:Filter::calc_gating_block"]}
{"id": "C12", "title": "Channel weighting", "statement": "The energy of an interval is the sum over channels of weight x sum of squares, divided by the interval length, with weight 0 for Unused, 1.41 for LeftSurround/RightSurround/Mp060/Mm060/Mp090/Mm090, 2 for DualMono and 1 for all others.", "quantifier": "every channel map, every audio content", "why_tests_cant": "32^64 channel maps", "anchors": ["src/filter.rs:Filter::calc_gating_block"]}
{"id": "C13", "title": "Unused channels never influence loudness", "statement": "Two inputs that agree on all channels not marked Unused produce identical loudness, gating histories and thresholds, whatever is in the Unused channels.", "quantifier": "every pair of inputs, every channel map", "why_tests_cant": "relational property over pairs of runs", "anchors": ["src/filter.rs:Filter::process", "src/filter.rs:Filter::calc_gating_block"]}
{"id": "C14", "title": "DualMono equals stereo with the same signal on both sides", "statement": "A mono analyzer whose channel is DualMono produces bit-identical energies to a Left/Right stereo analyzer fed the mono signal on both channels.", "quantifier": "every signal, every rate, mode", "why_tests_cant": "bit-exact float equality for all inputs", "anchors": ["src/filter.rs:Filter::calc_gating_block"]}
{"id": "C15", "title": "K-weighting filter realises its difference equation", "statement": "In exact arithmetic the per-sample filter update produces y with sum a_k y[n-k] = sum b_k x[n-k] (a_0=1), for every input sequence, starting from rest.", "quantifier": "every coefficient set, every signal, every length", "why_tests_cant": "infinite signals", "anchors": ["src/filter.rs:Filter::process"]}
{"id": "C16", "title": "Filter coefficients are the product of the two BS.1770 biquads, reject DC, and are stable above 3364 Hz (refuted below)", "statement": "In exact arithmetic the 5-tap numerator/denominator are the polynomial products of the high-shelf and high-pass sections, the numerator sums to 0, and both sections satisfy the stability (Jury) conditions when tan(pi f0/rate) > 0; when it is negative (rates between 1682 and 3363 Hz) the shelf section has a pole outside the unit circle although the rate is accepted.", "quantifier": "every rate", "why_tests_cant": "continuum of rates", "anchors": ["src/filter.rs:filter_coefficients"]}
{"id": "C17", "title": "Absolute gate", "statement": "A block energy enters the history unless it is below the -70 LUFS energy; NaN is not below and so is recorded.", "quantifier": "every f64 energy, both history kinds", "why_tests_cant": "2^64 energies", "anchors": ["src/history.rs:History::add"]}
{"id": "C18", "title": "Histogram binning finds the right bin", "statement": "For every non-NaN energy the selected bin i (0..999) is the one whose boundaries enclose it, energies below the first boundary go to bin 0 and above the last to bin 999; NaN goes to bin 0; the search always terminates.", "quantifier": "every f64 value", "why_tests_cant": "2^64 values", "anchors": ["src/history.rs:find_histogram_index", "src/histogram_bins.rs"]}
{"id": "C19", "title": "Histogram table is correct", "statement": "The 1001 boundaries and 1000 centres are the correctly rounded doubles of the decimal literals, strictly increasing and interleaved, and each is within 1e-12 relative error of 10^((i/10-70+0.691)/10) resp. 10^((i/10-69.95+0.691)/10).", "quantifier": "every table entry", "why_tests_cant": "tests do not check the table against the formula", "anchors": ["src/histogram_bins.rs", "examples/generate_histogram_bins.rs"]}
{"id": "C20", "title": "Histogram quantisation error is at most 0.05 LU", "statement": "An energy between -70 and +30 LUFS is replaced in histogram mode by a bin centre whose loudness differs by at most 0.05 LU (+1e-9).", "quantifier": "every energy in range", "why_tests_cant": "continuum", "anchors": ["src/history.rs:Histogram::add", "src/history.rs:find_histogram_index"]}
{"id": "C21", "title": "Relative gate selects the same way in both history kinds", "statement": "loudness_global takes exactly the recorded blocks (for a histogram: the bin-centre value with its count) whose energy is >= 0.1 x mean energy, and reports their count and summed energy; the relative threshold is that factor times the mean of all recorded blocks.", "quantifier": "every history content, queue, histogram or mixture", "why_tests_cant": "all multisets of blocks", "anchors": ["src/history.rs:History::iter_gating_block_count_and_energy", "src/history.rs:History::gating_block_count_and_energy_multiple", "src/history.rs:History::relative_threshold"]}
{"id": "C22", "title": "Integrated loudness of an empty or silent programme", "statement": "With no recorded block loudness_global is -infinity, relative_threshold is -70, loudness_range is 0 and gating_block_count_and_energy is None.", "quantifier": "every state with empty history incl. every state reached by feeding only silence", "why_tests_cant": "all reachable states", "anchors": ["src/history.rs:History::gated_loudness_multiple", "src/history.rs:History::relative_threshold", "src/history.rs:History::loudness_range_multiple"]}
{"id": "C23", "title": "The relative gate never discards everything", "statement": "If at least one finite block has been recorded and the energy sum did not overflow, at least one block passes the relative gate, so loudness_global is not -infinity.", "quantifier": "every history of fewer than 2^64 blocks", "why_tests_cant": "float rounding over unbounded lists", "anchors": ["src/history.rs:History::gating_block_count_and_energy_multiple"]}
{"id": "C24", "title": "Loudness range (exact list) is the EBU 3342 percentile spread", "statement": "Without HISTOGRAM, loudness_range is loudness(95th) - loudness(10th percentile) of the sorted short-term energies that are >= 0.01 x their mean, percentile index floor((n-1)p+0.5); 0 if none; independent of the order in which blocks were recorded.", "quantifier": "every list of energies", "why_tests_cant": "all lists and permutations", "anchors": ["src/history.rs:Queue::loudness_range", "src/history.rs:History::loudness_range_multiple"]}
{"id": "C25", "title": "Loudness range (histogram) equals the list algorithm on bin centres", "statement": "With HISTOGRAM, loudness_range equals what the percentile definition gives on the list where each bin centre is repeated count times, for whatever match std's binary_search reports.", "quantifier": "every histogram", "why_tests_cant": "all count vectors", "anchors": ["src/history.rs:Histogram::loudness_range"]}
{"id": "C26", "title": "Loudness range is never negative", "statement": "For every history without NaN and infinite energies loudness_range >= 0 (given a monotone log10).", "quantifier": "every history", "why_tests_cant": "all histories", "anchors": ["src/history.rs:Queue::loudness_range", "src/history.rs:Histogram::loudness_range"]}
{"id": "C27", "title": "Combining instances: loudness_range_multiple", "statement": "loudness_range_multiple over several instances equals loudness_range of one instance that recorded all their blocks, does not depend on the order of instances, is 0 for no instance, and is InvalidMode if some instance lacks LRA or list and histogram instances are mixed.", "quantifier": "every list of instances", "why_tests_cant": "all lists, all orders", "anchors": ["src/ebur128.rs:EbuR128::loudness_range_multiple", "src/history.rs:History::loudness_range_multiple"]}
{"id": "C28", "title": "Combining instances: loudness_global_multiple", "statement": "loudness_global_multiple of a single instance equals its loudness_global; with several, one common relative threshold (0.1 x mean over all recorded blocks) gates all of them; InvalidMode if any lacks I; -infinity for no instance.", "quantifier": "every list of instances", "why_tests_cant": "all lists", "anchors": ["src/ebur128.rs:EbuR128::loudness_global_multiple", "src/history.rs:History::gated_loudness_multiple"]}
{"id": "C29", "title": "History keeps the most recent blocks up to its limit", "statement": "As long as set_max_history has not been called, the list histories hold exactly the latest usize::MAX/100 (400 ms) resp. usize::MAX/3000 (3 s) measured energies that are not below the absolute gate, in order, since construction or reset; with a histogram every bin counts exactly the measured energies that fall into it. A limit that was never exceeded is kept by further recording, and the oldest energies go first.", "quantifier": "every history of calls, every sequence of energies", "why_tests_cant": "eviction happens only after limit entries", "anchors": ["src/history.rs:Queue::add"]}
{"id": "C30", "title": "set_max_history bounds the history (refuted)", "statement": "After set_max_history(h) the history should hold at most h/100 blocks and only blocks that were measured. The code does neither: a longer history is not shortened and then grows without bound, and a shorter one is filled up with phantom zero-energy blocks, which lowers relative_threshold and makes gating_block_count_and_energy report blocks that never existed.", "quantifier": "every state, every h", "why_tests_cant": "needs specific call order", "anchors": ["src/history.rs:Queue::set_max_size", "src/history.rs:Queue::add", "src/ebur128.rs:EbuR128::set_max_history"]}
{"id": "C31", "title": "NaN never panics and is reported as NaN", "statement": "If a recorded energy is NaN then (list history) loudness_global, relative_threshold and loudness_range are NaN; with a histogram NaN counts as the lowest bin and results stay numbers.", "quantifier": "every history containing NaN", "why_tests_cant": "all positions of NaN", "anchors": ["src/history.rs:History", "src/history.rs:Histogram"]}
{"id": "C32", "title": "Sample peak is exact", "statement": "sample_peak(c) equals exactly the largest |x| / full-scale over all samples of channel c added since construction, reset or the last change of the channel count (0 if none), NaN samples ignored; for i16/i32/f32/f64, any chunking and layout. Where the hardware flushes subnormals, subnormal f64 samples count as 0.", "quantifier": "every signal, every chunking", "why_tests_cant": "all signals", "anchors": ["src/filter.rs:Filter::process", "src/ebur128.rs:EbuR128::add_frames", "src/ebur128.rs:EbuR128::sample_peak"]}
{"id": "C33", "title": "prev_* peaks refer to the last non-empty add call", "statement": "prev_sample_peak(c) is the largest level among the frames of the last add_frames call that contained frames; prev_true_peak(c) is the largest magnitude of those frames and of the oversampled signal produced for them, in which, besides these frames, only the few samples immediately before (the interpolator's memory) weigh in. An add call without frames leaves the analyzer unchanged.", "quantifier": "every history", "why_tests_cant": "all histories", "anchors": ["src/ebur128.rs:EbuR128::add_frames", "src/filter.rs:Filter::reset_peaks", "src/ebur128.rs:EbuR128::prev_sample_peak"]}
{"id": "C34", "title": "True peak dominates sample peak and peaks never decrease", "statement": "true_peak(c) >= sample_peak(c) >= prev_sample_peak(c) and true_peak(c) >= prev_true_peak(c) >= prev_sample_peak(c) >= 0, and none of the overall peaks decreases when more frames are added.", "quantifier": "every history", "why_tests_cant": "all histories", "anchors": ["src/ebur128.rs:EbuR128::true_peak", "src/ebur128.rs:EbuR128::add_frames"]}
{"id": "C35", "title": "The interpolator's unchecked buffer accesses stay in bounds and show the last N inputs", "statement": "After any number of samples the rolling buffer's unchecked writes and its N-element view are inside the 48-element array, and the view holds the last N inputs, newest first, zero padded.", "quantifier": "every push sequence, both N=12 and N=24", "why_tests_cant": "unsafe code, unbounded sequences", "anchors": ["src/interp.rs:RollingBuffer::push_front", "src/interp.rs:RollingBuffer::as_ref"]}
{"id": "C36", "title": "The interpolator is the polyphase FIR it claims to be", "statement": "Output phase f for input n is sum_k h[k*FACTOR+f] * x[n-k] evaluated in f32 in that order, with the windowed-sinc taps; factor 4 below 96 kHz, 2 below 192 kHz, none above.", "quantifier": "every signal", "why_tests_cant": "all signals", "anchors": ["src/interp.rs:InterpF::interpolate", "src/interp.rs:InterpF::new", "src/true_peak.rs:UpsamplingScanner::new"]}
{"id": "C37", "title": "True peak of a channel is independent of the other channels and of the specialised code path", "statement": "The true peak measured for channel c depends only on that channel's samples and the rate: the specialised 1/2/4/6/8-channel paths and the generic path give the same value.", "quantifier": "every channel count 1..64, every signal", "why_tests_cant": "12 code paths x all signals", "anchors": ["src/true_peak.rs:UpsamplingScanner::check_true_peak"]}
{"id": "C38", "title": "Planar and interleaved input are equivalent", "statement": "Adding or seeding the same frames in planar or interleaved layout gives the same analyzer state.", "quantifier": "every input, every state", "why_tests_cant": "all inputs", "anchors": ["src/utils.rs:Interleaved", "src/utils.rs:Planar", "src/ebur128.rs:EbuR128::add_frames_planar_f64"]}
{"id": "C39", "title": "Sample formats are equivalent", "statement": "Adding i16 or i32 samples, f32 samples, or the f64 values x/32768, x/2^31, x gives the same analyzer state bit for bit, including peaks.", "quantifier": "every sample value, every state", "why_tests_cant": "2^32 sample values", "anchors": ["src/utils.rs:Sample", "src/filter.rs:Filter::process", "src/true_peak.rs:UpsamplingScanner::check_true_peak"]}
{"id": "C40", "title": "reset() is indistinguishable from a fresh analyzer", "statement": "After reset, every later sequence of calls and queries behaves as on a newly constructed analyzer with the same mode, rate, channels, channel map, window and history limit.", "quantifier": "every state, every continuation", "why_tests_cant": "all histories", "anchors": ["src/ebur128.rs:EbuR128::reset", "src/filter.rs:Filter::reset", "src/history.rs:History::reset"]}
{"id": "C41", "title": "seed_frames only warms up the filters", "statement": "seed_frames changes no peak, history, schedule, buffer or configuration, and leaves the K-filter and interpolator exactly as if the frames had been processed by add_frames.", "quantifier": "every state, every input", "why_tests_cant": "all inputs", "anchors": ["src/filter.rs:Filter::seed", "src/true_peak.rs:TruePeak::seed"]}
{"id": "C42", "title": "Parallel chunked analysis", "statement": "If the seeded state equals the state of a single analyzer at the chunk start (documented overlap recipe), the blocks recorded by the chunk analyzers are, block for block, taken over the same filtered frames as those of the single analyzer: every 400 ms block is measured exactly once.", "quantifier": "every signal, every number and length of chunks", "why_tests_cant": "all splits", "anchors": ["src/ebur128.rs:EbuR128::loudness_global_multiple", "src/filter.rs:Filter::seed"]}
{"id": "C43", "title": "change_parameters", "statement": "With unchanged parameters it is a no-op; otherwise it restarts filter, buffer and schedule for the new parameters as a fresh analyzer would, keeps the recorded histories, window and history limit, and resets channel map and overall peaks exactly when the channel count changes.", "quantifier": "every state, every argument", "why_tests_cant": "all states", "anchors": ["src/ebur128.rs:EbuR128::change_parameters"]}
{"id": "C44", "title": "set_max_window / set_max_history clamp", "statement": "After success max_window() is max(w, 3000 with S, else 400), likewise max_history(); setting the current value is a no-op; another window restarts only buffer and schedule.", "quantifier": "every state and argument", "why_tests_cant": "all states", "anchors": ["src/ebur128.rs:EbuR128::set_max_window", "src/ebur128.rs:EbuR128::set_max_history"]}
{"id": "C45", "title": "Query preconditions", "statement": "Each query succeeds or fails by mode and channel index exactly as documented: global/relative_threshold need I, range needs LRA, sample_peak needs SAMPLE_PEAK, true_peak needs TRUE_PEAK (InvalidMode has priority), channel index must be below channels.", "quantifier": "every reachable state and argument", "why_tests_cant": "all states", "anchors": ["src/ebur128.rs:EbuR128::loudness_global", "src/ebur128.rs:EbuR128::true_peak", "src/ebur128.rs:Mode"]}
{"id": "C46", "title": "Channel map rules", "statement": "In every reachable state the channel map has one entry per channel and contains DualMono only when there is a single channel; set_channel / set_channel_map change exactly the requested entries.", "quantifier": "every history", "why_tests_cant": "all histories", "anchors": ["src/ebur128.rs:EbuR128::set_channel", "src/ebur128.rs:EbuR128::set_channel_map"]}
{"id": "C47", "title": "Silence", "statement": "Feeding any amount of silence to a fresh analyzer (finite coefficients) gives -infinity momentary, short-term and global loudness, range 0, all peaks 0 and no recorded block.", "quantifier": "every length, chunking, config", "why_tests_cant": "all lengths", "anchors": ["src/ebur128.rs:EbuR128::loudness_momentary", "src/history.rs:History::add"]}
{"id": "C48", "title": "Energies are never negative", "statement": "Every energy computed by the analyzer is >= 0 or NaN, so momentary/short-term loudness is -infinity exactly for energy zero.", "quantifier": "every audio content", "why_tests_cant": "all floats", "anchors": ["src/filter.rs:Filter::calc_gating_block", "src/ebur128.rs:EbuR128::loudness_momentary"]}
{"id": "C49", "title": "loudness_window agrees with momentary and short-term", "statement": "At rates divisible by 10 loudness_window(400) equals loudness_momentary and loudness_window(3000) equals loudness_shortterm; a window shorter than one frame yields NaN.", "quantifier": "every state and rate", "why_tests_cant": "all rates", "anchors": ["src/ebur128.rs:EbuR128::loudness_window"]}
{"id": "C50", "title": "Floating-point environment is restored", "statement": "On SSE2 targets every call that enables flush-to-zero restores the control register to its previous value on normal and panicking exit.", "quantifier": "every prior register value, every call", "why_tests_cant": "all register values", "anchors": ["src/filter.rs:ftz::with_ftz"]}
{"id": "C51", "title": "C API error codes and argument handling", "statement": "Each C function returns 0 exactly when the Rust call succeeds, 1/2/3 for NoMem/InvalidMode/InvalidChannelIndex, 4 for the no-change cases, writes the output only on success, rejects window/history above u32 and frame counts whose product overflows; the wrapper's channel count always equals the analyzer's. The sample rate is silently truncated to 32 bits (refutation of 'invalid rates are rejected').", "quantifier": "every argument, every state", "why_tests_cant": "all argument values", "anchors": ["src/capi.rs:ebur128_change_parameters", "src/capi.rs:ebur128_set_max_window", "src/capi.rs:ebur128_add_frames_short", "src/capi.rs:ebur128_init"]}
{"id": "C52", "title": "Memory-size arithmetic never wraps", "statement": "Buffer-size computation either returns NoMem or yields the exact mathematical size, for 32- and 64-bit usize; on 32-bit a size above isize::MAX bytes panics in the allocator instead of returning NoMem (refutation).", "quantifier": "every channels/rate/window and usize width", "why_tests_cant": "overflow corners", "anchors": ["src/ebur128.rs:EbuR128::allocate_audio_data"]}
{"id": "C53", "title": "Queries do not change the analyzer and instances are independent", "statement": "What a program sees of one handle does not depend on what it does with other handles; and dropping every query from a history does not change the result of any later call.", "quantifier": "every sequence of calls over any number of handles, every allocator behaviour", "why_tests_cant": "all interleavings", "anchors": ["src/ebur128.rs:EbuR128", "src/capi.rs"]}
{"id": "C54", "title": "gating_block_count_and_energy agrees with loudness_global", "statement": "With mode I loudness_global is energy_to_loudness(energy/count) of gating_block_count_and_energy when it is Some, otherwise -infinity (or NaN for NaN histories); count is positive and at most the number of recorded blocks.", "quantifier": "every history", "why_tests_cant": "all histories", "anchors": ["src/ebur128.rs:EbuR128::gating_block_count_and_energy", "src/history.rs:History::gated_loudness_multiple"]}
{"id": "C55", "title": "Handles of the C API: memory safety", "statement": "A C program that uses a handle only between ebur128_init and ebur128_destroy never runs into undefined behaviour or a panic; exactly two boxes are allocated per live handle, so nothing leaks and nothing is freed twice; ebur128_destroy sets the variable to null, and destroying null or a null pointer does nothing.", "quantifier": "every program over any number of handles that keeps the contract, every allocator behaviour", "why_tests_cant": "all call sequences and address choices", "anchors": ["src/capi.rs:ebur128_init", "src/capi.rs:ebur128_destroy", "src/capi.rs:State"]}
{"id": "C56", "title": "Polarity does not matter", "statement": "If two analyzers created alike receive the same calls, except that in the audio of the second one every sample of some fixed set of channels is negated (a channel wired with inverted polarity), then they record the same gating blocks and every query (all loudness values, range, thresholds, sample and true peaks) gives bit for bit the same answer.", "quantifier": "every history of calls, every set of inverted channels, every sample format and layout, every sample value including NaN and infinities", "why_tests_cant": "all histories and sample values; rounding must be symmetric at every step of filter, interpolator and sums", "anchors": ["src/filter.rs:Filter::process", "src/filter.rs:Filter::calc_gating_block", "src/interp.rs:Interp", "src/true_peak.rs:TruePeak", "src/ebur128.rs:EbuR128::add_frames"]}
{"id": "C57", "title": "Exchanging the first two channels", "statement": "If two analyzers created alike receive the same calls, except that for the second one the first two channels (left and right) are exchanged, in the audio and in the channel roles, where a role may be replaced by one of equal weight, then they record the same gating blocks, give bit for bit the same loudness answers, and the peak queries of the first two channels are exchanged.", "quantifier": "every history of calls, every channel count, every role assignment, every sample value", "why_tests_cant": "all histories and sample values; floating-point addition is not associative, so the order of channels could matter", "anchors": ["src/filter.rs:Filter::calc_gating_block", "src/ebur128.rs:EbuR128::set_channel", "src/ebur128.rs:EbuR128::set_channel_map", "src/ebur128.rs:EbuR128::sample_peak", "src/ebur128.rs:EbuR128::true_peak"]}
{"id": "C58", "title": "Momentary, short-term and window loudness are accurate", "statement": "The momentary, short-term and window loudness answers (finite, at least -300 LUFS) differ from the exact real-number loudness of the recorded weighted signals, -0.691 + 10 log10 of the channel-weighted mean square of the last 400 ms, 3 s or requested frames, by at most 10 n 2^-53 + 10^-11 LU, where n is the number of frames plus channels plus 4.", "quantifier": "every history of calls, rate, channel layout, window length and sample value", "why_tests_cant": "rounding errors accumulate over windows of any length and depend on every sample; a bound must hold for all of them", "anchors": ["src/filter.rs:Filter::calc_gating_block", "src/ebur128.rs:EbuR128::loudness_momentary", "src/ebur128.rs:EbuR128::loudness_shortterm", "src/ebur128.rs:EbuR128::loudness_window", "src/utils.rs:energy_to_loudness"]}
{"id": "C59", "title": "Programme loudness and relative threshold are accurate", "statement": "The integrated loudness of one or several analyzers is, within 10 n 2^-53 + 10^-11 LU, the loudness of the exact mean energy of those recorded blocks that pass a gate, and the gate is 10 LU below the exact mean of all of them within the same error; if no block lies within that error of the gate the answer is the textbook value. The relative threshold answer has the same error.", "quantifier": "every history of calls and every list of analyzers, both history kinds, fewer than 2^50 roundings", "why_tests_cant": "all block lists; a rounding at the gate could add or drop blocks and move the result arbitrarily", "anchors": ["src/history.rs:History::gated_loudness", "src/history.rs:History::relative_threshold", "src/ebur128.rs:EbuR128::loudness_global", "src/ebur128.rs:EbuR128::loudness_global_multiple", "src/ebur128.rs:EbuR128::relative_threshold"]}
{"id": "C60", "title": "Loudness range is accurate", "statement": "The loudness range is, within 10^-10 LU, the difference in LU of the two percentiles of those short-term blocks that pass a gate lying 20 LU below their exact mean energy, up to the rounding error of the gate; if no block lies that close to the gate the answer is the textbook value.", "quantifier": "every history of calls, both history kinds, up to 2^46 blocks", "why_tests_cant": "all block lists and orders; rounding at the gate and at the percentile positions could select other blocks", "anchors": ["src/history.rs:History::loudness_range", "src/ebur128.rs:EbuR128::loudness_range"]}
{"id": "C61", "title": "Coefficients of the weighting filter are accurate", "statement": "For every analyzer at 6728 Hz or more, the ten coefficients of its K-weighting filter are finite and within 2^-37 of the coefficients computed in exact arithmetic with the real tangent and power functions.", "quantifier": "every reachable analyzer, every rate from 6728 Hz to the largest one, every libm whose tan and powf are accurate to 2^-50 and 2^-48", "why_tests_cant": "2.8 million rates; an error analysis of tan, pow, four divisions and two polynomial products", "anchors": ["src/filter.rs:filter_coefficients"]}
{"id": "C62", "title": "Rounding in the weighting filter acts like small noise", "statement": "The K-weighted signal of a channel is exactly what the ideal filter (exact arithmetic, exact coefficients) makes of the samples plus a small disturbance of each sample and of each output: at most 2^-34 of the largest sample or kept value, plus 2^-43 on platforms where small values are cleared by software (2^-1000 otherwise). Hence at a given rate the error of the filtered signal is at most a constant times this, however long the programme.", "quantifier": "every history of calls on an analyzer at 6728 Hz or more (construction or reset, any sequence and chunking of frames in any format, any other calls except seeding and reconfiguration), every platform", "why_tests_cant": "all signals of any length; rounding feeds back through the recursive filter", "anchors": ["src/filter.rs:Filter::process", "src/filter.rs:filter_coefficients", "src/ebur128.rs:EbuR128::add_frames"]}
{"id": "C63", "title": "The ideal weighting filter is linear, time-invariant and causal", "statement": "In exact arithmetic the filtered sum of two signals is the sum of the filtered signals, scaling the input scales the output, leading silence only delays, and outputs do not depend on later inputs.", "quantifier": "all coefficients, all signals, all lengths", "why_tests_cant": "all signals", "anchors": ["src/filter.rs:Filter::process"]}
{"id": "C64", "title": "Measurements are independent of each other", "statement": "Two analyzers with the same channels and rate and with different modes (both with or both without S), given the same calls, return the same results from every call, and give the same answer to every query that both modes measure (queries about recorded blocks: both or neither in histogram mode). Switching further measurements on or off does not change a measurement.", "quantifier": "all pairs of modes that agree in S, all sequences of admissible calls, all queries both measure", "why_tests_cant": "all pairs of modes and all call sequences", "anchors": ["src/ebur128.rs:EbuR128::new", "src/ebur128.rs:Mode", "src/ebur128.rs:EbuR128::add_frames_f32"]}
{"id": "C65", "title": "Histogram mode agrees with the block list within its resolution", "statement": "Given the same calls (set_max_history not among them), the histogram holds exactly the blocks of the list sorted into the bins. If no block is NaN or above +30 LUFS, the relative thresholds in both modes differ by at most 0.05 LU, and if no block is within 0.1 LU of the gate, so do the programme loudnesses; the loudness ranges differ by at most 0.1 LU (all plus a rounding allowance).", "quantifier": "all pairs of a list analyzer and a histogram analyzer after the same calls, any signal, up to 2^46 blocks", "why_tests_cant": "the bound is over all sets of block energies", "anchors": ["src/history.rs:History", "src/history.rs:find_histogram_index", "src/history.rs:History::loudness_range", "src/ebur128.rs:Mode::HISTOGRAM"]}
{"id": "C66", "title": "Frequency response of the weighting filter", "statement": "In exact arithmetic, at rates from 3364 Hz on, a sinusoid of any frequency below half the rate leaves the weighting filter as a sinusoid of the same frequency plus a transient that decays geometrically; its power is multiplied by the product of the gains of the two analog prototypes (high shelf and high pass) at the frequencies the bilinear transform maps it to. The mean square of the last w outputs is that power up to an incomplete period and the transient.", "quantifier": "all rates from 3364 Hz on, all frequencies below half the rate, all amplitudes and phases, all lengths", "why_tests_cant": "a continuum of rates, frequencies, amplitudes and phases, and unbounded time", "anchors": ["src/filter.rs:filter_coefficients", "src/filter.rs:Filter::process"]}
{"id": "C67", "title": "Calibration at 997 Hz", "statement": "The constant -0.691 of the loudness formula cancels the gain of the weighting filter at 997 Hz: a 997 Hz sinusoid of power z has, after the transient, a loudness of 10 log10 z, within 0.002 LU at 48000 Hz and within 0.1 LU at every rate from 32000 Hz on. A full-scale sine in one channel is -3.01 LUFS.", "quantifier": "all powers, all rates from 32000 Hz on", "why_tests_cant": "all rates and powers; the exact value needs real arithmetic", "anchors": ["src/filter.rs:filter_coefficients", "src/utils.rs:energy_to_loudness"]}
{"id": "C68", "title": "Loudness of a sinusoid", "statement": "If one channel of an analyzer (rate from 6728 Hz on) receives samples within d of a sinusoid and the other channels are silent, the mean square behind the reported loudness (C58) is the channel's weight times the power of the sinusoid times the gain of the filter at its frequency, up to terms for the decaying transient, for d, for the rounding noise and for an incomplete period.", "quantifier": "all rates from 6728 Hz on, frequencies, amplitudes, phases, channels, sample formats, ways to cut the audio into calls, platforms", "why_tests_cant": "a continuum of signals and all chunkings", "anchors": ["src/ebur128.rs:EbuR128::add_frames_f32", "src/ebur128.rs:EbuR128::loudness_momentary", "src/filter.rs:Filter::process"]}
{"id": "C69", "title": "The true-peak interpolator against the exact windowed sinc", "statement": "Every tap of the interpolation filter is within 2^-23 of the exact Hann-windowed sinc. After an add, the channel's previous true peak is at least the level of each sample of the call and at least the magnitude of each exact oversampled value (the exact windowed-sinc interpolation of all samples since the last reset of the interpolator), up to 2^-16 of the largest sample; and it is zero, the level of a sample or one of these magnitudes, up to the same error.", "quantifier": "all histories, sample formats, channels, rates below 192 kHz, signals bounded by any M up to 2^100", "why_tests_cant": "all signals of all lengths; needs real arithmetic to say what the exact value is", "anchors": ["src/interp.rs:Interp::new", "src/interp.rs:interpolate", "src/true_peak.rs:TruePeak::check_true_peak", "src/ebur128.rs:EbuR128::prev_true_peak"]}
{"id": "C70", "title": "How far the true peak can exceed the samples", "statement": "If no sample ever added exceeds M, no true-peak reading exceeds 1.866 M (5.42 dB) as long as the rate stays below 96 kHz, 2.308 M (7.27 dB) otherwise; in particular it is finite. The factors are sharp: there are full-scale signals of one call whose previous true peak is at least 1.864 (below 96 kHz) and 2.306 (96 to 192 kHz), whatever moderate samples came before.", "quantifier": "all histories (including reconfigurations and resets), all signals bounded by any M up to 2^90", "why_tests_cant": "a worst case over all signals", "anchors": ["src/interp.rs:Interp::new", "src/interp.rs:interpolate", "src/ebur128.rs:EbuR128::true_peak", "src/ebur128.rs:EbuR128::prev_true_peak"]}
{"id": "C71", "title": "True peak of a sinusoid", "statement": "If a channel's samples follow a sinusoid of amplitude A, the previous true peak of a call exceeds A by at most the ripple of the interpolation filter (0.41% up to a quarter of the rate, 1.31% up to 0.35 of it; 0.61% up to 0.4 of the rate from 96 kHz on), and if the call covers half a period it falls short of A by at most the ripple and the loss of sampling half an oversampled step from the crest. Below 96 kHz and up to a quarter of the rate the reading is within the +0.2/-0.4 dB of EBU Tech 3341.", "quantifier": "all rates below 192 kHz, frequencies in the stated bands, amplitudes, phases, sample formats, call lengths", "why_tests_cant": "a continuum of frequencies, amplitudes and phases", "anchors": ["src/interp.rs:Interp::new", "src/interp.rs:interpolate", "src/true_peak.rs:TruePeak::check_true_peak", "src/ebur128.rs:EbuR128::prev_true_peak"]}
{"id": "C72", "title": "Readings against the exact measurement of the input", "statement": "For samples no larger than M, no sample of the K-weighted signal is off from the exact filter's output by more than 4.2e-6 (rate/48000)^4 M (plus 2^-43 where the platform cannot flush subnormals), however long the programme is, and all of them are finite. Hence a momentary, short-term or window reading is finite and differs from the loudness of the exactly weighted input samples by at most 12 LU times the relative error of the root mean square, plus the error of the calculation in LUFS (for stereo at 48 kHz, full scale and -23 LUFS: about 0.001 LU).", "quantifier": "all histories of calls, sample formats, channel layouts, rates from 22050 Hz to 768 kHz, programmes of any length with samples up to any M <= 2^400", "why_tests_cant": "the worst case over all signals of a recursive filter with rounded coefficients and rounded state", "anchors": ["src/filter.rs:Filter::new", "src/filter.rs:filter_coefficients", "src/filter.rs:process", "src/filter.rs:calc_gating_block", "src/ebur128.rs:loudness_momentary", "src/ebur128.rs:loudness_shortterm", "src/ebur128.rs:loudness_window"]}
{"id": "C73", "title": "Integrated loudness against the exact measurement of the input", "statement": "After any sequence of add calls on a new or reset analyzer in I mode (without HISTOGRAM), the global loudness is reported, is finite, and differs from the integrated loudness of the input samples, computed over the real numbers from the definition (K-weighting, 400 ms blocks every 100 ms, absolute gate at -70 LUFS, relative gate 10 LU below the mean of the blocks left), by at most 14 LU times the relative error of the root mean square plus 10 n 2^-53 + 1e-11 LU, provided no block's energy lies within the error of a gate.", "quantifier": "all sequences of add calls of any sizes and formats, channel layouts, rates from 22050 Hz to 768 kHz, programmes of up to 2^50 blocks", "why_tests_cant": "all programmes, all ways of cutting them into calls; the gates make the result discontinuous in the samples", "anchors": ["src/ebur128.rs:EbuR128::loudness_global", "src/ebur128.rs:EbuR128::add_frames", "src/filter.rs:Filter::process", "src/filter.rs:Filter::calc_gating_block", "src/history.rs:History::gated_loudness"]}
{"id": "C74", "title": "Loudness range against the exact measurement of the input", "statement": "After any sequence of add calls on a new or reset analyzer in LRA mode (without HISTOGRAM), the loudness range is reported, is finite, and differs from the loudness range of the input samples, computed over the real numbers from the definition of EBU Tech 3342 (3 s blocks every second, absolute gate at -70 LUFS, relative gate 20 LU below the mean, difference between the blocks at 95 % and 10 %), by at most 28 LU times the relative error of the root mean square of the lower block plus 1e-10 LU, provided no block's energy lies within the error of a gate.", "quantifier": "all sequences of add calls of any sizes and formats, channel layouts, rates from 22050 Hz to 768 kHz, programmes of up to 2^46 blocks", "why_tests_cant": "all programmes, all ways of cutting them into calls; the gates and the ranks make the result depend on every block", "anchors": ["src/ebur128.rs:EbuR128::loudness_range", "src/ebur128.rs:EbuR128::add_frames", "src/filter.rs:Filter::calc_gating_block", "src/history.rs:History::loudness_range"]}
{"id": "C75", "title": "Parallel measurement in overlapping chunks against the exact measurement of the whole programme", "statement": "If a programme is divided into chunks as the documentation of loudness_global_multiple describes (ends at multiples of 100 ms, an overlap of 400 ms, a new or reset analyzer for each chunk, the first 100 ms of every chunk but the first through seed_frames and the rest through add_frames), loudness_global_multiple over the analyzers reports a finite value that differs from the integrated loudness of the whole programme, computed over the real numbers, by at most 14 LU times the relative error of the root mean square plus 10 n 2^-53 + 1e-11 LU, where leaving out everything before the 100 ms adds 1.05e-6 of the largest sample to the error of the weighted signal, provided no block's energy lies within the error of a gate. In exact arithmetic, 100 ms of signal leave no more than 1e-6 of the largest earlier sample in the output of the weighting filter.", "quantifier": "all programmes, numbers and lengths of chunks, calls of any sizes and formats within each chunk, channel layouts, rates from 22050 Hz to 768 kHz, up to 2^50 blocks", "why_tests_cant": "all programmes and all ways of cutting them into chunks and calls; the filter's memory never vanishes exactly, so the claim is about the slowest decay of any input", "anchors": ["src/ebur128.rs:EbuR128::loudness_global_multiple", "src/ebur128.rs:EbuR128::seed_frames", "src/ebur128.rs:EbuR128::add_frames", "src/filter.rs:Filter::seed", "src/filter.rs:Filter::process"]}
{"id": "C76", "title": "A gain of x dB is a change of x LU; normalisation reaches its target", "statement": "If the samples given to one analyzer are g times those of a programme, each rounded by at most delta, the momentary, short-term and windowed loudness and the integrated loudness it reports are those of the programme (over the real numbers) plus 20 log10 g, up to 12 (14 for the integrated loudness) times the relative error of the root mean square plus a rounding tolerance of 10 n 2^-53 + 1e-11 LU; for the integrated loudness if the gain takes no block across -70 LUFS and none lies within the error of a gate. So measuring a programme, applying the gain 10^((T - measured)/20) and measuring the result again reports the target T up to the sum of both errors.", "quantifier": "all programmes, gains, targets and roundings of the amplified samples, calls of any sizes and formats, channel layouts, rates from 22050 Hz to 768 kHz, up to 2^50 blocks", "why_tests_cant": "all signals and gains; the gates and the filter's denormal handling are not linear, so linearity of the result is not implied by linearity of the parts", "anchors": ["src/ebur128.rs:EbuR128::loudness_global", "src/ebur128.rs:EbuR128::loudness_momentary", "src/ebur128.rs:EbuR128::loudness_shortterm", "src/ebur128.rs:EbuR128::loudness_window", "src/ebur128.rs:EbuR128::add_frames", "src/filter.rs:Filter::process"]}
{"id": "C77", "title": "Histogram mode against the exact measurement of the input", "statement": "With the HISTOGRAM mode, after nothing but add_frames calls, loudness_global reports a finite value within 0.05 LU plus 14 times the relative error of the root mean square plus 1e-8 LU of the integrated loudness of the input samples over the real numbers, and loudness_range one within 0.1 LU plus 28 times that relative error plus 1e-8 LU of the exact loudness range, provided no block's energy exceeds 900 (28.8 LUFS) and no block lies within the error of the absolute gate or within 2 % (0.17 LU) and the error of the relative gate.", "quantifier": "all programmes, calls of any sizes and formats, channel layouts, rates from 22050 Hz to 768 kHz, up to 2^46 blocks", "why_tests_cant": "all programmes; a block's bin, the mean of bin centres and the gate interact for every arrangement of blocks", "anchors": ["src/history.rs:History::add", "src/history.rs:History::gated_loudness", "src/history.rs:History::loudness_range", "src/histogram_bins.rs", "src/ebur128.rs:EbuR128::loudness_global", "src/ebur128.rs:EbuR128::loudness_range", "src/ebur128.rs:EbuR128::add_frames"]}
{"id": "C78", "title": "What the ReplayGain example prints", "statement": "For every album of 16-bit recordings with audible tracks of at least 400 ms, the replaygain example prints for every track the gain to -18 LUFS of the gating blocks that an analyzer given the whole track reports, within 1e-9 dB, and the largest sample; its album gain is the gain to -18 LUFS of the sum of the tracks' energies over the sum of their block counts, within 1e-9 dB, lies between the smallest and the largest track gain, and the album peak is the largest sample of all tracks. A track that is shorter than 400 ms or silent stops the program with a panic whatever the other tracks are. The album gain is not the gain from loudness_global_multiple of the same analyzers: a loud and a soft track give values more than 3 dB apart.", "quantifier": "all albums of up to 100000 recordings, all 16-bit samples, all channel counts and rates the analyzer supports, all lengths", "why_tests_cant": "all albums and samples; the bound holds for every accumulation of rounding errors over the tracks, and the panics hold for every short or silent track", "anchors": ["examples/replaygain.rs:main", "examples/replaygain.rs:analyze_file", "src/ebur128.rs:EbuR128::gating_block_count_and_energy", "src/ebur128.rs:EbuR128::loudness_global", "src/ebur128.rs:EbuR128::loudness_global_multiple", "src/ebur128.rs:energy_to_loudness"]}
{"id": "C79", "title": "What the normalize example writes", "statement": "For every 16-bit recording the normalize example ends and writes as many samples as it read, all within +-32767, whatever powf returns. With a powf accurate to 2^-21 every sample is mapped by one increasing odd function; if the recording has a loudness, that function is multiplication by the gain from the reported loudness to -23 LUFS followed by clipping to +-32767, to within 1.5 steps; if it has none (no block above -70 LUFS, in particular whenever it is shorter than 400 ms), every non-zero sample becomes +-32767, i.e. a short or very soft clip is turned into full-scale noise.", "quantifier": "all 16-bit recordings, all channel counts and rates the analyzer supports, all lengths, any powf within the contract", "why_tests_cant": "all samples and gains; conversion, overflow, clamping and truncation interact for every sample value and loudness", "anchors": ["examples/normalize.rs:main", "src/ebur128.rs:EbuR128::loudness_global", "src/ebur128.rs:EbuR128::add_frames_f32"]}
{"id": "C80", "title": "Sinusoids read their level", "statement": "If every channel plays a sinusoid of the same frequency (any amplitudes and phases, samples rounded by at most delta), then half a second later every reading over a window (momentary, short-term, loudness_window) is the weighted sum of the channels' powers times the squared gain of the standard's filter at that frequency, up to 14 times the relative error of the root mean square, 6 times the odd part of a period in the window, and 1e-5 LU. At 997 Hz momentary and short-term loudness are that sum of powers in dB, within 0.11 LU plus the error term at all rates from 32 kHz and within 0.005 LU plus the error term at 48 kHz; in particular a 997 Hz sine of L dBFS in both front channels reads L LUFS (test signals 1 and 2 of EBU Tech 3341). The error term is 14 times the relative rounding error of the root mean square. The filter started from rest has settled to the sinusoid up to 1e-8 of the amplitude after half a second.", "quantifier": "all frequencies below half the rate with a filter gain of at least -20 dB, all amplitudes and phases per channel, all channel layouts, rates from 22050 Hz (997 Hz statements: 32 kHz) to 768 kHz, all window lengths and splits into calls and formats", "why_tests_cant": "all frequencies, amplitudes, phases and moments of asking; a test measures single signals", "anchors": ["src/filter.rs:Filter::new", "src/filter.rs:Filter::process", "src/ebur128.rs:EbuR128::loudness_momentary", "src/ebur128.rs:EbuR128::loudness_shortterm", "src/ebur128.rs:EbuR128::loudness_window", "src/ebur128.rs:EbuR128::calc_gating_block", "tests/reference_tests.rs"]}
{"id": "C81", "title": "The Rust history agrees with the C reference code", "statement": "For every sequence of block energies (none NaN), recorded with and without histogram and with any maximum, the C reference code the crate was ported from (tests/c/history.c) and the Rust code give the same integrated loudness, relative threshold and loudness range: equal to the bit when both use log(x)/log(10), as the crate does in its tests, and otherwise equal or finite and within 6e-11 LU. The readings of an analyzer are therefore those of the C code on the energies of its blocks. The tables the C code computes at start are those the generator of the Rust tables writes. The two differ on NaN energies (C ignores them, a Rust list reads NaN from then on) and after the maximum history is changed.", "quantifier": "all sequences of energies of up to 2^46 audible blocks, both kinds of history, all maxima, all reachable analyzers; all libraries that meet the contracts", "why_tests_cant": "the repository's quickcheck tests compare the two on a few random histories; equality must hold for every history", "anchors": ["tests/c/history.c", "src/history.rs:History", "src/histogram_bins.rs", "examples/generate_histogram_bins.rs", "src/ebur128.rs:EbuR128::loudness_global"]}
{"id": "C82", "title": "The energy of a block agrees with the C reference code", "statement": "Given the same ring of filtered audio, the same position, window and channel layout, the C reference code (tests/c/calc_gating_block.c, which keeps the ring interleaved) and the Rust code (one channel after the other) give the same block energy, to the bit.", "quantifier": "all ring contents (also infinities and NaN), all ring sizes, windows and positions, all numbers of channels and all 32 channel positions", "why_tests_cant": "the repository's quickcheck tests compare random rings; the sums must agree for every content, position and wrap", "anchors": ["tests/c/calc_gating_block.c", "src/filter.rs:Filter::calc_gating_block", "src/ebur128.rs:Channel"]}
{"id": "C83", "title": "The filter agrees with the C reference code", "statement": "On a processor with flush-to-zero, for every sequence of calls in any of the four sample formats, the C reference filter (tests/c/filter.c) and the Rust filter, created with the same rate and channels, write the same filtered audio, keep the same memory and report the same sample peaks, to the bit. The formats are read alike except subnormal 64-bit samples. Without flush-to-zero the two differ: Rust clears states below 2^-52 after a call, C only those below 2^-1022.", "quantifier": "all rates, channel counts and layouts, all samples and sequences of calls, all ring sizes and positions; all libraries with the same tan and pow", "why_tests_cant": "the repository's quickcheck tests compare one call on random signals; equality must hold for every signal and history", "anchors": ["tests/c/filter.c", "src/filter.rs:Filter::new", "src/filter.rs:Filter::process", "src/filter.rs:Filter::reset_peaks", "src/utils.rs:ftz"]}
{"id": "C84", "title": "The true peak agrees with the C reference code", "statement": "The C reference interpolator and true peak (tests/c/interp.c, tests/c/true_peak.c) exist for the same sample rates as the Rust ones and convert samples to the same f32 values. Given the same samples of at most M, each oversampled value of the C code is within 2^-22 M + 2^-124 of the exact one and within that plus 2^-16 M + 2^-118 of the Rust one. After a call on at most 400 ms of audio the C peak and the reading prev_true_peak of an analyzer that heard the same samples differ by at most that, unless the latter is the level of a sample. The same holds for the peak of a whole session in which frames were only added, against a C object that was given the same samples in whatever chunks; how they are divided among calls does not change the C peaks at all.", "quantifier": "all signals and sequences of calls, all channel counts and rates, all sample formats; all libraries with accurate sin and cos", "why_tests_cant": "the repository's quickcheck tests compare random signals with a tolerance; the bound must hold for every signal, history and position of the delay lines", "anchors": ["tests/c/interp.c", "tests/c/true_peak.c", "src/interp.rs:InterpF", "src/true_peak.rs:TruePeak", "src/ebur128.rs:EbuR128::prev_true_peak", "src/ebur128.rs:EbuR128::true_peak"]}
{"id": "C85", "title": "The whole filter agrees with the C reference filter", "statement": "Take a new Rust filter and a new C filter (tests/c/filter.c) for the same rate and number of channels, with or without sample peaks and true peaks, on a processor with flush-to-zero. After any sequence of calls that process the same audio (with true peaks, at most 400 ms each) or reset the peaks, both have run without panic or out-of-range access, hold the same memory and the same sample peaks and have written the same audio, bit for bit; their true peaks differ by at most 2^-16 M + 2^-118 + 2^-22 M + 2^-124 in each channel, if the samples are at most M. If the energies of windows of the filtered audio are measured between the calls, at any places of the ring, both note down the same energies, bit for bit, and histories of these energies, as a list or a histogram, give the same gated loudness, relative threshold and loudness range, up to 2^-34.", "quantifier": "all sequences of process and reset_peaks calls, all signals, all channel counts, channel maps and rates, all sample formats; all libraries with accurate sin and cos", "why_tests_cant": "the repository's quickcheck tests compare one call on random signals with a tolerance; the agreement must hold for every history of calls and resets, whatever was in the delay lines when the peaks were reset", "anchors": ["tests/c/filter.c", "src/filter.rs:Filter::process", "src/filter.rs:Filter::reset_peaks", "src/true_peak.rs:TruePeak::check_true_peak", "tests/c/calc_gating_block.c", "tests/c/history.c", "src/filter.rs:Filter::calc_gating_block"]}
