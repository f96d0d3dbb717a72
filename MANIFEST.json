{
 "claims": [
  {
   "property": "C01",
   "status": "proved",
   "theorems": [
    "C01_new"
   ],
   "note": "64-bit targets"
  },
  {
   "property": "C02",
   "status": "proved",
   "theorems": [
    "C02_calls",
    "C02_multiple",
    "C02_new",
    "C02_queries"
   ],
   "note": "64-bit targets; std's binary_search is assumed to answer within its contract (any match)"
  },
  {
   "property": "C03",
   "status": "proved",
   "theorems": [
    "C03_momentary_available",
    "C03_refuted"
   ],
   "note": "C03_refuted: at 16 and 17 Hz without S the buffer is too short, momentary is unavailable and adding 400 ms panics"
  },
  {
   "property": "C04",
   "status": "proved",
   "theorems": [
    "C04_lra_refuted",
    "C04_refuted",
    "C04_shortterm_available"
   ],
   "note": "C04_refuted and C04_lra_refuted characterise the low rates at which it fails"
  },
  {
   "property": "C05",
   "status": "proved",
   "theorems": [
    "C05_containers",
    "C05_refuted_wrong_plane_count"
   ],
   "note": "C05_refuted_wrong_plane_count: a wrong plane count panics"
  },
  {
   "property": "C06",
   "status": "proved",
   "theorems": [
    "C06_failed_add_unchanged",
    "C06_failed_call_unchanged"
   ],
   "note": "all platforms; add_frames is covered for reachable states"
  },
  {
   "property": "C07",
   "status": "proved",
   "theorems": [
    "C07_chunks",
    "C07_measurement"
   ],
   "note": "targets with hardware flush-to-zero (p_ftz); C08 shows why the others are excluded"
  },
  {
   "property": "C08",
   "status": "proved",
   "theorems": [
    "C08_peaks",
    "C08_refuted",
    "C08_schedule"
   ],
   "note": "The property is that chunking is visible without hardware flush-to-zero: C08_refuted is the witness; C08_peaks and C08_schedule are what still does not depend on chunking, on every platform."
  },
  {
   "property": "C09",
   "status": "proved",
   "theorems": [
    "C09_block_ends",
    "C09_block_ends_in_order",
    "C09_blocks",
    "C09_one_call",
    "C09_other_calls",
    "C09_reset",
    "C09_tape_exists"
   ],
   "note": "From any reachable state, for any sequence of add calls; the first frames of the record are those since construction, reset, change_parameters or set_max_window. The energies are stated bit for bit (including summation order) and related to the real-number mean square in C12."
  },
  {
   "property": "C10",
   "status": "proved",
   "theorems": [
    "C10_short_blocks",
    "C10_short_ends"
   ],
   "note": "Same model as C09; LRA implies a buffer of 3 s at supported rates."
  },
  {
   "property": "C11",
   "status": "proved",
   "theorems": [
    "C11_momentary",
    "C11_shortterm",
    "C11_window"
   ],
   "note": "All buffer positions and histories of calls. Windows up to 2^32-1 ms (the argument type)."
  },
  {
   "property": "C12",
   "status": "proved",
   "theorems": [
    "C12_block_weights",
    "C12_unit_gain",
    "C12_weights"
   ],
   "note": "Real-number mean square with explicit rounding-error bound for every finite energy; the code multiplies by the doubles 1.41 and 2."
  },
  {
   "property": "C13",
   "status": "proved",
   "theorems": [
    "C13_unused_channels"
   ],
   "note": "Calls of all kinds in between; roles may be changed during the run (same_call compares under the current map). Peaks are excluded: they are measured for Unused channels, too."
  },
  {
   "property": "C14",
   "status": "proved",
   "theorems": [
    "C14_dual_mono"
   ],
   "note": "All add/seed/reset/window/history/parameter calls in between. Channel-map calls are excluded because the two analyzers have different maps."
  },
  {
   "property": "C15",
   "status": "proved",
   "theorems": [
    "C15_coefficients",
    "C15_difference_equation",
    "C15_one_output_per_sample",
    "C15_pieces",
    "C15_unique"
   ],
   "note": "exact arithmetic (the real instance of the model of the filter loop); the float instance is bound to the same code in Filter_proofs"
  },
  {
   "property": "C16",
   "status": "proved",
   "theorems": [
    "C16_parameters",
    "C16_pole_refuted",
    "C16_poles_inside",
    "C16_rejects_dc",
    "C16_stable",
    "C16_transfer_function",
    "C16_unbounded_refuted"
   ],
   "note": "exact arithmetic; stability is refuted for accepted rates 1682..3363 Hz (pole outside the unit circle, unbounded impulse response)"
  },
  {
   "property": "C17",
   "status": "proved",
   "theorems": [
    "C17_below",
    "C17_gate_is_minus_70",
    "C17_histogram",
    "C17_list",
    "C17_nan_is_recorded"
   ],
   "note": "The limit of the list must not be exhausted in C17_list; C29 covers that case."
  },
  {
   "property": "C18",
   "status": "proved",
   "theorems": [
    "C18_above",
    "C18_below",
    "C18_inside",
    "C18_nan",
    "C18_recorded_bin",
    "C18_search"
   ],
   "note": "Infinities included."
  },
  {
   "property": "C19",
   "status": "proved",
   "theorems": [
    "C19_bounds",
    "C19_bounds_rounded",
    "C19_centres",
    "C19_centres_rounded",
    "C19_order",
    "C19_sizes"
   ],
   "note": "Each literal of the source is transcribed in decimal; the model's double is shown to be its correct rounding."
  },
  {
   "property": "C20",
   "status": "proved",
   "theorems": [
    "C20_quantisation",
    "C20_range"
   ],
   "note": ""
  },
  {
   "property": "C21",
   "status": "proved",
   "theorems": [
    "C21_gating"
   ],
   "note": "Bit for bit, including summation order; fewer than 2^64 blocks. 10^-1 as powf computes it is only assumed to be within its contract (Spec_history.powf_contract)."
  },
  {
   "property": "C22",
   "status": "proved",
   "theorems": [
    "C22_no_blocks"
   ],
   "note": ""
  },
  {
   "property": "C23",
   "status": "proved",
   "theorems": [
    "C23_one_analyzer",
    "C23_several"
   ],
   "note": "C23_one_analyzer: blocks that were measured; C23_several: also with phantom blocks (C30)."
  },
  {
   "property": "C24",
   "status": "proved",
   "theorems": [
    "C24_list",
    "C24_order_of_recording",
    "C24_range"
   ],
   "note": "Up to 2^46 blocks, where the f64 percentile positions are exact."
  },
  {
   "property": "C25",
   "status": "proved",
   "theorems": [
    "C25_like_list",
    "C25_range"
   ],
   "note": "Up to 2^46 blocks."
  },
  {
   "property": "C26",
   "status": "proved",
   "theorems": [
    "C26_histogram",
    "C26_not_negative"
   ],
   "note": "log10 is assumed monotone and within 400 on finite positive doubles (log10_contract)."
  },
  {
   "property": "C27",
   "status": "proved",
   "theorems": [
    "C27_histograms",
    "C27_lacking_LRA",
    "C27_like_one",
    "C27_lists",
    "C27_mixed",
    "C27_none",
    "C27_one",
    "C27_order"
   ],
   "note": ""
  },
  {
   "property": "C28",
   "status": "proved",
   "theorems": [
    "C28_lacking_I",
    "C28_none",
    "C28_one",
    "C28_several"
   ],
   "note": ""
  },
  {
   "property": "C29",
   "status": "proved",
   "theorems": [
    "C29_histogram",
    "C29_limit",
    "C29_list"
   ],
   "note": ""
  },
  {
   "property": "C30",
   "status": "proved",
   "theorems": [
    "C30_longer_refuted",
    "C30_phantom_blocks_refuted",
    "C30_shorter_refuted",
    "C30_too_many_blocks_refuted"
   ],
   "note": "The property is that set_max_history does NOT bound the history: refuted in general (C30_longer_refuted, C30_shorter_refuted) and by two witnesses."
  },
  {
   "property": "C31",
   "status": "proved",
   "theorems": [
    "C31_histogram",
    "C31_list",
    "C31_lowest_bin"
   ],
   "note": ""
  },
  {
   "property": "C32",
   "status": "proved",
   "theorems": [
    "C32_fresh",
    "C32_level_f32",
    "C32_level_f64",
    "C32_level_f64_subnormal",
    "C32_level_i16",
    "C32_level_i32",
    "C32_log_exists",
    "C32_sample_peak"
   ],
   "note": "Largest level over all samples the observer log holds; level exact per format. f64 subnormals count as 0 where hardware flushes (stated as its own theorem)."
  },
  {
   "property": "C33",
   "status": "proved",
   "theorems": [
    "C33_empty_call",
    "C33_prev_sample_peak",
    "C33_prev_true_peak"
   ],
   "note": "prev_true_peak is the peak of the oversampled signal of the last non-empty call; its first outputs weigh in the samples before that call through the interpolator's memory, as the statement says."
  },
  {
   "property": "C34",
   "status": "proved",
   "theorems": [
    "C34_growth",
    "C34_order"
   ],
   "note": ""
  },
  {
   "property": "C35",
   "status": "proved",
   "theorems": [
    "C35_rolling"
   ],
   "note": "Any element type, any buffer size up to 24, any number of pushes; UB outcome excluded."
  },
  {
   "property": "C36",
   "status": "proved",
   "theorems": [
    "C36_interpolator",
    "C36_true_peak"
   ],
   "note": "Taps given as an independent Hann-windowed sinc definition; sin/cos are uninterpreted oracles."
  },
  {
   "property": "C37",
   "status": "proved",
   "theorems": [
    "C37_channels"
   ],
   "note": "Any two channel counts, modes and histories of calls."
  },
  {
   "property": "C38",
   "status": "proved",
   "theorems": [
    "C38_interleaved",
    "C38_planar"
   ],
   "note": ""
  },
  {
   "property": "C39",
   "status": "proved",
   "theorems": [
    "C39_f32_without_interpolator",
    "C39_formats",
    "C39_i16_exact",
    "C39_i32_exact"
   ],
   "note": "f32 samples that are subnormal are excluded only when an interpolator runs on a flush-to-zero target"
  },
  {
   "property": "C40",
   "status": "proved",
   "theorems": [
    "C40_history_limit_refuted",
    "C40_reset_is_fresh",
    "C40_reset_is_fresh_histogram"
   ],
   "note": "equality up to the bound of the empty histories, exact for the default limit and for histograms; C40_history_limit_refuted shows the list-mode difference caused by C30"
  },
  {
   "property": "C41",
   "status": "proved",
   "theorems": [
    "C41_like_add",
    "C41_like_adds",
    "C41_only_filters",
    "C41_queries",
    "C41_rest"
   ],
   "note": "All reachable states. The K-weighting memory is as after adding on FTZ targets; without FTZ adding flushes at block boundaries, so only the interpolator part is unconditional."
  },
  {
   "property": "C42",
   "status": "proved",
   "theorems": [
    "C42_each_block_once",
    "C42_same_frames",
    "C42_seeded_100ms_refuted",
    "C42_seeded_with_all"
   ],
   "note": "Every block measured once, over the same filtered frames, given equal filter memory at the chunk start; equal memory is proved for seeding with all earlier audio and refuted for the documented 100 ms."
  },
  {
   "property": "C43",
   "status": "proved",
   "theorems": [
    "C43_change_parameters"
   ],
   "note": ""
  },
  {
   "property": "C44",
   "status": "proved",
   "theorems": [
    "C44_set_max_history",
    "C44_set_max_window"
   ],
   "note": ""
  },
  {
   "property": "C45",
   "status": "proved",
   "theorems": [
    "C45_global_multiple",
    "C45_preconditions",
    "C45_range_multiple",
    "C45_refusals"
   ],
   "note": ""
  },
  {
   "property": "C46",
   "status": "proved",
   "theorems": [
    "C46_map_rules",
    "C46_set_channel",
    "C46_set_channel_map"
   ],
   "note": ""
  },
  {
   "property": "C47",
   "status": "proved",
   "theorems": [
    "C47_silence"
   ],
   "note": "Any silent session (add, seed, reset, role and window calls) on a new analyzer. Finite coefficients are a hypothesis since tan/sin/cos are oracles."
  },
  {
   "property": "C48",
   "status": "proved",
   "theorems": [
    "C48_energies_not_negative",
    "C48_infinity_iff_zero"
   ],
   "note": "All interval lengths, roles and signals."
  },
  {
   "property": "C49",
   "status": "proved",
   "theorems": [
    "C49_window_0",
    "C49_window_3000",
    "C49_window_400"
   ],
   "note": "All reachable states; the NaN case needs log10(NaN) = NaN of the oracle."
  },
  {
   "property": "C50",
   "status": "proved",
   "theorems": [
    "C50_inside",
    "C50_process",
    "C50_restored",
    "C50_seed"
   ],
   "note": "MXCSR as a number; inside the closure the filter flushes iff bit 15 is set; panics of the closure included"
  },
  {
   "property": "C51",
   "status": "proved",
   "theorems": [
    "C51_analyzer",
    "C51_beyond",
    "C51_calls",
    "C51_code",
    "C51_init",
    "C51_multiple",
    "C51_no_change",
    "C51_queries",
    "C51_truncation_refuted",
    "C51_window_beyond"
   ],
   "note": "64-bit targets; init with a supported configuration; C51_truncation_refuted: out-of-range rates and modes are truncated, not refused"
  },
  {
   "property": "C52",
   "status": "proved",
   "theorems": [
    "C52_change_parameters_size",
    "C52_new_size",
    "C52_refuted_32bit",
    "C52_set_max_window_size"
   ],
   "note": "C52_refuted_32bit: allocator panic instead of NoMem"
  },
  {
   "property": "C53",
   "status": "proved",
   "theorems": [
    "C53_independent",
    "C53_queries"
   ],
   "note": "stated for programs over the C API, where handles share a heap; allocator and addresses are arbitrary"
  },
  {
   "property": "C54",
   "status": "proved",
   "theorems": [
    "C54_agree"
   ],
   "note": ""
  },
  {
   "property": "C55",
   "status": "proved",
   "theorems": [
    "C55_destroy_twice",
    "C55_memory",
    "C55_progress"
   ],
   "note": "heap of boxes with an arbitrary allocator that never returns an address in use"
  },
  {
   "property": "C56",
   "status": "proved",
   "theorems": [
    "C56_polarity"
   ],
   "note": "All formats, layouts and histories from a new analyzer; negation of integers is exact (the most negative i16/i32 has no negation in its type)."
  },
  {
   "property": "C57",
   "status": "proved",
   "theorems": [
    "C57_exchange",
    "C57_other_channels_refuted"
   ],
   "note": "First two channels only: for other pairs the sum over channels is rounded in another order and the claim is refuted (C57_other_channels_refuted)."
  },
  {
   "property": "C58",
   "status": "proved",
   "theorems": [
    "C58_momentary",
    "C58_shortterm",
    "C58_window"
   ],
   "note": "Measured from the recorded weighted signals (the filter in exact arithmetic is C15). Assumes log10 accurate to 2^-42 absolute."
  },
  {
   "property": "C59",
   "status": "proved",
   "theorems": [
    "C59_one_analyzer",
    "C59_several",
    "C59_textbook",
    "C59_textbook_several",
    "C59_threshold"
   ],
   "note": "Errors counted from the recorded block energies; their own accuracy against the signals is C11. Assumes log10 accurate to 2^-42 absolute and powf_contract."
  },
  {
   "property": "C60",
   "status": "proved",
   "theorems": [
    "C60_histogram",
    "C60_list"
   ],
   "note": "Queue histories: any ascending arrangement m of the recorded blocks; histogram histories: the bins."
  },
  {
   "property": "C61",
   "status": "proved",
   "theorems": [
    "C61_coefficients"
   ],
   "note": "Assumes tan accurate to 2^-50 on (0,1) and powf accurate to 2^-48 on [1,10]x[0,1]."
  },
  {
   "property": "C62",
   "status": "proved",
   "theorems": [
    "C62_error",
    "C62_noise"
   ],
   "note": "heard records the samples and the kept values of one channel; W bounds both. C62_error: the constant depends on the rate only."
  },
  {
   "property": "C63",
   "status": "proved",
   "theorems": [
    "C63_causal",
    "C63_delay",
    "C63_scale",
    "C63_sum"
   ],
   "note": "The filter code run over the reals."
  },
  {
   "property": "C64",
   "status": "proved",
   "theorems": [
    "C64_independent"
   ],
   "note": "for any two modes that agree in S"
  },
  {
   "property": "C65",
   "status": "proved",
   "theorems": [
    "C65_blocks",
    "C65_programme",
    "C65_range"
   ],
   "note": "bounds on threshold, programme loudness and range; blocks close to a gate are excluded since quantisation can decide whether they pass"
  },
  {
   "property": "C66",
   "status": "proved",
   "theorems": [
    "C66_level",
    "C66_response"
   ],
   "note": "Exact arithmetic (the code of filter.rs over the reals); the constants G and q of the transient are existential for each rate and frequency."
  },
  {
   "property": "C67",
   "status": "proved",
   "theorems": [
    "C67_at_48000",
    "C67_from_32000"
   ],
   "note": "Exact arithmetic; numeric bounds on tan, powers of ten and pi are proved, no interval library."
  },
  {
   "property": "C68",
   "status": "proved",
   "theorems": [
    "C68_mean_square"
   ],
   "note": "The constants G and q are existential for each rate and frequency. Assumes accurate tan and powf, finite K-weighted signals, and a bound on the values the filter keeps (as C62); C58 ties the mean square to the reading."
  },
  {
   "property": "C69",
   "status": "proved",
   "theorems": [
    "C69_last_call",
    "C69_taps"
   ],
   "note": "Assumes sin and cos of libm accurate to the stated bounds on the interval the taps use."
  },
  {
   "property": "C70",
   "status": "proved",
   "theorems": [
    "C70_attained_below_96000",
    "C70_attained_from_96000",
    "C70_overshoot"
   ],
   "note": "Assumes accurate sin and cos. The bound on samples is on their value after conversion to f64 (integer formats: at most 1)."
  },
  {
   "property": "C71",
   "status": "proved",
   "theorems": [
    "C71_tolerance",
    "C71_tone"
   ],
   "note": "Assumes accurate sin and cos; the ripple is a rigorous bound, proved with Taylor polynomials on small intervals of the frequency axis."
  },
  {
   "property": "C72",
   "status": "proved",
   "theorems": [
    "C72_filter",
    "C72_momentary",
    "C72_shortterm",
    "C72_window"
   ],
   "note": "Assumes tan, powf and log10 of libm accurate to the stated bounds. The error grows with the fourth power of the rate: the bound is useful up to about 192 kHz. The reading is stated for a mean square above 1e-30 and at least 16 times the square of the error."
  },
  {
   "property": "C73",
   "status": "proved",
   "theorems": [
    "C73_integrated"
   ],
   "note": "Assumes tan, powf, log10 of libm accurate to the stated bounds. Stated for programmes none of whose blocks lies within the error of a gate (there the result is discontinuous), after add calls only."
  },
  {
   "property": "C74",
   "status": "proved",
   "theorems": [
    "C74_range"
   ],
   "note": "As C73, for the loudness range; also assumes the contract of std's sort."
  },
  {
   "property": "C75",
   "status": "proved",
   "theorems": [
    "C75_enough",
    "C75_integrated",
    "C75_signal"
   ],
   "note": "As C73, for the documented parallel recipe; C42 refutes that 100 ms of seeding make the memory exactly equal, this bounds the difference."
  },
  {
   "property": "C76",
   "status": "proved",
   "theorems": [
    "C76_exact",
    "C76_integrated",
    "C76_normalise",
    "C76_reading"
   ],
   "note": "As C72 and C73, for a programme with a gain applied; C76_normalise is the two measurements of normalisation to a target, with the rounding of the amplified samples as delta."
  },
  {
   "property": "C77",
   "status": "proved",
   "theorems": [
    "C77_integrated",
    "C77_range"
   ],
   "note": "C73 and C74 for histograms; composed from C29, C65 and C72."
  },
  {
   "property": "C78",
   "status": "proved",
   "theorems": [
    "C78_album",
    "C78_multiple_refuted",
    "C78_pieces",
    "C78_short",
    "C78_silent",
    "C78_track"
   ],
   "note": "Includes two defects of the example (panics on short or silent tracks) and C78_multiple_refuted: the album gain differs from loudness_global_multiple because every track is gated by its own level."
  },
  {
   "property": "C79",
   "status": "proved",
   "theorems": [
    "C79_fits",
    "C79_output",
    "C79_short"
   ],
   "note": "C79_short is a defect of the example: short clips become full scale. f32::powf is a parameter with a contract (powf32_contract)."
  },
  {
   "property": "C80",
   "status": "proved",
   "theorems": [
    "C80_calibrated",
    "C80_reading",
    "C80_settles",
    "C80_stereo"
   ],
   "note": "Assumes tan, powf, log10 of libm accurate to the stated bounds, as C72. Unlike C66 and C68 the decay of the transient has explicit constants. Integrated loudness is not stated: its first blocks contain the transient."
  },
  {
   "property": "C81",
   "status": "proved",
   "theorems": [
    "C81_close",
    "C81_exact",
    "C81_nan_refuted",
    "C81_session",
    "C81_set_max_refuted",
    "C81_tables"
   ],
   "note": "C81_nan_refuted and C81_set_max_refuted state where the two implementations differ; in particular set_max_history, whose Rust version is inverted (C30). Counters are unbounded in the C model."
  },
  {
   "property": "C82",
   "status": "proved",
   "theorems": [
    "C82_gating_block"
   ],
   "note": ""
  },
  {
   "property": "C83",
   "status": "proved",
   "theorems": [
    "C83_create",
    "C83_flush_refuted",
    "C83_formats",
    "C83_process",
    "C83_reset_peaks",
    "C83_stream"
   ],
   "note": "C83_flush_refuted states where the two differ: processors without flush-to-zero. The true peak is compared separately in C84."
  },
  {
   "property": "C84",
   "status": "proved",
   "theorems": [
    "C84_chunking",
    "C84_formats",
    "C84_interpolator",
    "C84_last_call",
    "C84_rates",
    "C84_session",
    "C84_true_peak"
   ],
   "note": "The C buffers hold 400 ms, so the C function must not be given more in one call (it would write past them); the Rust code has no such limit."
  },
  {
   "property": "C85",
   "status": "proved",
   "theorems": [
    "C85_chain",
    "C85_filter"
   ],
   "note": "The Rust scanner runs after the filtering and the C one before it; the two parts do not share state."
  }
 ]
}