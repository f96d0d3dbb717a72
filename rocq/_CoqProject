-Q theories Verif

theories/Prelude.v
theories/Float.v
theories/Env.v
theories/Tables.v
theories/Utils.v
theories/History.v
theories/Interp.v
theories/TruePeak.v
theories/Filter.v
theories/Ebur128.v
theories/Capi.v
theories/Ref.v
theories/Prelude_proofs.v
theories/Utils_proofs.v
theories/Interp_proofs.v
theories/Float_proofs.v
theories/TruePeak_proofs.v
theories/Filter_proofs.v
theories/Geometry_proofs.v
theories/History_proofs.v
theories/Ebur128_proofs.v
theories/Ops_proofs.v
theories/Chunk_proofs.v
theories/Spec.v
theories/Spec_real.v
theories/Order_proofs.v
theories/Instance.v
theories/Reach_proofs.v
theories/Input_proofs.v
theories/Trace_proofs.v
theories/Format_proofs.v
theories/Feed_proofs.v
theories/Peak_proofs.v
theories/Stream_proofs.v
theories/Energy_proofs.v
theories/Seed_proofs.v
theories/Loud_proofs.v
theories/Dual_proofs.v
theories/Silence_proofs.v
theories/Window_proofs.v
theories/Accuracy_proofs.v
theories/Parallel_proofs.v
theories/Config_proofs.v
theories/Examples.v
theories/Stream_examples.v
theories/Prop_Config.v
theories/Prop_Feed.v
theories/Prop_Peak.v
theories/Prop_Stream.v
theories/Table_proofs.v
theories/Spec_history.v
theories/Gate_proofs.v
theories/Gating_proofs.v
theories/Pass_proofs.v
theories/Percent_proofs.v
theories/Range_proofs.v
theories/Blocks_proofs.v
theories/Answers_proofs.v
theories/Value_proofs.v
theories/Report_proofs.v
theories/Instance_history.v
theories/History_examples.v
theories/Prop_History.v
theories/Spec_filter.v
theories/Kweight_proofs.v
theories/Prop_Filter.v
theories/Handles.v
theories/Spec_capi.v
theories/Spec_handles.v
theories/Capi_proofs.v
theories/Handle_proofs.v
theories/Prop_Capi.v
theories/Spec_symmetry.v
theories/Opposite_proofs.v
theories/Compare_proofs.v
theories/Polarity_proofs.v
theories/Exchange_proofs.v
theories/Symmetry_examples.v
theories/Prop_Symmetry.v
theories/Spec_accuracy.v
theories/Lufs_proofs.v
theories/Programme_proofs.v
theories/Instance_accuracy.v
theories/Accuracy_examples.v
theories/Prop_Accuracy.v
theories/Spec_coeff.v
theories/Coeff_proofs.v
theories/Noise_proofs.v
theories/Heard_proofs.v
theories/Instance_coeff.v
theories/Prop_Coeff.v
theories/Spec_modes.v
theories/Modes_proofs.v
theories/Twin_proofs.v
theories/Modes_examples.v
theories/Prop_Modes.v
theories/Spec_response.v
theories/Response_proofs.v
theories/Calibration_proofs.v
theories/Reading_proofs.v
theories/Response_examples.v
theories/Prop_Response.v
theories/Spec_interp.v
theories/Taps_proofs.v
theories/Ripple_proofs.v
theories/Tone_proofs.v
theories/Oversample_proofs.v
theories/Overshoot_proofs.v
theories/Instance_interp.v
theories/Prop_Interp.v
theories/Spec_exact.v
theories/Gain_proofs.v
theories/Tight_proofs.v
theories/Bound_proofs.v
theories/Follow_proofs.v
theories/Rms_proofs.v
theories/Exact_proofs.v
theories/Instance_exact.v
theories/Prop_Exact.v
theories/Spec_programme.v
theories/Played_proofs.v
theories/Span_proofs.v
theories/Instance_played.v
theories/Prop_Played.v
theories/Tail_proofs.v
theories/Spec_chunks.v
theories/Recipe_proofs.v
theories/Instance_chunks.v
theories/Prop_Chunks.v
theories/Spec_normal.v
theories/Normal_proofs.v
theories/Instance_normal.v
theories/Prop_Normal.v
theories/Binned_proofs.v
theories/Instance_binned.v
theories/Prop_Binned.v
theories/Programs.v
theories/Spec_programs.v
theories/Programs_proofs.v
theories/Programs_examples.v
theories/Normalize_proofs.v
theories/Normalize_examples.v
theories/Prop_Programs.v
theories/Transient_proofs.v
theories/Spec_sine.v
theories/Sine_proofs.v
theories/Sine_examples.v
theories/Prop_Sine.v
theories/Cref.v
theories/Spec_cref.v
theories/Cref_proofs.v
theories/Cref_same_proofs.v
theories/Instance_cref.v
theories/Cref_examples.v
theories/Prop_Cref.v
theories/Cref_filter.v
theories/Spec_cref_filter.v
theories/Cref_filter_proofs.v
theories/Cref_format_proofs.v
theories/Cref_filter_examples.v
theories/Prop_Cref_filter.v
theories/Cref_interp.v
theories/Spec_cref_interp.v
theories/Cref_taps_proofs.v
theories/Cref_interp_proofs.v
theories/Cref_peak_proofs.v
theories/Cref_session_proofs.v
theories/Cref_interp_examples.v
theories/Prop_Cref_interp.v
theories/Cref_meter.v
theories/Spec_cref_meter.v
theories/Cref_meter_proofs.v
theories/Cref_meter_examples.v
theories/Prop_Cref_meter.v
