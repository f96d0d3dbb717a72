(** C85: the whole Rust filter, with its true peaks, against filter.c of tests/c. *)
From Coq Require Import List Arith NArith ZArith Bool Reals Lra Lia.
From Flocq Require IEEE754.BinarySingleNaN.
From Verif Require Import Prelude Float Env Tables History Ebur128 Spec_history Spec_accuracy Utils Filter Cref Cref_filter Cref_interp Cref_meter Spec Spec_real Spec_interp Spec_cref Spec_cref_filter
  Spec_cref_interp Spec_cref_meter Cref_format_proofs Cref_peak_proofs Cref_meter_proofs Instance Instance_interp Instance_cref Twin_proofs Cref_proofs Cref_same_proofs Cref_filter_examples Cref_interp_examples Cref_meter_examples Overshoot_proofs.
Import ListNotations.
Local Open Scope R_scope.
Local Notation is_finite := BinarySingleNaN.is_finite.

(** * C85: the whole filter *)
(** A new Rust filter and a new C filter, on a processor with flush-to-zero, then any sequence of calls that process audio or reset
    the peaks: both run to the end, with the same memory, the same sample peaks and the same audio written; their true peaks differ
    by at most [fir_noise + fir_noise_c] in each channel.  With or without sample peaks, with or without true peaks, at any rate. *)
Theorem C85_filter : forall T P E L (S : sample T) (t : ctype T) rate C ring M cmap codes tpk, p_ftz P = true -> same_scale S t ->
  (0 < C)%nat -> length cmap = C -> Forall2 code_of cmap codes -> (0 < ring)%nat ->
  forall sp planes data evs, same_pow E L -> same_tan E L -> sin_accurate E -> cos_accurate E -> csin_accurate L -> ccos_accurate L ->
  0 <= M <= 2 ^ 100 -> (0 < rate)%N -> same_audio C ring data planes -> Forall (suitable P S t rate C ring M tpk) evs ->
  exists f0 f m planes' data', filter_new E rate C sp tpk = Ret f0 /\
    ofold (rust_event P S C cmap) (f0, concat planes) evs = Ret (f, concat planes') /\
    ofold (c_event P t C codes) (meter_create_c L rate C sp tpk, data) evs = Ret (m, data') /\
    twin_filters (apart_from_true_peaks f) (cm_filter m) /\ same_audio C ring data' planes' /\
    length (f_true_peak f) = C /\ length (cm_true_peak m) = C /\
    forall c x y, nth_error (f_true_peak f) c = Some x -> nth_error (cm_true_peak m) c = Some y ->
      is_finite x = true /\ is_finite y = true /\ Rabs (real x - real y) <= fir_noise M + fir_noise_c M.
Proof. exact @meter_same. Qed.
Example C85_filter_example : p_ftz x86_64 = true /\ same_scale smp_f32 c_float /\ Forall2 code_of [Center] [3%N] /\
  same_pow env3 L3 /\ same_tan env3 L3 /\ sin_accurate env3 /\ cos_accurate env3 /\ csin_accurate L3 /\ ccos_accurate L3 /\
  same_audio 1 32 (repeat f64_zero 32) [repeat f64_zero 32] /\
  Forall (suitable x86_64 smp_f32 c_float 48000 1 32 1 true) [Process (mono seeds) 0; ResetPeaks; Process (mono adds) 11].
Proof.
  split; [reflexivity|]. split; [apply scales|]. split; [repeat constructor|]. split; [apply (libc_of_ok env3)|]. split; [apply (libc_of_ok env3)|]. split; [exact env3_sin|]. split; [exact env3_cos|]. split; [exact L3_sin|]. split; [exact L3_cos|]. split.
  - exact (one_plane (repeat f64_zero 32)).
  - exact evs_case.
Qed.
(** The chain of filter, gating block and history.  Between the calls to the filter the energy of a window of the ring is measured, at
    any place: Rust and C note down the same energies, to the bit, and the histories of these give the same readings (equal, or finite
    and within 2^-34), for list and histogram. *)
Theorem C85_chain : forall T P E L (S : sample T) (t : ctype T) rate C ring M cmap codes tpk, p_ftz P = true -> same_scale S t ->
  (0 < C)%nat -> length cmap = C -> Forall2 code_of cmap codes -> (0 < ring)%nat ->
  forall sp us max planes data gs, is_64bit P -> powf_contract E -> sort_contract E -> bsearch_contract E -> qsort_contract L ->
  same_pow E L -> same_tan E L -> regenerates E -> log10_accurate E -> log_accurate L -> (0 < rate)%N -> (1 <= max)%N ->
  same_audio C ring data planes -> Forall (stage_suitable P S t rate C ring M tpk) gs ->
  exists f0 f m planes' data' xs, filter_new E rate C sp tpk = Ret f0 /\
    ofold (rust_stage P S C cmap) (f0, concat planes, []) gs = Ret (f, concat planes', xs) /\
    ofold (c_stage P t C ring codes) (meter_create_c L rate C sp tpk, data, []) gs = Ret (m, data', xs) /\
    (no_nan xs -> (N.of_nat (length (List.filter measurable xs)) <= small_count)%N ->
     exists h hc g gc th thc r rc, record_all (history_new us max) xs = Ret h /\ recorded_c L us max xs = Ret hc /\
      gated_loudness P E h = Ret g /\ history_gated_loudness_c L (history_init_c L) hc = Ret gc /\ same_reading g gc /\
      history_relative_threshold P E h = th /\ history_relative_threshold_c L (history_init_c L) hc = Ret thc /\ same_reading th thc /\
      history_loudness_range P E h = Ret r /\ history_loudness_range_c P L (history_init_c L) hc = Ret rc /\ same_reading r rc).
Proof. exact @chain_same. Qed.
Example C85_chain_example : (powf_contract env5 /\ sort_contract env5 /\ bsearch_contract env5 /\ qsort_contract glibc /\ same_pow env5 glibc /\ same_tan env5 glibc /\
  regenerates env5 /\ log10_accurate env5 /\ log_accurate glibc) /\ Forall (stage_suitable x86_64 smp_f32 c_float 48000 1 32 1 true) demo_chain /\
  length demo_energies = 2%nat /\ forallb (fun x => negb (f64_is_nan x) && measurable x) demo_energies = true.
Proof.
  split; [|exact (conj demo_chain_suitable demo_energies_ok)].
  exact (conj env5_powf (conj env5_sort (conj env5_bsearch (conj glibc_qsort (conj env5_pow (conj (fun x => eq_refl) (conj env5_regenerates (conj env5_accurate glibc_accurate)))))))).
Qed.

(** * Assumptions *)
Print Assumptions C85_filter.
Print Assumptions C85_chain.
