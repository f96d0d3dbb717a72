(** Properties of the recorded blocks, gating and loudness range: C02, C17 to C31, C45, C54.
    [blocks e] and [short_blocks e] (Spec_history.v) are the 400 ms and 3 s blocks an analyzer has
    recorded, as pairs of a number of blocks and their energy.  C29 says which blocks these are.
    [population] counts blocks.  Below 2^64 blocks ([countable]) the u64 counters cannot overflow;
    up to 2^46 blocks ([small_count], 220,000 years of audio) the percentile positions, which the
    code computes in f64, are exact. *)
From Coq Require Import List Arith NArith ZArith Bool Lia Reals Sorted Permutation.
From Flocq Require Core.
From Flocq Require Import IEEE754.BinarySingleNaN.
From Verif Require Import Prelude Float Env Tables Utils History Filter Ebur128 Spec Spec_real Spec_history
  Instance Examples Instance_history Stream_examples Table_proofs Gate_proofs Gating_proofs Reach_proofs Stream_proofs Blocks_proofs Answers_proofs Value_proofs Report_proofs History_examples.
Import ListNotations.
Import Spec_history.
Local Open Scope nat_scope.

(** * C02: nothing panics *)
(** [Ret] means: no panic, no access out of bounds, no endless loop. *)
Theorem C02_new : forall P E channels rate m, is_64bit P -> exists r, ebur128_new P E channels rate m = Ret r.
Proof. exact news_total. Qed.
Theorem C02_calls : forall P E, is_64bit P -> forall os e, reachable P E e -> all_admissible P E e os ->
  exists rs e', run P E e os = Ret (rs, e') /\ reachable P E e'.
Proof. exact runs_total. Qed.
Theorem C02_queries : forall P E e q, is_64bit P -> bsearch_contract E -> reachable P E e -> askable q ->
  exists a, ask P E e q = Ret a.
Proof. intros P E e q HP HB Hr Hq. destruct (queries_total P E e q HP HB Hr Hq) as (a & Ha & _). eauto. Qed.
Theorem C02_multiple : forall P E es, is_64bit P -> bsearch_contract E -> Forall (reachable P E) es ->
  (exists r, loudness_global_multiple P E es = Ret r) /\ (exists r, loudness_range_multiple P E es = Ret r).
Proof. exact multiples_total. Qed.
Example C02_example : is_64bit x86_64 /\ is_64bit aarch64 /\ bsearch_contract env0 /\
  exists e, reachable x86_64 env0 e /\ population (blocks e) = 37%N /\
    all_admissible x86_64 env0 e [OpAdd (AF64 [f64_nan; f64_inf]); OpChangeParameters 3 48000; OpSetMaxHistory 0; OpReset].
Proof.
  split; [reflexivity|]. split; [reflexivity|]. split; [exact env0_bsearch|].
  destruct list_demo as (e & t & b & s & HN & HM & H37 & _). exists e. destruct (noted_holds x86_64 env0 e t b s eq_refl HN) as (HT & _).
  pose proof (taped_reachable _ _ _ _ HT) as Hr. split; auto. split; auto. cbn [all_admissible admissible].
  split; [exact I|]. intros r e1 Hs. split.
  - intros _. rewrite (mode_kept x86_64 env0 e t (OpAdd (AF64 [f64_nan; f64_inf])) r e1 eq_refl HT I Hs). rewrite HM. apply supported_dec. reflexivity.
  - repeat (split; [exact I|]; intros ? ? _) || (intros; repeat split).
Qed.

(** * C45: preconditions *)
Theorem C45_preconditions : forall P E e q, is_64bit P -> bsearch_contract E -> reachable P E e -> askable q ->
  exists a, ask P E e q = Ret a /\ refused a = refusal e q.
Proof. exact queries_total. Qed.
Theorem C45_global_multiple : forall P E es, ~ Forall (fun e => has_I (e_mode e)) es -> loudness_global_multiple P E es = Ret (Err InvalidMode).
Proof. exact global_multiple_mode. Qed.
Theorem C45_range_multiple : forall P E es, ~ Forall (fun e => has_LRA (e_mode e)) es -> loudness_range_multiple P E es = Ret (Err InvalidMode).
Proof. exact range_multiple_mode. Qed.
(** spelled out *)
Theorem C45_refusals : forall e,
  (refusal e QGlobal = None <-> has_I (e_mode e)) /\ (refusal e QThreshold = None <-> has_I (e_mode e)) /\
  (refusal e QRange = None <-> has_LRA (e_mode e)) /\
  (forall c, refusal e (QSamplePeak c) = None <-> has_SAMPLE_PEAK (e_mode e) /\ (c < N.of_nat (e_channels e))%N) /\
  (forall c, refusal e (QTruePeak c) = None <-> has_TRUE_PEAK (e_mode e) /\ (c < N.of_nat (e_channels e))%N) /\
  (forall c, ~ has_SAMPLE_PEAK (e_mode e) -> refusal e (QSamplePeak c) = Some InvalidMode) /\
  (forall c, ~ has_TRUE_PEAK (e_mode e) -> refusal e (QTruePeak c) = Some InvalidMode) /\
  (forall c, has_SAMPLE_PEAK (e_mode e) -> (N.of_nat (e_channels e) <= c)%N -> refusal e (QSamplePeak c) = Some InvalidChannelIndex) /\
  (forall c, has_TRUE_PEAK (e_mode e) -> (N.of_nat (e_channels e) <= c)%N -> refusal e (QTruePeak c) = Some InvalidChannelIndex) /\
  (forall c, refusal e (QPrevSamplePeak c) = refusal e (QSamplePeak c) /\ refusal e (QPrevTruePeak c) = refusal e (QTruePeak c)).
Proof. exact refusals. Qed.
Example C45_example : exists e, reachable x86_64 env0 e /\ refusal e QRange = None /\ refusal e (QTruePeak 1) = None /\
  refusal e (QTruePeak 2) = Some InvalidChannelIndex.
Proof.
  destruct demo_list_ok as (e & Hr & M & _ & C & _). exists e. split; auto. unfold refusal. rewrite M, C. repeat split; reflexivity.
Qed.

(** * C17: absolute gate *)
Theorem C17_below : forall h x, f64_lt x (bound 0) = true -> record_all h [x] = Ret h.
Proof. exact record_one_low. Qed.
Theorem C17_list : forall q x, f64_lt x (bound 0) = false -> (N.of_nat (length (q_queue q)) < q_max q)%N ->
  exists h, record_all (HQueue q) [x] = Ret h /\ contents h = contents (HQueue q) ++ [(1%N, x)].
Proof. exact record_one_list. Qed.
Theorem C17_histogram : forall c x, f64_lt x (bound 0) = false -> length c = 1000 ->
  exists c' i, record_all (HHistogram c) [x] = Ret (HHistogram c') /\ length c' = 1000 /\ in_bin i x = true /\
    nth i c' 0%N = (nth i c 0 + 1)%N /\ forall j, j <> i -> nth j c' 0%N = nth j c 0%N.
Proof. exact record_one_histogram. Qed.
Theorem C17_nan_is_recorded : f64_lt f64_nan (bound 0) = false.
Proof. exact nan_measurable. Qed.
Theorem C17_gate_is_minus_70 : (Rabs (real (bound 0) - decibel (-70 + 691 / 1000)) <= / 10 ^ 12 * decibel (-70 + 691 / 1000))%R.
Proof. exact gate_70. Qed.
Example C17_example : f64_lt (f64_bin 1 (-24)) (bound 0) = true /\ f64_lt (f64_bin 1 (-22)) (bound 0) = false /\
  length (repeat 0%N 1000) = 1000 /\ (N.of_nat (length (q_queue (queue_new 5))) < q_max (queue_new 5))%N.
Proof. repeat split; vm_compute; reflexivity. Qed.

(** * C18: bins *)
Theorem C18_search : forall x, exists i, find_histogram_index x = Ret i /\ i < 1000.
Proof. exact search_total. Qed.
Theorem C18_inside : forall i x, f64_ge x (bound 0) = true -> f64_lt x (bound 1000) = true ->
  (find_histogram_index x = Ret i <-> i < 1000 /\ f64_ge x (bound i) = true /\ f64_lt x (bound (i + 1)) = true).
Proof. intros i x H0 H1. rewrite find_iff. now apply in_bin_inside. Qed.
Theorem C18_below : forall i x, f64_lt x (bound 1) = true -> (find_histogram_index x = Ret i <-> i = 0).
Proof. intros i x H. rewrite find_iff. now apply in_bin_below. Qed.
Theorem C18_above : forall i x, f64_ge x (bound 999) = true -> (find_histogram_index x = Ret i <-> i = 999).
Proof. intros i x H. rewrite find_iff. now apply in_bin_above. Qed.
Theorem C18_nan : forall i, find_histogram_index f64_nan = Ret i <-> i = 0.
Proof. intros i. rewrite find_iff. apply in_bin_nan. Qed.
Theorem C18_recorded_bin : forall i x, find_histogram_index x = Ret i <-> in_bin i x = true.
Proof. intros i x. apply find_iff. Qed.
Example C18_example : f64_ge f64_one (bound 0) = true /\ f64_lt f64_one (bound 1000) = true /\ find_histogram_index f64_one = Ret 693 /\
  f64_lt (f64_bin 1 (-30)) (bound 1) = true /\ f64_ge f64_inf (bound 999) = true.
Proof. repeat split; vm_compute; reflexivity. Qed.

(** * C19: table of bins *)
Theorem C19_sizes : length BOUNDARIES = 1001 /\ length ENERGIES = 1000.
Proof. split; reflexivity. Qed.
Theorem C19_order : forall i, i < 1000 -> f64_lt (bound i) (centre i) = true /\ f64_lt (centre i) (bound (i + 1)) = true.
Proof. intros i Hi. rewrite Nat.add_1_r. now apply table_order. Qed.
Theorem C19_bounds : forall i, i <= 1000 ->
  let ideal := decibel (INR i / 10 - 70 + 691 / 1000) in (Rabs (real (bound i) - ideal) <= / 10 ^ 12 * ideal)%R.
Proof. exact bnd_near. Qed.
Theorem C19_centres : forall i, i < 1000 ->
  let ideal := decibel (INR i / 10 - 70 + 5 / 100 + 691 / 1000) in (Rabs (real (centre i) - ideal) <= / 10 ^ 12 * ideal)%R.
Proof. exact cen_near. Qed.
(** [boundaries_raw] and [energies_raw] hold the literals of the source times 10^36 *)
Theorem C19_bounds_rounded : forall i, i <= 1000 -> exists d m e, nth_error boundaries_raw i = Some (d, m, e) /\ is_finite (bound i) = true /\
  real (bound i) = Core.Generic_fmt.round Core.Zaux.radix2 (Core.FLT.FLT_exp (-1074) 53) Core.Round_NE.ZnearestE (IZR d / 10 ^ 36).
Proof. exact raw_bound. Qed.
Theorem C19_centres_rounded : forall i, i < 1000 -> exists d m e, nth_error energies_raw i = Some (d, m, e) /\ is_finite (centre i) = true /\
  real (centre i) = Core.Generic_fmt.round Core.Zaux.radix2 (Core.FLT.FLT_exp (-1074) 53) Core.Round_NE.ZnearestE (IZR d / 10 ^ 36).
Proof. exact raw_centre. Qed.
Example C19_example : f64_lt (bound 692) f64_one = true /\ f64_lt f64_one (bound 694) = true.
Proof. split; vm_compute; reflexivity. Qed.

(** * C20: quantisation *)
Theorem C20_quantisation : forall i x, is_finite x = true -> f64_ge x (bound 0) = true -> f64_le x (bound 1000) = true ->
  in_bin i x = true -> (Rabs (lufs (real (centre i)) - lufs (real x)) <= 5 / 100 + / 10 ^ 9)%R.
Proof. exact bin_quantisation. Qed.
Theorem C20_range : (Rabs (lufs (real (bound 0)) - -70) <= / 10 ^ 9)%R /\ (Rabs (lufs (real (bound 1000)) - 30) <= / 10 ^ 9)%R.
Proof. exact end_loudness. Qed.
Example C20_example : is_finite f64_one = true /\ f64_ge f64_one (bound 0) = true /\ f64_le f64_one (bound 1000) = true /\ in_bin 693 f64_one = true.
Proof. repeat split; vm_compute; reflexivity. Qed.

(** * C21: relative gate *)
Theorem C21_gating : forall P E e, is_64bit P -> powf_contract E -> reachable P E e -> countable (blocks e) ->
  (has_I (e_mode e) -> ask P E e QGlobal = Ret (AValue (Ok (programme_loudness E [blocks e])))) /\
  (has_I (e_mode e) -> ask P E e QThreshold = Ret (AValue (Ok (threshold E (blocks e))))) /\
  ask P E e QCount = Ret (ACount (gated E [blocks e])).
Proof. exact global_ok. Qed.
Example C21_example : exists e, reachable x86_64 env0 e /\ has_I (e_mode e) /\ countable (blocks e) /\ population (blocks e) = 37%N.
Proof.
  destruct list_demo as (e & t & b & s & HN & HM & H37 & _). exists e. destruct (noted_holds x86_64 env0 e t b s eq_refl HN) as (HT & _).
  split; [exact (taped_reachable _ _ _ _ HT)|]. rewrite HM. split; [split; reflexivity|]. unfold countable. rewrite H37. split; reflexivity.
Qed.

(** * C22: empty programmes *)
Theorem C22_no_blocks : forall P E e, is_64bit P -> powf_contract E -> sort_contract E -> reachable P E e ->
  (population (blocks e) = 0%N ->
     (has_I (e_mode e) -> ask P E e QGlobal = Ret (AValue (Ok (f64_neg f64_inf)))) /\
     (has_I (e_mode e) -> ask P E e QThreshold = Ret (AValue (Ok (f64_of_Z (-70))))) /\
     ask P E e QCount = Ret (ACount None)) /\
  (population (short_blocks e) = 0%N -> has_LRA (e_mode e) -> ask P E e QRange = Ret (AValue (Ok f64_zero))).
Proof. exact no_blocks. Qed.
Example C22_example : powf_contract env0 /\ sort_contract env0 /\ exists e, reachable x86_64 env0 e /\ population (blocks e) = 0%N /\ has_I (e_mode e).
Proof.
  split; [exact env0_powf|]. split; [exact env0_sort|]. destruct phantom_demo as (e & r & e' & Hn & _ & H0 & _). exists e.
  split; [eapply reach_new; [exact Hn|apply supported_dec; reflexivity]|]. split; auto.
  destruct (proj2 (proj2 (Config_proofs.new_spec x86_64 env0 2 20 63%N eq_refl))) as (f & Hf & HM & _).
  - split; reflexivity || lia.
  - split; reflexivity || lia.
  - reflexivity.
  - assert (f = e) as -> by congruence. rewrite HM. split; reflexivity.
Qed.

(** * C23: some block passes *)
Theorem C23_one_analyzer : forall P E e, is_64bit P -> powf_contract E -> log10_contract E -> reachable P E e -> has_I (e_mode e) -> countable (blocks e) ->
  population (blocks e) <> 0%N -> is_finite (energy_sum (blocks e)) = true -> Forall (fun b => measurable (snd b) = true) (blocks e) ->
  (exists n x, ask P E e QCount = Ret (ACount (Some (n, x))) /\ (0 < n)%N) /\
  (exists v, ask P E e QGlobal = Ret (AValue (Ok v)) /\ is_finite v = true) /\
  (exists v, ask P E e QThreshold = Ret (AValue (Ok v)) /\ is_finite v = true).
Proof. exact global_number. Qed.
(** with phantom blocks of energy 0 ([measurable] fails, C30) still some block passes; several analyzers *)
Theorem C23_several : forall P E es, is_64bit P -> powf_contract E -> Forall (reachable P E) es -> Forall (fun e => has_I (e_mode e)) es ->
  countable (concat (map blocks es)) -> population (concat (map blocks es)) <> 0%N -> is_finite (sum_all (map blocks es)) = true ->
  exists n x, gated E (map blocks es) = Some (n, x) /\ (0 < n <= population (concat (map blocks es)))%N /\
    loudness_global_multiple P E es = Ret (Ok (loudness E (f64_div x (f64_of_N n)))).
Proof. exact multiple_number. Qed.
Example C23_example : powf_contract env0 /\ log10_contract env0 /\ exists e, reachable x86_64 env0 e /\ has_I (e_mode e) /\ countable (blocks e) /\
  population (blocks e) <> 0%N /\ is_finite (energy_sum (blocks e)) = true /\ Forall (fun b => measurable (snd b) = true) (blocks e).
Proof.
  split; [exact env0_powf|]. split; [exact env0_log10|].
  destruct list_demo as (e & t & b & s & HN & HM & H37 & _ & HF & HS). exists e. destruct (noted_holds x86_64 env0 e t b s eq_refl HN) as (HT & _).
  split; [exact (taped_reachable _ _ _ _ HT)|]. rewrite HM. split; [split; reflexivity|]. unfold countable. rewrite H37. split; [reflexivity|]. split; [discriminate|]. split; auto.
  apply Forall_app in HF. destruct HF as (HF & _). eapply Forall_impl; [|exact HF]. intros x Hx. apply Hx.
Qed.

(** * C24: loudness range of a list *)
Theorem C24_range : forall P E e m, is_64bit P -> powf_contract E -> sort_contract E -> reachable P E e -> has_LRA (e_mode e) -> ~ has_HISTOGRAM (e_mode e) ->
  Permutation (short_blocks e) (singly m) -> ascending m -> Forall (fun x => f64_is_nan x = false) m -> (N.of_nat (length m) <= small_count)%N ->
  ask P E e QRange = Ret (AValue (Ok (range_of E (singly m)))).
Proof. exact range_list. Qed.
(** there is such an ordered list [m] *)
Theorem C24_list : forall P E e, is_64bit P -> sort_contract E -> reachable P E e -> ~ has_HISTOGRAM (e_mode e) ->
  exists l m, short_blocks e = singly l /\ population (short_blocks e) = N.of_nat (length l) /\ Permutation l m /\
    (Forall (fun x => f64_is_nan x = false) l -> ascending m).
Proof. exact ordered_blocks. Qed.
Theorem C24_order_of_recording : forall P E e f, is_64bit P -> sort_contract E -> reachable P E e -> reachable P E f -> has_LRA (e_mode e) -> has_LRA (e_mode f) ->
  ~ has_HISTOGRAM (e_mode e) -> ~ has_HISTOGRAM (e_mode f) -> Permutation (short_blocks e) (short_blocks f) -> ask P E e QRange = ask P E f QRange.
Proof. exact range_order. Qed.
Example C24_example : exists e m, reachable x86_64 env0 e /\ has_LRA (e_mode e) /\ ~ has_HISTOGRAM (e_mode e) /\
  Permutation (short_blocks e) (singly m) /\ ascending m /\ Forall (fun x => f64_is_nan x = false) m /\ length m = 2.
Proof. exact ordered_demo. Qed.

(** * C25: loudness range of a histogram *)
Theorem C25_range : forall P E e, is_64bit P -> powf_contract E -> bsearch_contract E -> reachable P E e -> has_LRA (e_mode e) -> has_HISTOGRAM (e_mode e) ->
  (population (short_blocks e) <= small_count)%N -> ask P E e QRange = Ret (AValue (Ok (range_of E (short_blocks e)))).
Proof. exact range_histogram. Qed.
(** in terms of the list algorithm: on the bin centres, each as often as it was counted *)
Theorem C25_like_list : forall E c, range_of E (combine c ENERGIES) =
  let l := combine c ENERGIES in
  if (population l =? 0)%N then f64_zero else
  let gate := f64_mul (hundredth E) (mean_energy l) in
  let r := List.filter (fun x => f64_ge x gate) (expand l) in
  if length r =? 0 then f64_zero else f64_sub (loudness E (high_percentile r)) (loudness E (low_percentile r)).
Proof. exact range_expanded. Qed.
Example C25_example : bsearch_contract env0 /\ exists e, reachable x86_64 env0 e /\ has_LRA (e_mode e) /\ has_HISTOGRAM (e_mode e) /\ population (short_blocks e) = 2%N.
Proof.
  split; [exact env0_bsearch|]. destruct hist_demo as (e & t & b & s & HN & HM & _ & H2). exists e. destruct (noted_holds x86_64 env0 e t b s eq_refl HN) as (HT & _).
  split; [exact (taped_reachable _ _ _ _ HT)|]. rewrite HM. repeat split; auto.
Qed.

(** * C26: loudness range is not negative *)
Theorem C26_not_negative : forall P E e, is_64bit P -> powf_contract E -> sort_contract E -> bsearch_contract E -> log10_contract E ->
  reachable P E e -> has_LRA (e_mode e) -> (population (short_blocks e) <= small_count)%N ->
  Forall (fun b => measurable (snd b) = true /\ is_finite (snd b) = true) (short_blocks e) ->
  exists v, ask P E e QRange = Ret (AValue (Ok v)) /\ is_finite v = true /\ f64_le f64_zero v = true.
Proof. exact range_not_negative. Qed.
(** always so with a histogram *)
Theorem C26_histogram : forall P E e, is_64bit P -> reachable P E e -> has_HISTOGRAM (e_mode e) ->
  Forall (fun b => measurable (snd b) = true /\ is_finite (snd b) = true) (blocks e ++ short_blocks e).
Proof. exact histogram_measured. Qed.
Example C26_example : log10_contract env0 /\ exists e, reachable x86_64 env0 e /\ has_LRA (e_mode e) /\ population (short_blocks e) = 2%N /\
  Forall (fun b => measurable (snd b) = true /\ is_finite (snd b) = true) (short_blocks e).
Proof.
  split; [exact env0_log10|]. destruct list_demo as (e & t & b & s & HN & HM & _ & H2 & HF & _). exists e. destruct (noted_holds x86_64 env0 e t b s eq_refl HN) as (HT & _).
  split; [exact (taped_reachable _ _ _ _ HT)|]. rewrite HM. repeat split; auto. apply Forall_app in HF. apply HF.
Qed.

(** * C27: loudness range of several analyzers *)
Theorem C27_like_one : forall P E es f, is_64bit P -> sort_contract E -> es <> [] -> Forall (reachable P E) es ->
  Forall (fun e => has_LRA (e_mode e)) es -> has_LRA (e_mode f) -> merges (map e_short es) (e_short f) ->
  loudness_range_multiple P E es = loudness_range P E f.
Proof. exact range_multiple_merged. Qed.
Theorem C27_lists : forall P E es m, is_64bit P -> powf_contract E -> sort_contract E -> Forall (reachable P E) es ->
  Forall (fun e => has_LRA (e_mode e) /\ ~ has_HISTOGRAM (e_mode e)) es ->
  Permutation (concat (map short_blocks es)) (singly m) -> ascending m -> Forall (fun x => f64_is_nan x = false) m -> (N.of_nat (length m) <= small_count)%N ->
  loudness_range_multiple P E es = Ret (Ok (range_of E (singly m))).
Proof. exact range_multiple_list. Qed.
Theorem C27_histograms : forall P E es c, is_64bit P -> powf_contract E -> bsearch_contract E -> sort_contract E -> es <> [] -> Forall (reachable P E) es ->
  Forall (fun e => has_LRA (e_mode e)) es -> merges (map e_short es) (HHistogram c) -> (population (combine c ENERGIES) <= small_count)%N ->
  loudness_range_multiple P E es = Ret (Ok (range_of E (combine c ENERGIES))).
Proof. exact range_multiple_histogram. Qed.
Theorem C27_order : forall P E es es', is_64bit P -> sort_contract E -> Forall (reachable P E) es -> Permutation es es' ->
  loudness_range_multiple P E es = loudness_range_multiple P E es'.
Proof. exact range_multiple_order. Qed.
Theorem C27_none : forall P E, loudness_range_multiple P E [] = Ret (Ok f64_zero).
Proof. reflexivity. Qed.
Theorem C27_one : forall P E e, has_LRA (e_mode e) -> loudness_range_multiple P E [e] = loudness_range P E e.
Proof. exact range_multiple_one. Qed.
Theorem C27_mixed : forall P E es e f, is_64bit P -> Forall (reachable P E) es -> In e es -> In f es ->
  has_HISTOGRAM (e_mode e) -> ~ has_HISTOGRAM (e_mode f) -> loudness_range_multiple P E es = Ret (Err InvalidMode).
Proof. exact range_multiple_mixed. Qed.
Theorem C27_lacking_LRA : forall P E es, ~ Forall (fun e => has_LRA (e_mode e)) es -> loudness_range_multiple P E es = Ret (Err InvalidMode).
Proof. exact range_multiple_mode. Qed.
Example C27_example : exists e f, reachable x86_64 env0 e /\ reachable x86_64 env0 f /\ has_LRA (e_mode e) /\ has_LRA (e_mode f) /\
  ~ has_HISTOGRAM (e_mode e) /\ has_HISTOGRAM (e_mode f) /\ population (short_blocks e) = 2%N /\ population (short_blocks f) = 2%N /\
  (exists h, merges (map e_short [e; e]) h /\ population (contents h) = 4%N) /\ (exists c, merges (map e_short [f; f]) (HHistogram c)).
Proof. exact merge_demo. Qed.

(** * C28: programme loudness of several analyzers *)
Theorem C28_several : forall P E es, is_64bit P -> powf_contract E -> Forall (reachable P E) es ->
  Forall (fun e => has_I (e_mode e)) es -> countable (concat (map blocks es)) ->
  loudness_global_multiple P E es = Ret (Ok (programme_loudness E (map blocks es))).
Proof. exact global_multiple_ok. Qed.
Theorem C28_one : forall P E e, loudness_global_multiple P E [e] = loudness_global P E e.
Proof. exact global_multiple_one. Qed.
Theorem C28_none : forall P E, loudness_global_multiple P E [] = Ret (Ok (f64_neg f64_inf)).
Proof. exact global_multiple_none. Qed.
Theorem C28_lacking_I : forall P E es, ~ Forall (fun e => has_I (e_mode e)) es -> loudness_global_multiple P E es = Ret (Err InvalidMode).
Proof. exact global_multiple_mode. Qed.
Example C28_example : exists e f, reachable x86_64 env0 e /\ reachable x86_64 env0 f /\ Forall (fun e => has_I (e_mode e)) [e; f] /\
  countable (concat (map blocks [e; f])) /\ population (concat (map blocks [e; f])) = 74%N.
Proof.
  destruct list_demo as (e & t & b & s & HN & HM & H1 & _). destruct hist_demo as (f & u & c & d & HN' & HM' & H2 & _). exists e, f.
  destruct (noted_holds x86_64 env0 e t b s eq_refl HN) as (HT & _). destruct (noted_holds x86_64 env0 f u c d eq_refl HN') as (HT' & _).
  split; [exact (taped_reachable _ _ _ _ HT)|]. split; [exact (taped_reachable _ _ _ _ HT')|]. split.
  - repeat constructor; rewrite ?HM, ?HM'; reflexivity.
  - unfold countable. cbn [map concat]. rewrite app_nil_r, population_app, H1, H2. split; reflexivity.
Qed.

(** * C29: which blocks are recorded *)
(** [noted P E e t b s]: set_max_history was never called on [e]; [b] and [s] are the energies of
    all its 400 ms and 3 s blocks since its construction or last reset. *)
Theorem C29_list : forall P E e t b s, is_64bit P -> noted P E e t b s -> ~ has_HISTOGRAM (e_mode e) ->
  blocks e = singly (latest (N.to_nat (p_usize_max P / 100)) (List.filter measurable b)) /\
  short_blocks e = singly (latest (N.to_nat (p_usize_max P / 3000)) (List.filter measurable s)).
Proof. exact noted_list. Qed.
Theorem C29_histogram : forall P E e t b s, is_64bit P -> noted P E e t b s -> has_HISTOGRAM (e_mode e) ->
  blocks e = map (fun i => (hits i (List.filter measurable b), centre i)) (seq 0 1000) /\
  short_blocks e = map (fun i => (hits i (List.filter measurable s), centre i)) (seq 0 1000).
Proof. exact noted_bins. Qed.
(** a limit that was never exceeded is kept, and the oldest blocks go first *)
Theorem C29_limit : forall q xs, (1 <= q_max q)%N -> (N.of_nat (length (q_queue q)) <= q_max q)%N -> exists h, record_all (HQueue q) xs = Ret h /\
  contents h = singly (latest (N.to_nat (q_max q)) (q_queue q ++ List.filter measurable xs)).
Proof. exact record_list. Qed.
Example C29_example : (exists e t b s, noted x86_64 env0 e t b s /\ ~ has_HISTOGRAM (e_mode e) /\ population (blocks e) = 37%N /\ population (short_blocks e) = 2%N) /\
  (exists e t b s, noted x86_64 env0 e t b s /\ has_HISTOGRAM (e_mode e) /\ population (blocks e) = 37%N).
Proof.
  destruct list_demo as (e & t & b & s & HN & HM & H1 & H2 & _). destruct hist_demo as (f & u & c & d & HN' & HM' & H3 & _). split.
  - exists e, t, b, s. rewrite HM. repeat split; auto. discriminate.
  - exists f, u, c, d. rewrite HM'. repeat split; auto.
Qed.

(** * C30: set_max_history does not bound the history *)
(** a longer history is not shortened, and then it grows without bound *)
Theorem C30_longer_refuted : forall P E e h r e' b, is_64bit P -> reachable P E e -> step P E e (OpSetMaxHistory h) = Ret (r, e') -> e_block e = HQueue b ->
  e_history e' <> e_history e -> (e_history e' / 100 < population (blocks e))%N ->
  blocks e' = blocks e /\ forall xs h', record_all (e_block e') xs = Ret h' -> contents h' = blocks e ++ singly (List.filter measurable xs).
Proof. exact shrunk. Qed.
(** a shorter history is filled up with blocks of energy 0 *)
Theorem C30_shorter_refuted : forall P E e h r e' b, is_64bit P -> reachable P E e -> step P E e (OpSetMaxHistory h) = Ret (r, e') -> e_block e = HQueue b ->
  e_history e' <> e_history e -> (population (blocks e) <= e_history e' / 100)%N ->
  blocks e' = blocks e ++ singly (repeat f64_zero (N.to_nat (e_history e' / 100 - population (blocks e)))).
Proof. exact filled. Qed.
(** no audio, yet 30 blocks that pass the gate, and a loudness range that is NaN *)
Theorem C30_phantom_blocks_refuted : exists e r e', ebur128_new x86_64 env0 2 20 63%N = Ret (Ok e) /\ step x86_64 env0 e (OpSetMaxHistory 3000) = Ret (r, e') /\
  population (blocks e) = 0%N /\ population (blocks e') = 30%N /\ (exists x, ask x86_64 env0 e' QCount = Ret (ACount (Some (30%N, x)))) /\
  (exists v, ask x86_64 env0 e' QRange = Ret (AValue (Ok v)) /\ f64_is_nan v = true).
Proof. exact phantom_demo. Qed.
(** a limit of 3 s is 30 blocks: 37 recorded blocks stay, and become 47 *)
Theorem C30_too_many_blocks_refuted : exists e r e' r' f, reachable x86_64 env0 e /\ ~ has_HISTOGRAM (e_mode e) /\ population (blocks e) = 37%N /\
  step x86_64 env0 e (OpSetMaxHistory 3000) = Ret (r, e') /\ e_history e' = 3000%N /\ population (blocks e') = 37%N /\
  step x86_64 env0 e' (OpAdd (AI16 (wave 10))) = Ret (r', f) /\ population (blocks f) = 47%N.
Proof. exact shrunk_demo. Qed.

(** * C31: NaN *)
Theorem C31_list : forall P E e, is_64bit P -> powf_contract E -> sort_contract E -> log10_nan E -> reachable P E e -> ~ has_HISTOGRAM (e_mode e) ->
  (Exists (fun b => f64_is_nan (snd b) = true) (blocks e) -> countable (blocks e) ->
     (has_I (e_mode e) -> ask P E e QGlobal = Ret (AValue (Ok f64_nan))) /\
     (has_I (e_mode e) -> ask P E e QThreshold = Ret (AValue (Ok f64_nan))) /\
     ask P E e QCount = Ret (ACount None)) /\
  (Exists (fun b => f64_is_nan (snd b) = true) (short_blocks e) -> has_LRA (e_mode e) -> ask P E e QRange = Ret (AValue (Ok f64_nan))).
Proof. exact nan_list. Qed.
Theorem C31_histogram : forall P E e, is_64bit P -> powf_contract E -> sort_contract E -> bsearch_contract E -> log10_contract E -> reachable P E e -> has_HISTOGRAM (e_mode e) ->
  (has_I (e_mode e) -> countable (blocks e) -> population (blocks e) <> 0%N ->
     (exists v, ask P E e QGlobal = Ret (AValue (Ok v)) /\ is_finite v = true) /\
     (exists v, ask P E e QThreshold = Ret (AValue (Ok v)) /\ is_finite v = true)) /\
  (has_LRA (e_mode e) -> (population (short_blocks e) <= small_count)%N ->
     exists v, ask P E e QRange = Ret (AValue (Ok v)) /\ is_finite v = true /\ f64_le f64_zero v = true).
Proof. exact histogram_numbers. Qed.
Theorem C31_lowest_bin : forall c, length c = 1000 -> exists c', record_all (HHistogram c) [f64_nan] = Ret (HHistogram c') /\
  nth 0 c' 0%N = (nth 0 c 0 + 1)%N /\ forall j, j <> 0 -> nth j c' 0%N = nth j c 0%N.
Proof. exact nan_lowest. Qed.
Example C31_example : log10_nan env0 /\ exists e, reachable x86_64 env0 e /\ ~ has_HISTOGRAM (e_mode e) /\ has_I (e_mode e) /\ has_LRA (e_mode e) /\ countable (blocks e) /\
  Exists (fun b => f64_is_nan (snd b) = true) (blocks e) /\ Exists (fun b => f64_is_nan (snd b) = true) (short_blocks e).
Proof.
  split; [exact env0_log10_nan|]. destruct nan_demo as (e & Hr & HM & H1 & H2 & H3). exists e. split; auto. rewrite HM. unfold countable. rewrite H3.
  repeat split; auto; discriminate.
Qed.

(** * C54: count and loudness agree *)
Theorem C54_agree : forall P E e, is_64bit P -> powf_contract E -> reachable P E e -> has_I (e_mode e) -> countable (blocks e) ->
  exists c, ask P E e QCount = Ret (ACount c) /\
    match c with
    | Some (n, x) => (0 < n <= population (blocks e))%N /\ ask P E e QGlobal = Ret (AValue (Ok (loudness E (f64_div x (f64_of_N n)))))
    | None => ask P E e QGlobal = Ret (AValue (Ok (if negb (population (blocks e) =? 0)%N && f64_is_nan (energy_sum (blocks e)) then f64_nan else f64_neg f64_inf)))
    end.
Proof. exact count_agrees. Qed.
Example C54_example : exists e, reachable x86_64 env0 e /\ has_I (e_mode e) /\ countable (blocks e) /\ population (blocks e) = 37%N.
Proof. exact C21_example. Qed.

(** * Assumptions *)
Print Assumptions C02_new.
Print Assumptions C02_calls.
Print Assumptions C02_queries.
Print Assumptions C02_multiple.
Print Assumptions C45_preconditions.
Print Assumptions C45_global_multiple.
Print Assumptions C45_range_multiple.
Print Assumptions C45_refusals.
Print Assumptions C17_below.
Print Assumptions C17_list.
Print Assumptions C17_histogram.
Print Assumptions C17_nan_is_recorded.
Print Assumptions C17_gate_is_minus_70.
Print Assumptions C18_search.
Print Assumptions C18_inside.
Print Assumptions C18_below.
Print Assumptions C18_above.
Print Assumptions C18_nan.
Print Assumptions C18_recorded_bin.
Print Assumptions C19_sizes.
Print Assumptions C19_order.
Print Assumptions C19_bounds.
Print Assumptions C19_centres.
Print Assumptions C19_bounds_rounded.
Print Assumptions C19_centres_rounded.
Print Assumptions C20_quantisation.
Print Assumptions C20_range.
Print Assumptions C21_gating.
Print Assumptions C22_no_blocks.
Print Assumptions C23_one_analyzer.
Print Assumptions C23_several.
Print Assumptions C24_range.
Print Assumptions C24_list.
Print Assumptions C24_order_of_recording.
Print Assumptions C25_range.
Print Assumptions C25_like_list.
Print Assumptions C26_not_negative.
Print Assumptions C26_histogram.
Print Assumptions C27_like_one.
Print Assumptions C27_lists.
Print Assumptions C27_histograms.
Print Assumptions C27_order.
Print Assumptions C27_none.
Print Assumptions C27_one.
Print Assumptions C27_mixed.
Print Assumptions C27_lacking_LRA.
Print Assumptions C28_several.
Print Assumptions C28_one.
Print Assumptions C28_none.
Print Assumptions C28_lacking_I.
Print Assumptions C29_list.
Print Assumptions C29_histogram.
Print Assumptions C29_limit.
Print Assumptions C30_longer_refuted.
Print Assumptions C30_shorter_refuted.
Print Assumptions C30_phantom_blocks_refuted.
Print Assumptions C30_too_many_blocks_refuted.
Print Assumptions C31_list.
Print Assumptions C31_histogram.
Print Assumptions C31_lowest_bin.
Print Assumptions C54_agree.
