(** A stereo sine of 997 Hz for C80. *)
From Coq Require Import List Arith NArith ZArith Bool Lia Reals Lra Psatz.
From Flocq Require Import Core IEEE754.BinarySingleNaN.
From Verif Require Import Prelude Float Env Tables Utils History Interp Filter Ebur128 Spec Spec_real Spec_filter Spec_coeff Spec_history Spec_accuracy Spec_exact Spec_programme Spec_normal Spec_response Spec_sine Instance Instance_history Instance_accuracy Instance_coeff Instance_interp
  Float_proofs Accuracy_proofs Filter_proofs Ebur128_proofs Config_proofs Lufs_proofs Coeff_proofs Calibration_proofs Loud_proofs Stream_proofs Trace_proofs Parallel_proofs Noise_proofs Heard_proofs Tight_proofs Exact_proofs Rms_proofs Instance_exact Response_proofs Sine_proofs.
Import ListNotations.
Import Spec_history Spec_exact.
Local Open Scope R_scope.

(** two channels at 48 kHz, one call *)
Section Stereo.
Variables (E : ext) (m : N) (l l' : list f64).
Hypothesis Hm : has_M m.
Hypothesis Hl : length l' = length l.
Lemma stereo_call : exists e t, (forall c, (c < 2)%nat -> exists ws, heard x86_64 E c e t (nth c [l; l'] []) ws) /\ e_channels e = 2%nat /\ e_rate e = 48000%N /\ e_cmap e = [Left; Right] /\ e_mode e = m.
Proof.
  assert (is_64bit x86_64) as HP by (split; reflexivity).
  assert (channels_valid 2) as HC by (split; vm_compute; discriminate || reflexivity). assert (rate_valid 48000) as HR by (split; vm_compute; discriminate).
  destruct (proj2 (proj2 (new_spec x86_64 E 2 48000 m HP)) HC HR Hm) as (e & Hn & M & R & C & CM & _).
  assert (supported m 48000) as HS by (split; [right; vm_compute; discriminate|intros _; vm_compute; reflexivity]).
  assert (forall c, (c < 2)%nat -> heard x86_64 E c e (blank 2) [] []) as H0 by (intros c Hc; apply (heard_new x86_64 E c 2 48000 m e Hn HS); change (N.to_nat 2) with 2%nat; lia).
  assert (admissible e (OpAdd (PF64 [l; l']))) as HA by (cbn [admissible]; unfold planes_match; rewrite C; reflexivity).
  destruct (proj2 (shortterm_available x86_64 E e HP (reach_new _ _ _ _ _ _ Hn HS)) _ HA) as (r & e' & Hs & _).
  assert (input x86_64 (e_channels e) (PF64 [l; l']) = Some [map (read x86_64 smp_f64) l; map (read x86_64 smp_f64) l']) as Hi by (cbn [input planar_input forallb]; rewrite Hl, Nat.eqb_refl; reflexivity).
  assert (forall c, (c < 2)%nat -> nth c (e_cmap e) Unused <> Unused) as Hu by (intros [|[|c]] Hc; rewrite CM; try discriminate; lia).
  destruct (Capi_proofs.kept_config x86_64 E e _ r e' HP (reach_new _ _ _ _ _ _ Hn HS) HA Hs ltac:(discriminate)) as (K1 & K2).
  exists e', (tape_after x86_64 E e (OpAdd (PF64 [l; l'])) (blank 2)).
  split; [|split; [rewrite K1; exact C|split; [rewrite K2; exact R|]]].
  - intros c Hc. pose proof (heard_add x86_64 E c e _ _ _ _ r e' _ (H0 c Hc) HA Hs Hi (Hu c Hc)) as H1. cbn [app] in H1.
    assert (map r_64 (nth c [map (read x86_64 smp_f64) l; map (read x86_64 smp_f64) l'] []) = nth c [l; l'] []) as Er.
    { destruct c as [|[|c]]; [| |lia]; cbn [nth]; rewrite map_map; apply map_id. }
    rewrite Er in H1. eauto.
  - destruct (Loud_proofs.session_records x86_64 E HP e (blank 2) [OpAdd (PF64 [l; l'])] e' (tape_after x86_64 E e (OpAdd (PF64 [l; l'])) (blank 2))) as (_ & _ & HSt & _).
    + econstructor; eauto. constructor.
    + exact (heard_taped x86_64 E 0 e _ _ _ HP (H0 0%nat ltac:(lia))).
    + repeat constructor.
    + unfold settings in HSt. injection HSt. intros. split; [rewrite CM in *; auto|congruence].
Qed.
End Stereo.

(** the samples of [n] frames of the amplitude 7/100, nearly -23 dB *)
Definition sine_sample (k : nat) : f64 := nearby (sinusoid 48000 997 0 0.07 k).
Definition sine_samples (n : nat) : list f64 := map sine_sample (seq 0 n).
Lemma sine_sample_value k : is_finite (sine_sample k) = true /\ Rabs (real (sine_sample k) - sinusoid 48000 997 0 0.07 k) <= / 2 ^ 50 /\ Rabs (real (sine_sample k)) <= 1.
Proof.
  unfold sine_sample. pose proof (wave_bound (PI * 997 / 48000) 0 0.07 k) as B. rewrite <- wave_sinusoid in B. rewrite Rabs_R0, (Rabs_pos_eq 0.07) in B by lra. set (y := sinusoid _ _ _ _ _) in *. clearbody y.
  destruct (nearby_close y ltac:(lra)) as (F & C). assert (u * Rabs y <= / 2 ^ 52) as U. { apply Rle_trans with (u * 1); [apply Rmult_le_compat_l; [unfold roundoff; left; apply Rinv_0_lt_compat, pow_lt; lra|lra]|]. unfold roundoff. cbn [pow]. lra. }
  assert (Rabs (real (nearby y) - y) <= / 2 ^ 50) as D by (cbn [pow] in *; lra). split; auto. split; auto. replace (real (nearby y)) with ((real (nearby y) - y) + y) by ring. eapply Rle_trans; [apply Rabs_triang|]. cbn [pow] in *. lra.
Qed.
Lemma sine_samples_near n : Forall2 (fun x y => Rabs (real y - x) <= / 2 ^ 50) (first n (sinusoid 48000 997 0 0.07)) (sine_samples n).
Proof. unfold first, sine_samples. induction (seq 0 n) as [|k l IH]; cbn [map]; constructor; auto. apply sine_sample_value. Qed.
Lemma stereo_case : exists e t n v, heard_all x86_64 env4 1 e t [sine_samples n; sine_samples n] /\ e_rate e = 48000%N /\ e_cmap e = [Left; Right] /\
  plays_sines (e_rate e) 997 (/ 2 ^ 50) (e_cmap e) [(0, 0.07); (0, 0.07)] n [sine_samples n; sine_samples n] /\
  ask x86_64 env4 e QMomentary = Ret (AValue (Ok v)) /\ 24000 + INR (4 * hop e) <= INR n /\ 10 * filter_error x86_64 48000 1 + 200 * / 2 ^ 50 <= 0.07 /\ 0 ^ 2 + 0.07 ^ 2 = 0.07 ^ 2 /\ / 10 ^ 14 <= 0.07.
Proof.
  set (n := (9 * N.to_nat 4800)%nat). destruct (stereo_call env4 MODE_M (sine_samples n) (sine_samples n) eq_refl eq_refl) as (e & t & HH & HC & HR & HM & _). exists e, t, n. eexists.
  assert (is_64bit x86_64) as HP by (split; reflexivity). destruct (HH 0%nat ltac:(lia)) as (ws & H0).
  assert (heard_all x86_64 env4 1 e t [sine_samples n; sine_samples n]) as HA.
  { split; [rewrite HC; reflexivity|]. split; [exact (heard_taped _ _ _ _ _ _ _ HP H0)|]. intros c Hc _. rewrite HC in Hc. split; [now apply HH|].
    assert (samples_below 1 (sine_samples n)) as HB. { unfold sine_samples, samples_below. apply Forall_forall. intros x Hx. apply in_map_iff in Hx. destruct Hx as (k & <- & _). destruct (sine_sample_value k) as (F & _ & B). auto. }
    destruct c as [|[|c]]; [exact HB|exact HB|lia]. }
  split; [exact HA|]. split; [exact HR|]. split; [exact HM|]. split.
  { rewrite HR, HM. split; [reflexivity|]. change (IZR (Z.of_N 48000)) with 48000. intros [|[|c]] Hc _; [apply sine_samples_near|apply sine_samples_near|cbn in Hc; lia]. }
  split; [apply (ask_momentary x86_64 env4 e t HP); apply HA|]. split.
  { assert (hop e = N.to_nat 4800) as -> by (unfold hop; rewrite HR; vm_compute; reflexivity). unfold n. rewrite !mult_INR. assert (INR (N.to_nat 4800) = 4800) as -> by (rewrite INR_IZR_INZ, N_nat_Z; reflexivity). replace (INR 4) with 4 by (cbn; lra). replace (INR 9) with 9 by (cbn; lra). lra. }
  split; [|split; [ring|cbn; lra]]. unfold filter_error. cbn [p_ftz x86_64]. change (IZR (Z.of_N 48000)) with 48000. replace (48000 / 48000) with 1 by lra. rewrite pow1.
  assert (0 < / 2 ^ 1000 <= / 2 ^ 30) by (split; [apply Rinv_0_lt_compat, pow_lt; lra|apply Rinv_le_contravar; [apply pow_lt; lra|apply Rle_pow; [lra|lia]]]). assert (/ 2 ^ 50 <= / 10 ^ 10) by (cbn [pow]; lra). cbn [pow] in *. lra.
Qed.
Lemma sine_case : exists e t n v, heard_all x86_64 env4 1 e t [sine_samples n; sine_samples n] /\ (32000 <= e_rate e <= 768000)%N /\
  plays_sines (e_rate e) 997 (/ 2 ^ 50) (e_cmap e) [(0, 0.07); (0, 0.07)] n [sine_samples n; sine_samples n] /\
  ask x86_64 env4 e QMomentary = Ret (AValue (Ok v)) /\ let r := IZR (Z.of_N (e_rate e)) in 0 < 997 /\ 2 * 997 < r /\ / 100 <= power_gain r 997 /\ r / 2 + INR (4 * hop e) <= INR n /\ odd_period (e_rate e) 997 (4 * hop e) <= / 10 /\
  let a := sine_power (e_cmap e) [(0, 0.07); (0, 0.07)] in let d := gain_error x86_64 (e_rate e) 1 (/ 2 ^ 50) (e_cmap e) in
  / 10 ^ 29 <= a /\ 5 * d <= sqrt a /\ a <= power_gain r 997 * a.
Proof.
  destruct stereo_case as (e & t & n & v & HA & HR & HC & HPl & HAsk & Hn & HE & _). exists e, t, n, v. split; [exact HA|]. split; [rewrite HR; lia|]. split; [exact HPl|]. split; [exact HAsk|].
  pose proof (odd_997 e (4 * hop e) ltac:(rewrite HR; lia) ltac:(lia)) as HO. rewrite HR, HC in *. change (IZR (Z.of_N 48000)) with 48000. pose proof gain_48000 as HG. cbv zeta.
  assert (sine_power [Left; Right] [(0, 0.07); (0, 0.07)] = 0.07 * 0.07) as -> by (unfold sine_power; cbn; lra).
  split; [lra|]. split; [lra|]. split; [lra|]. split; [lra|]. split; [lra|]. split; [cbn; lra|]. split; [|nra]. rewrite sqrt_square by lra.
  assert (sqrt 2 <= 1.4143) as S2. { rewrite <- (sqrt_square 1.4143) by lra. apply sqrt_le_1_alt. lra. }
  unfold gain_error. assert (total (map weight [Left; Right]) = 2) as -> by (cbn; lra). assert (0 <= filter_error x86_64 48000 1 + 19.5 * / 2 ^ 50) as P. { pose proof (filter_error_pos x86_64 48000 1 ltac:(lra)). assert (0 < / 2 ^ 50) by (apply Rinv_0_lt_compat, pow_lt; lra). lra. }
  assert (0 < / 2 ^ 50) by (apply Rinv_0_lt_compat, pow_lt; lra). set (k := / 2 ^ 50) in *. set (fe := filter_error x86_64 48000 1) in *. clearbody k fe. pose proof (sqrt_pos 2). assert (sqrt 2 * (fe + 19.5 * k) <= 1.4143 * (fe + 19.5 * k)) by (apply Rmult_le_compat_r; lra). lra.
Qed.
Lemma settles_case : audio_rate 48000 /\ 0 <= 997 /\ 2 * 997 < IZR (Z.of_N 48000).
Proof. split; [split; vm_compute; discriminate|]. change (IZR (Z.of_N 48000)) with 48000. lra. Qed.
