(** The weighting filter in f64 follows the exact one: what it keeps stays bounded, nothing overflows, and the outputs are near. *)
From Coq Require Import List Arith NArith ZArith Bool Lia Reals Lra Psatz.
From Flocq Require Import Core IEEE754.BinarySingleNaN.
From Verif Require Import Prelude Float Env Utils Filter Ebur128 Spec Float_proofs Spec_real Spec_filter Spec_coeff Spec_exact Filter_proofs Accuracy_proofs Lufs_proofs Kweight_proofs Coeff_proofs Noise_proofs Heard_proofs Tight_proofs Bound_proofs.
Import ListNotations.
Local Open Scope R_scope.

Definition tau : R := tiny * / 2 ^ 10.
Lemma tau_pos : 0 < tau. Proof. unfold tau. pose proof tiny_pos. apply Rmult_lt_0_compat; [auto|]. apply Rinv_0_lt_compat, pow_lt. lra. Qed.
Lemma tau_one : tau <= 1.
Proof.
  unfold tau, tiny. rewrite <- Rinv_mult, <- pow_add, <- Rinv_1. apply Rinv_le_contravar; [lra|]. apply pow_R1_Rle. lra.
Qed.
Lemma no_overflow z : Rabs z <= 2 ^ 950 -> Rlt_bool (Rabs (rnd64 z)) (bpow radix2 1024) = true.
Proof.
  intros H. apply Rlt_bool_true. pose proof (rnd_error z) as R. pose proof u_value. pose proof u_pos. pose proof eta_less. pose proof (Rabs_pos z).
  apply Rle_lt_trans with (2 ^ 950 + 2 ^ 950).
  - replace (rnd64 z) with (z + (rnd64 z - z)) by ring. eapply Rle_trans; [apply Rabs_triang|]. assert (u <= 1) by lra. assert (1 <= 2 ^ 949) by (apply pow_R1_Rle; lra).
    replace (2 ^ 950) with (2 * 2 ^ 949) in * by (symmetry; apply tech_pow_Rmult). set (p := 2 ^ 949) in *. clearbody p. assert (u * Rabs z <= / 2 * Rabs z) by (apply Rmult_le_compat_r; lra). lra.
  - replace (2 ^ 950 + 2 ^ 950) with (2 ^ 951) by (replace (2 ^ 951) with (2 * 2 ^ 950) by (apply tech_pow_Rmult); ring).
    replace (2 ^ 951) with (bpow radix2 951) by (change 951%Z with (Z.of_nat 951); rewrite bpow_powerRZ, <- pow_powerRZ; reflexivity). apply bpow_lt. lia.
Qed.
Lemma head_room C W : 0 <= C <= 1000 -> 0 <= W <= 2 ^ 900 -> C * W + 1000 <= 2 ^ 950.
Proof.
  intros HC HW. replace 950%nat with (900 + 50)%nat by lia. rewrite pow_add. assert (1 <= 2 ^ 900) by (apply pow_R1_Rle; lra). set (p := 2 ^ 900) in *. clearbody p.
  assert (C * W <= 1000 * p) by (apply Rmult_le_compat; lra). lra.
Qed.
Lemma mul_fine P a s A k C W : off k C a A -> 0 <= k <= 1000 -> 0 <= C <= 100 -> is_finite s = true -> Rabs (real s) <= W -> W <= 2 ^ 900 ->
  is_finite (ftz64 P (f64_mul a s)) = true /\ Rabs (real (ftz64 P (f64_mul a s)) - A * real s) <= (k + C + / 100) * (u * W) + tau.
Proof.
  intros (Fa & Ha & HA) Hk HC Fs Hs HW. pose proof u_value. pose proof u_pos. pose proof (Rabs_pos (real s)).
  assert (k * u <= / 1000) by nra. assert (Rabs (real a) <= C + / 1000) as Ba. { replace (real a) with (A + (real a - A)) by ring. eapply Rle_trans; [apply Rabs_triang|]. lra. }
  assert (Rabs (real a * real s) <= (C + / 1000) * W) as Bp. { rewrite Rabs_mult. apply Rmult_le_compat; auto using Rabs_pos. }
  pose proof (no_overflow (real a * real s)) as NO. pose proof (head_room (C + / 1000) W ltac:(lra) ltac:(lra)) as HR. specialize (NO ltac:(lra)).
  pose proof (Bmult_correct 53 1024 Hprec64 Hmax64 mode_NE a s) as X. change (round radix2 _ _ (B2R a * B2R s)) with (rnd64 (real a * real s)) in X. rewrite NO, Fa, Fs in X. destruct X as (X1 & X2 & _).
  destruct (flush_near P (f64_mul a s)) as (F1 & N1). split; [rewrite F1; exact X2|]. change (real (f64_mul a s) = rnd64 (real a * real s)) in X1. rewrite X1 in N1.
  pose proof (rnd_error (real a * real s)) as R. pose proof tiny_eta as T. fold tau in T.
  assert (Rabs (real a * real s - A * real s) <= k * u * W) as D. { replace (real a * real s - A * real s) with ((real a - A) * real s) by ring. rewrite Rabs_mult. apply Rmult_le_compat; auto using Rabs_pos. }
  assert (u * Rabs (real a * real s) <= u * ((C + / 1000) * W)) by (apply Rmult_le_compat_l; lra). assert (0 <= u * W) by nra.
  set (z := real (ftz64 P (f64_mul a s))) in *. replace (z - A * real s) with ((z - rnd64 (real a * real s)) + (rnd64 (real a * real s) - real a * real s) + (real a * real s - A * real s)) by ring.
  eapply Rle_trans; [apply Rabs_triang|]. eapply Rle_trans; [apply Rplus_le_compat_r, Rabs_triang|]. lra.
Qed.
(** adding or subtracting such a product *)
Lemma sum_core (w t z m r p q k j W : R) : w = t + z -> Rabs (r - w) <= u * Rabs w + tau -> Rabs t <= p * W + j * tau -> Rabs (z - m) <= k * (u * W) + tau -> Rabs m <= q * W ->
  0 <= p <= 100 -> 0 <= q <= 100 -> 0 <= k <= 1000 -> 0 <= j <= 100 -> 0 <= W ->
  Rabs (r - (t + m)) <= (k + p + q + / 100) * (u * W) + 3 * tau /\ Rabs r <= (p + q + / 1000) * W + (j + 3) * tau.
Proof.
  intros Ew Hr Ht Hz Hm Hp Hq Hk Hj HW. pose proof u_value. pose proof u_pos. pose proof tau_pos. assert (0 <= u * W) as UW by nra. assert (u * W <= W / 9007199254740992) as UW2.
  { replace (W / 9007199254740992) with (u * W); [lra|]. assert (u = / 9007199254740992) as -> by (unfold roundoff; lra). field. }
  assert (k * (u * W) <= W / 1000000000) as KW by nra.
  assert (Rabs w <= (p + q) * W + W / 1000000000 + (j + 1) * tau) as Bw.
  { rewrite Ew. replace (t + z) with (t + (m + (z - m))) by ring. eapply Rle_trans; [apply Rabs_triang|]. pose proof (Rabs_triang m (z - m)). lra. }
  assert (u * Rabs w <= u * ((p + q) * W + W / 1000000000 + (j + 1) * tau)) as Uw by (apply Rmult_le_compat_l; lra).
  assert (u * ((j + 1) * tau) <= tau / 1000000000) as UT.
  { assert (0 <= u * tau) by nra. assert (u * (j + 1) <= / 1000000000) by nra. replace (u * ((j + 1) * tau)) with (u * (j + 1) * tau) by ring. nra. }
  assert (Rabs (r - (t + m)) <= (k + p + q + / 100) * (u * W) + 3 * tau) as A.
  { replace (r - (t + m)) with ((r - w) + (z - m)) by (rewrite Ew; ring). eapply Rle_trans; [apply Rabs_triang|]. lra. }
  split; auto. replace r with ((r - (t + m)) + (t + m)) by ring. eapply Rle_trans; [apply Rabs_triang|]. pose proof (Rabs_triang t m).
  assert ((k + p + q + / 100) * (u * W) <= W / 1000) by nra. lra.
Qed.
Lemma sub_fine P t z m p q k j W : is_finite t = true -> is_finite z = true -> Rabs (real t) <= p * W + j * tau -> Rabs (real z - m) <= k * (u * W) + tau -> Rabs m <= q * W ->
  0 <= p <= 100 -> 0 <= q <= 100 -> 0 <= k <= 1000 -> 0 <= j <= 100 -> 0 <= W <= 2 ^ 900 ->
  is_finite (ftz64 P (f64_sub t z)) = true /\ Rabs (real (ftz64 P (f64_sub t z)) - (real t - m)) <= (k + p + q + / 100) * (u * W) + 3 * tau /\
  Rabs (real (ftz64 P (f64_sub t z))) <= (p + q + / 1000) * W + (j + 3) * tau.
Proof.
  intros Ft Fz Ht Hz Hm Hp Hq Hk Hj HW. pose proof u_value. pose proof u_pos. pose proof tau_pos. pose proof tau_one. assert (u <= / 1000000000) by lra. assert (k * u <= / 1000) by nra.
  assert (k * (u * W) <= / 1000 * W) by (rewrite <- Rmult_assoc; apply Rmult_le_compat_r; lra). assert (Rabs (real z) <= (q + / 1000) * W + tau) as Bz. { replace (real z) with (m + (real z - m)) by ring. eapply Rle_trans; [apply Rabs_triang|]. lra. }
  assert (Rabs (real t - real z) <= (p + q + / 1000) * W + 1000) as Bw. { eapply Rle_trans; [apply Rabs_triang|]. rewrite Rabs_Ropp. assert (j * tau <= 100 * 1) by (apply Rmult_le_compat; lra). lra. }
  pose proof (no_overflow (real t - real z)) as NO. pose proof (head_room (p + q + / 1000) W ltac:(lra) HW) as HR. specialize (NO ltac:(lra)).
  pose proof (Bminus_correct 53 1024 Hprec64 Hmax64 mode_NE t z Ft Fz) as X. change (round radix2 _ _ (B2R t - B2R z)) with (rnd64 (real t - real z)) in X. rewrite NO in X. destruct X as (X1 & X2 & _).
  destruct (flush_near P (f64_sub t z)) as (F1 & N1). split; [rewrite F1; exact X2|]. change (real (f64_sub t z) = rnd64 (real t - real z)) in X1. rewrite X1 in N1.
  pose proof (rnd_error (real t - real z)) as R. pose proof tiny_eta as T. fold tau in T.
  replace (real t - m) with (real t + - m) by ring. apply (sum_core (real t - real z) (real t) (- real z) (- m)); auto; try lra.
  - match goal with |- Rabs (?r - ?w) <= _ => replace (r - w) with ((r - rnd64 w) + (rnd64 w - w)) by ring end. eapply Rle_trans; [apply Rabs_triang|]. lra.
  - replace (- real z - - m) with (- (real z - m)) by ring. now rewrite Rabs_Ropp.
  - now rewrite Rabs_Ropp.
Qed.
Lemma add_fine P t z m p q k j W : is_finite t = true -> is_finite z = true -> Rabs (real t) <= p * W + j * tau -> Rabs (real z - m) <= k * (u * W) + tau -> Rabs m <= q * W ->
  0 <= p <= 100 -> 0 <= q <= 100 -> 0 <= k <= 1000 -> 0 <= j <= 100 -> 0 <= W <= 2 ^ 900 ->
  is_finite (ftz64 P (f64_add t z)) = true /\ Rabs (real (ftz64 P (f64_add t z)) - (real t + m)) <= (k + p + q + / 100) * (u * W) + 3 * tau /\
  Rabs (real (ftz64 P (f64_add t z))) <= (p + q + / 1000) * W + (j + 3) * tau.
Proof.
  intros Ft Fz Ht Hz Hm Hp Hq Hk Hj HW. pose proof u_value. pose proof u_pos. pose proof tau_pos. pose proof tau_one. assert (u <= / 1000000000) by lra. assert (k * u <= / 1000) by nra.
  assert (k * (u * W) <= / 1000 * W) by (rewrite <- Rmult_assoc; apply Rmult_le_compat_r; lra). assert (Rabs (real z) <= (q + / 1000) * W + tau) as Bz. { replace (real z) with (m + (real z - m)) by ring. eapply Rle_trans; [apply Rabs_triang|]. lra. }
  assert (Rabs (real t + real z) <= (p + q + / 1000) * W + 1000) as Bw. { eapply Rle_trans; [apply Rabs_triang|]. assert (j * tau <= 100 * 1) by (apply Rmult_le_compat; lra). lra. }
  pose proof (no_overflow (real t + real z)) as NO. pose proof (head_room (p + q + / 1000) W ltac:(lra) HW) as HR. specialize (NO ltac:(lra)).
  pose proof (Bplus_correct 53 1024 Hprec64 Hmax64 mode_NE t z Ft Fz) as X. change (round radix2 _ _ (B2R t + B2R z)) with (rnd64 (real t + real z)) in X. rewrite NO in X. destruct X as (X1 & X2 & _).
  destruct (flush_near P (f64_add t z)) as (F1 & N1). split; [rewrite F1; exact X2|]. change (real (f64_add t z) = rnd64 (real t + real z)) in X1. rewrite X1 in N1.
  pose proof (rnd_error (real t + real z)) as R. pose proof tiny_eta as T. fold tau in T.
  apply (sum_core (real t + real z) (real t) (real z) m); auto; try lra.
  match goal with |- Rabs (?r - ?w) <= _ => replace (r - w) with ((r - rnd64 w) + (rnd64 w - w)) by ring end. eapply Rle_trans; [apply Rabs_triang|]. lra.
Qed.
Lemma size_of A C s W : Rabs A <= C -> Rabs s <= W -> Rabs (A * s) <= C * W.
Proof. intros. rewrite Rabs_mult. apply Rmult_le_compat; auto using Rabs_pos. Qed.

(** * One step *)
Definition sound (st : arr5 f64) : Prop := is_finite (v1 st) = true /\ is_finite (v2 st) = true /\ is_finite (v3 st) = true /\ is_finite (v4 st) = true.
Definition within (W : R) (st : arr5 f64) : Prop := Rabs (real (v1 st)) <= W /\ Rabs (real (v2 st)) <= W /\ Rabs (real (v3 st)) <= W /\ Rabs (real (v4 st)) <= W.
Lemma step_kept P a A W st x : sharp_a a A -> sound st -> within W st -> is_finite x = true -> Rabs (real x) <= W -> W <= 2 ^ 900 ->
  let s0 := ftz64 P (f64_sub (ftz64 P (f64_sub (ftz64 P (f64_sub (ftz64 P (f64_sub x (ftz64 P (f64_mul (v1 a) (v1 st))))) (ftz64 P (f64_mul (v2 a) (v2 st))))) (ftz64 P (f64_mul (v3 a) (v3 st))))) (ftz64 P (f64_mul (v4 a) (v4 st)))) in
  is_finite s0 = true /\ Rabs (real s0 - (real x - v1 A * real (v1 st) - v2 A * real (v2 st) - v3 A * real (v3 st) - v4 A * real (v4 st))) <= 460 * (u * W) + tiny.
Proof.
  intros (H1 & H2 & H3 & H4) (F1 & F2 & F3 & F4) (M1 & M2 & M3 & M4) Fx Hx HW.
  pose proof (Rabs_pos (real x)) as Px. pose proof tau_pos as Pt. pose proof u_pos as Pu. assert (0 <= W) as W0 by lra. assert (0 <= u * W) as UW by nra.
  destruct (mul_fine P _ _ _ _ _ W H1 ltac:(lra) ltac:(lra) F1 M1 HW) as (E1 & D1). destruct (mul_fine P _ _ _ _ _ W H2 ltac:(lra) ltac:(lra) F2 M2 HW) as (E2 & D2).
  destruct (mul_fine P _ _ _ _ _ W H3 ltac:(lra) ltac:(lra) F3 M3 HW) as (E3 & D3). destruct (mul_fine P _ _ _ _ _ W H4 ltac:(lra) ltac:(lra) F4 M4 HW) as (E4 & D4).
  destruct H1 as (_ & _ & B1), H2 as (_ & _ & B2), H3 as (_ & _ & B3), H4 as (_ & _ & B4).
  pose proof (size_of _ _ _ _ B1 M1) as S1. pose proof (size_of _ _ _ _ B2 M2) as S2. pose proof (size_of _ _ _ _ B3 M3) as S3. pose proof (size_of _ _ _ _ B4 M4) as S4.
  set (z1 := ftz64 P (f64_mul (v1 a) (v1 st))) in *. set (z2 := ftz64 P (f64_mul (v2 a) (v2 st))) in *. set (z3 := ftz64 P (f64_mul (v3 a) (v3 st))) in *. set (z4 := ftz64 P (f64_mul (v4 a) (v4 st))) in *. clearbody z1 z2 z3 z4.
  set (m1 := v1 A * real (v1 st)) in *. set (m2 := v2 A * real (v2 st)) in *. set (m3 := v3 A * real (v3 st)) in *. set (m4 := v4 A * real (v4 st)) in *. clearbody m1 m2 m3 m4.
  destruct (sub_fine P x z1 m1 1 4 (61.5 + 4 + / 100) 0 W Fx E1 ltac:(lra) D1 S1 ltac:(lra) ltac:(lra) ltac:(lra) ltac:(lra) ltac:(lra)) as (G1 & R1 & T1).
  set (t1 := ftz64 P (f64_sub x z1)) in *. clearbody t1.
  destruct (sub_fine P t1 z2 m2 (1 + 4 + / 1000) 6 (161.3 + 6 + / 100) 3 W G1 E2 ltac:(lra) D2 S2 ltac:(lra) ltac:(lra) ltac:(lra) ltac:(lra) ltac:(lra)) as (G2 & R2 & T2).
  set (t2 := ftz64 P (f64_sub t1 z2)) in *. clearbody t2.
  destruct (sub_fine P t2 z3 m3 (1 + 4 + / 1000 + 6 + / 1000) 4 (136 + 4 + / 100) 6 W G2 E3 ltac:(lra) D3 S3 ltac:(lra) ltac:(lra) ltac:(lra) ltac:(lra) ltac:(lra)) as (G3 & R3 & T3).
  set (t3 := ftz64 P (f64_sub t2 z3)) in *. clearbody t3.
  destruct (sub_fine P t3 z4 m4 (1 + 4 + / 1000 + 6 + / 1000 + 4 + / 1000) 1 (38.3 + 1 + / 100) 9 W G3 E4 ltac:(lra) D4 S4 ltac:(lra) ltac:(lra) ltac:(lra) ltac:(lra) ltac:(lra)) as (G4 & R4 & T4).
  set (s0 := ftz64 P (f64_sub t3 z4)) in *. clearbody s0. cbv zeta. split; auto. replace tiny with (1024 * tau) by (unfold tau; field).
  replace (real s0 - (real x - m1 - m2 - m3 - m4)) with ((real s0 - (real t3 - m4)) + (real t3 - (real t2 - m3)) + (real t2 - (real t1 - m2)) + (real t1 - (real x - m1))) by ring.
  eapply Rle_trans; [apply Rabs_triang|]. eapply Rle_trans; [apply Rplus_le_compat_r, Rabs_triang|]. eapply Rle_trans; [apply Rplus_le_compat_r, Rplus_le_compat_r, Rabs_triang|]. lra.
Qed.
Lemma step_out P b B W st s0 : sharp_b b B -> sound st -> within W st -> is_finite s0 = true -> Rabs (real s0) <= W -> W <= 2 ^ 900 ->
  let y := ftz64 P (f64_add (ftz64 P (f64_add (ftz64 P (f64_add (ftz64 P (f64_add (ftz64 P (f64_mul (v0 b) s0)) (ftz64 P (f64_mul (v1 b) (v1 st))))) (ftz64 P (f64_mul (v2 b) (v2 st))))) (ftz64 P (f64_mul (v3 b) (v3 st))))) (ftz64 P (f64_mul (v4 b) (v4 st)))) in
  is_finite y = true /\ Rabs (real y - (v0 B * real s0 + v1 B * real (v1 st) + v2 B * real (v2 st) + v3 B * real (v3 st) + v4 B * real (v4 st))) <= 1520 * (u * W) + tiny.
Proof.
  intros (H0 & H1 & H2 & H3 & H4) (F1 & F2 & F3 & F4) (M1 & M2 & M3 & M4) F0 M0 HW.
  pose proof (Rabs_pos (real s0)) as Px. pose proof tau_pos as Pt. pose proof u_pos as Pu. assert (0 <= W) as W0 by lra. assert (0 <= u * W) as UW by nra.
  destruct (mul_fine P _ _ _ _ _ W H0 ltac:(lra) ltac:(lra) F0 M0 HW) as (E0 & D0).
  destruct (mul_fine P _ _ _ _ _ W H1 ltac:(lra) ltac:(lra) F1 M1 HW) as (E1 & D1). destruct (mul_fine P _ _ _ _ _ W H2 ltac:(lra) ltac:(lra) F2 M2 HW) as (E2 & D2).
  destruct (mul_fine P _ _ _ _ _ W H3 ltac:(lra) ltac:(lra) F3 M3 HW) as (E3 & D3). destruct (mul_fine P _ _ _ _ _ W H4 ltac:(lra) ltac:(lra) F4 M4 HW) as (E4 & D4).
  destruct H0 as (_ & _ & B0), H1 as (_ & _ & B1), H2 as (_ & _ & B2), H3 as (_ & _ & B3), H4 as (_ & _ & B4). pose proof (size_of _ _ _ _ B0 M0) as S0.
  pose proof (size_of _ _ _ _ B1 M1) as S1. pose proof (size_of _ _ _ _ B2 M2) as S2. pose proof (size_of _ _ _ _ B3 M3) as S3. pose proof (size_of _ _ _ _ B4 M4) as S4.
  set (z0 := ftz64 P (f64_mul (v0 b) s0)) in *. set (z1 := ftz64 P (f64_mul (v1 b) (v1 st))) in *. set (z2 := ftz64 P (f64_mul (v2 b) (v2 st))) in *. set (z3 := ftz64 P (f64_mul (v3 b) (v3 st))) in *. set (z4 := ftz64 P (f64_mul (v4 b) (v4 st))) in *. clearbody z0 z1 z2 z3 z4.
  set (m0 := v0 B * real s0) in *. set (m1 := v1 B * real (v1 st)) in *. set (m2 := v2 B * real (v2 st)) in *. set (m3 := v3 B * real (v3 st)) in *. set (m4 := v4 B * real (v4 st)) in *. clearbody m0 m1 m2 m3 m4.
  assert (u * W <= / 1000000000 * W) as UW2 by (apply Rmult_le_compat_r; auto; pose proof u_value; lra).
  assert (Rabs (real z0) <= (2.1 + / 1000) * W + 1 * tau) as T0. { replace (real z0) with (m0 + (real z0 - m0)) by ring. eapply Rle_trans; [apply Rabs_triang|]. lra. }
  destruct (add_fine P z0 z1 m1 (2.1 + / 1000) 7.37 (351 + 7.37 + / 100) 1 W E0 E1 T0 D1 S1 ltac:(lra) ltac:(lra) ltac:(lra) ltac:(lra) ltac:(lra)) as (G1 & R1 & T1).
  set (t1 := ftz64 P (f64_add z0 z1)) in *. clearbody t1.
  destruct (add_fine P t1 z2 m2 (2.1 + / 1000 + 7.37 + / 1000) 10.1 (477 + 10.1 + / 100) 4 W G1 E2 ltac:(lra) D2 S2 ltac:(lra) ltac:(lra) ltac:(lra) ltac:(lra) ltac:(lra)) as (G2 & R2 & T2).
  set (t2 := ftz64 P (f64_add t1 z2)) in *. clearbody t2.
  destruct (add_fine P t2 z3 m3 (2.1 + / 1000 + 7.37 + / 1000 + 10.1 + / 1000) 6.48 (349.2 + 6.48 + / 100) 7 W G2 E3 ltac:(lra) D3 S3 ltac:(lra) ltac:(lra) ltac:(lra) ltac:(lra) ltac:(lra)) as (G3 & R3 & T3).
  set (t3 := ftz64 P (f64_add t2 z3)) in *. clearbody t3.
  destruct (add_fine P t3 z4 m4 (2.1 + / 1000 + 7.37 + / 1000 + 10.1 + / 1000 + 6.48 + / 1000) 1.65 (113.7 + 1.65 + / 100) 10 W G3 E4 ltac:(lra) D4 S4 ltac:(lra) ltac:(lra) ltac:(lra) ltac:(lra) ltac:(lra)) as (G4 & R4 & T4).
  set (y := ftz64 P (f64_add t3 z4)) in *. clearbody y. cbv zeta. split; auto. replace tiny with (1024 * tau) by (unfold tau; field).
  replace (real y - (m0 + m1 + m2 + m3 + m4)) with ((real y - (real t3 + m4)) + (real t3 - (real t2 + m3)) + (real t2 - (real t1 + m2)) + (real t1 - (real z0 + m1)) + (real z0 - m0)) by ring.
  eapply Rle_trans; [apply Rabs_triang|]. eapply Rle_trans; [apply Rplus_le_compat_r, Rabs_triang|]. eapply Rle_trans; [apply Rplus_le_compat_r, Rplus_le_compat_r, Rabs_triang|].
  eapply Rle_trans; [apply Rplus_le_compat_r, Rplus_le_compat_r, Rplus_le_compat_r, Rabs_triang|]. lra.
Qed.

(** * Runs *)
Definition gap_a (P : platform) : R := if p_ftz P then 0 else 15 * / 2 ^ 52.
Definition gap_b (P : platform) : R := if p_ftz P then 0 else 26 * / 2 ^ 52.
Lemma gap_nonneg P : 0 <= gap_a P /\ 0 <= gap_b P.
Proof. unfold gap_a, gap_b. destruct (p_ftz P); lra. Qed.
Definition noise_a P W := 460 * (u * W) + tiny + gap_a P.
Definition noise_b P W := 1520 * (u * W) + tiny + gap_b P.
Lemma gap_sum P C1 C2 C3 C4 c1 c2 c3 c4 st S : Rabs c1 <= C1 -> Rabs c2 <= C2 -> Rabs c3 <= C3 -> Rabs c4 <= C4 -> cells P st S ->
  Rabs (c1 * (v1 S - real (v1 st)) + c2 * (v2 S - real (v2 st)) + c3 * (v3 S - real (v3 st)) + c4 * (v4 S - real (v4 st))) <= (if p_ftz P then 0 else (C1 + C2 + C3 + C4) * / 2 ^ 52).
Proof.
  intros H1 H2 H3 H4 (G1 & G2 & G3 & G4). apply cell_gap in G1, G2, G3, G4. apply (size_of _ _ _ _ H1) in G1. apply (size_of _ _ _ _ H2) in G2. apply (size_of _ _ _ _ H3) in G3. apply (size_of _ _ _ _ H4) in G4.
  eapply Rle_trans; [apply Rabs_triang|]. eapply Rle_trans; [apply Rplus_le_compat_r, Rabs_triang|]. eapply Rle_trans; [apply Rplus_le_compat_r, Rplus_le_compat_r, Rabs_triang|].
  destruct (p_ftz P); lra.
Qed.
Lemma cell_size P v r W : cell P v r -> Rabs r <= W -> Rabs (real v) <= W.
Proof. intros [<-|(_ & -> & _)] H; auto. rewrite Rabs_R0. pose proof (Rabs_pos r). lra. Qed.
Section Runs.
Variables (P : platform) (b a : arr5 f64) (rate : N) (M W : R).
Hypothesis HR : audio_rate rate.
Let B := fst (coefficientsR (coeff_inputsR (IZR (Z.of_N rate)))).
Let A := snd (coefficientsR (coeff_inputsR (IZR (Z.of_N rate)))).
Hypothesis HB : sharp_b b B.
Hypothesis HA : sharp_a a A.
Hypothesis HM : 0 <= M.
Hypothesis HW : W <= 2 ^ 900.
Hypothesis HMW : (M + noise_a P W) * swell rate <= W.
Lemma W_nonneg : 0 <= W.
Proof.
  destruct (Rle_lt_dec 0 W); auto. exfalso. pose proof (swell_range rate HR) as (S1 & S2). destruct (gap_nonneg P) as (G & _). pose proof tiny_pos. pose proof u_value. pose proof u_pos. unfold noise_a in HMW.
  assert (460 * (u * W) * swell rate >= 460 * (u * W) * 230000000000).
  { apply Rle_ge. assert (0 <= 460 * (u * - W)) by nra. assert (460 * (u * - W) * swell rate <= 460 * (u * - W) * 230000000000) by (apply Rmult_le_compat_l; lra). lra. }
  assert (0 <= (M + tiny + gap_a P) * swell rate) by (apply Rmult_le_pos; lra). nra.
Qed.
Lemma noise_a_nonneg : 0 <= noise_a P W.
Proof. pose proof W_nonneg. unfold noise_a. pose proof tiny_pos. destruct (gap_nonneg P). pose proof u_pos. nra. Qed.
Lemma M_W : M <= W.
Proof. pose proof noise_a_nonneg. pose proof (swell_range rate HR) as (S1 & S2). nra. Qed.
Definition follows (xs ys : list f64) (st : arr5 f64) : Prop :=
  exists ds es, length ds = length xs /\ length es = length xs /\ Forall (fun d => Rabs d <= noise_a P W) ds /\ Forall (fun e => Rabs e <= noise_b P W) es /\
    cells P st (fst (filter_run arR B A rest (map2 Rplus (map real xs) ds))) /\ snd (filter_run arR B A rest (map2 Rplus (map real xs) ds)) = map2 Rminus (map real ys) es.
Definition good (xs ys : list f64) (st : arr5 f64) : Prop :=
  length ys = length xs /\ samples_below M xs /\ Forall (fun y => is_finite y = true) ys /\ sound st /\ follows xs ys st.
Lemma in_map2 (f : R -> R -> R) l m x : In x (map2 f l m) -> exists y z, In y l /\ In z m /\ x = f y z.
Proof. revert m. induction l as [|y l IH]; intros [|z m]; cbn; try tauto. intros [<-|H]; [eauto 8|]. destruct (IH _ H) as (y' & z' & ? & ? & ?). eauto 8. Qed.
Lemma noisy_below xs ds : samples_below M xs -> Forall (fun d => Rabs d <= noise_a P W) ds -> forall x, In x (map2 Rplus (map real xs) ds) -> Rabs x <= M + noise_a P W.
Proof.
  intros HX HD x H. destruct (in_map2 _ _ _ _ H) as (y & d & Hy & Hd & ->). apply in_map_iff in Hy. destruct Hy as (z & <- & Hz).
  unfold samples_below in HX. rewrite Forall_forall in HX, HD. destruct (HX z Hz) as (_ & X). specialize (HD d Hd). eapply Rle_trans; [apply Rabs_triang|]. lra.
Qed.
Lemma noisy_kept xs ds : samples_below M xs -> Forall (fun d => Rabs d <= noise_a P W) ds -> let S := fst (filter_run arR B A rest (map2 Rplus (map real xs) ds)) in
  Rabs (v1 S) <= W /\ Rabs (v2 S) <= W /\ Rabs (v3 S) <= W /\ Rabs (v4 S) <= W.
Proof.
  intros HX HD. pose proof noise_a_nonneg. pose proof (kept_swell rate HR (map2 Rplus (map real xs) ds) (M + noise_a P W) ltac:(lra) (noisy_below xs ds HX HD)) as K. fold B A in K. cbv zeta in *. lra.
Qed.
Lemma good_step xs ys st x : good xs ys st -> is_finite x = true -> Rabs (real x) <= M ->
  good (xs ++ [x]) (ys ++ [snd (filter_step (ar64_ftz P) b a st x)]) (fst (filter_step (ar64_ftz P) b a st x)).
Proof.
  intros (HL & HX & HF & HS & (ds & es & L1 & L2 & ND & NE & HC & EY)) Fx Hx. pose proof (noisy_kept xs ds HX ND) as NK. pose proof M_W as MW.
  assert (samples_below M (xs ++ [x])) as HX' by (apply Forall_app; split; auto).
  assert (within W st) as HWI.
  { destruct HC as (C1 & C2 & C3 & C4). cbv zeta in NK. repeat split; [apply (cell_size P _ _ W C1)|apply (cell_size P _ _ W C2)|apply (cell_size P _ _ W C3)|apply (cell_size P _ _ W C4)]; apply NK. }
  pose proof (step_kept P a A W st x HA HS HWI Fx ltac:(lra) HW) as SK. unfold filter_step. cbn [fst snd v0 v1 v2 v3 v4 ar_add ar_mul ar_sub ar64_ftz]. cbv zeta in SK.
  set (s0 := ftz64 P (f64_sub _ (ftz64 P (f64_mul (v4 a) (v4 st))))) in *. destruct SK as (F0 & D0).
  set (S := fst (filter_run arR B A rest (map2 Rplus (map real xs) ds))) in *.
  set (d0 := real s0 - (real x - v1 A * real (v1 st) - v2 A * real (v2 st) - v3 A * real (v3 st) - v4 A * real (v4 st))) in *.
  set (ga := v1 A * (v1 S - real (v1 st)) + v2 A * (v2 S - real (v2 st)) + v3 A * (v3 S - real (v3 st)) + v4 A * (v4 S - real (v4 st))).
  set (gb := v1 B * (v1 S - real (v1 st)) + v2 B * (v2 S - real (v2 st)) + v3 B * (v3 S - real (v3 st)) + v4 B * (v4 S - real (v4 st))).
  assert (Rabs ga <= gap_a P) as GA.
  { destruct HA as ((_ & _ & A1) & (_ & _ & A2) & (_ & _ & A3) & (_ & _ & A4)). pose proof (gap_sum P 4 6 4 1 _ _ _ _ st S A1 A2 A3 A4 HC) as G. fold ga in G. unfold gap_a. destruct (p_ftz P); lra. }
  assert (Rabs gb <= gap_b P) as GB.
  { destruct HB as (_ & (_ & _ & B1) & (_ & _ & B2) & (_ & _ & B3) & (_ & _ & B4)). pose proof (gap_sum P _ _ _ _ _ _ _ _ st S B1 B2 B3 B4 HC) as G. fold gb in G. unfold gap_b. destruct (p_ftz P); lra. }
  assert (Forall (fun d => Rabs d <= noise_a P W) (ds ++ [d0 + ga])) as ND'.
  { apply Forall_app. split; auto. constructor; [|constructor]. unfold noise_a. eapply Rle_trans; [apply Rabs_triang|]. lra. }
  assert (filter_step arR B A S (real x + (d0 + ga)) = ({| v0 := real s0; v1 := real s0; v2 := v1 S; v3 := v2 S; v4 := v3 S |}, v0 B * real s0 + v1 B * v1 S + v2 B * v2 S + v3 B * v3 S + v4 B * v4 S)) as ES.
  { unfold filter_step. cbn [v0 v1 v2 v3 v4 ar_add ar_mul ar_sub arR]. match goal with |- context [{| v0 := ?p; v1 := _; v2 := _; v3 := _; v4 := _ |}] => replace p with (real s0) by (unfold d0, ga; ring) end. reflexivity. }
  assert (map2 Rplus (map real (xs ++ [x])) (ds ++ [d0 + ga]) = map2 Rplus (map real xs) ds ++ [real x + (d0 + ga)]) as EI.
  { rewrite map_app, map2_app by (rewrite map_length; auto). reflexivity. }
  assert (filter_run arR B A rest (map2 Rplus (map real (xs ++ [x])) (ds ++ [d0 + ga])) =
    ({| v0 := real s0; v1 := real s0; v2 := v1 S; v3 := v2 S; v4 := v3 S |}, snd (filter_run arR B A rest (map2 Rplus (map real xs) ds)) ++ [v0 B * real s0 + v1 B * v1 S + v2 B * v2 S + v3 B * v3 S + v4 B * v4 S])) as ER.
  { rewrite EI, filter_run_app. clear - ES. unfold S in *. clear S. destruct (filter_run arR B A rest (map2 Rplus (map real xs) ds)) as (S', Y). cbn [fst snd] in *. cbn [filter_run]. rewrite ES. reflexivity. }
  pose proof (noisy_kept (xs ++ [x]) (ds ++ [d0 + ga]) HX' ND') as NK'. rewrite ER in NK'. cbv zeta in NK'. cbn [fst v1] in NK'. destruct NK' as (K0 & _).
  pose proof (step_out P b B W st s0 HB HS HWI F0 K0 HW) as SO. cbv zeta in SO.
  set (y := ftz64 P (f64_add _ (ftz64 P (f64_mul (v4 b) (v4 st))))) in *. destruct SO as (Fy & Dy).
  set (e0 := real y - (v0 B * real s0 + v1 B * real (v1 st) + v2 B * real (v2 st) + v3 B * real (v3 st) + v4 B * real (v4 st))) in *.
  clearbody s0 y. split; [rewrite !app_length; cbn; congruence|]. split; [exact HX'|]. split; [apply Forall_app; auto|]. split; [destruct HS as (F1 & F2 & F3 & F4); repeat split; auto|].
  exists (ds ++ [d0 + ga]), (es ++ [e0 + - gb]). rewrite !app_length. cbn [length]. do 2 (split; [congruence|]). split; [exact ND'|]. split.
  { apply Forall_app. split; auto. constructor; [|constructor]. unfold noise_b. eapply Rle_trans; [apply Rabs_triang|]. rewrite Rabs_Ropp. lra. }
  rewrite ER. cbn [fst snd]. split.
  { destruct HC as (C1 & C2 & C3 & C4). repeat split; auto. now left. }
  rewrite EY, map_app, map2_app by (rewrite map_length; congruence). cbn [map map2]. do 2 f_equal. unfold e0, gb. ring.
Qed.
Lemma good_run : forall zs xs ys st, good xs ys st -> samples_below M zs ->
  good (xs ++ zs) (ys ++ snd (filter_run (ar64_ftz P) b a st zs)) (fst (filter_run (ar64_ftz P) b a st zs)).
Proof.
  induction zs as [|z zs IH]; intros xs ys st G Hz; [cbn [filter_run fst snd]; now rewrite !app_nil_r|].
  apply Forall_cons_iff in Hz. destruct Hz as ((Fz & Bz) & Hz). pose proof (good_step xs ys st z G Fz Bz) as G1. cbn [filter_run].
  destruct (filter_step (ar64_ftz P) b a st z) as (st1, y). cbn [fst snd] in G1. specialize (IH _ _ _ G1 Hz).
  destruct (filter_run (ar64_ftz P) b a st1 zs) as (st2, zs'). cbn [fst snd] in *. rewrite <- !app_assoc in IH. exact IH.
Qed.
Lemma eps_finite v : is_finite v = true -> is_finite (eps_flush v) = true.
Proof. unfold eps_flush. destruct (f64_lt _ _); auto. Qed.
Lemma good_flush xs ys st : good xs ys st -> good xs ys (flush_state P st).
Proof.
  intros (HL & HX & HF & HS & (ds & es & L1 & L2 & ND & NE & HC & EY)). do 3 (split; [auto|]). split.
  - unfold flush_state. destruct (p_ftz P); auto. destruct HS as (F1 & F2 & F3 & F4). repeat split; cbn [v1 v2 v3 v4]; now apply eps_finite.
  - exists ds, es. do 4 (split; [auto|]). split; [now apply cells_flush|auto].
Qed.
Lemma good_start : good [] [] zero5.
Proof.
  do 3 (split; [solve [auto|constructor]|]). split; [repeat split; reflexivity|]. exists [], []. do 4 (split; [solve [auto|constructor]|]). split; [|reflexivity]. repeat split; now left.
Qed.
(** the outputs themselves *)
Lemma follows_near xs ys st : good xs ys st -> forall n, (n < length xs)%nat ->
  Rabs (real (nth n ys f64_zero) - nth n (outputsR B A (map real xs)) 0) <= 19.5 * noise_a P W + noise_b P W.
Proof.
  intros (HL & HX & HF & HS & (ds & es & L1 & L2 & ND & NE & HC & EY)) n Hn.
  change (snd (filter_run arR B A rest (map2 Rplus (map real xs) ds))) with (outputsR B A (map2 Rplus (map real xs) ds)) in EY. rewrite Heard_proofs.outputs_sum in EY by (rewrite map_length; congruence).
  assert (length (outputsR B A (map real xs)) = length xs) as LX by (unfold outputsR; rewrite filter_run_length, map_length; reflexivity).
  assert (length (outputsR B A ds) = length xs) as LD by (unfold outputsR; rewrite filter_run_length; congruence).
  apply (f_equal (fun l => nth n l 0)) in EY. rewrite !Heard_proofs.nth_map2 in EY by (rewrite ?map_length; lia).
  rewrite (nth_indep (map real ys) 0 (real f64_zero)) in EY by (rewrite map_length; lia). rewrite (map_nth real) in EY.
  assert (Rabs (nth n es 0) <= noise_b P W) as NE' by (rewrite Forall_forall in NE; apply NE, nth_In; lia).
  assert (Rabs (nth n (outputsR B A ds) 0) <= 19.5 * noise_a P W) as ND'.
  { apply (output_19 rate HR ds (noise_a P W)); [apply noise_a_nonneg|now apply Forall_forall|apply nth_In; fold B A; lia]. }
  replace (real (nth n ys f64_zero) - nth n (outputsR B A (map real xs)) 0) with (nth n (outputsR B A ds) 0 + nth n es 0) by lra.
  eapply Rle_trans; [apply Rabs_triang|]. lra.
Qed.
End Runs.

(** * The size of it all *)
Definition room (P : platform) (rate : N) (M : R) : R := 1.02 * swell rate * (M + tiny + gap_a P).
Lemma room_ok P rate M : audio_rate rate -> 0 <= M <= 2 ^ 400 ->
  room P rate M <= 2 ^ 900 /\ (M + noise_a P (room P rate M)) * swell rate <= room P rate M /\
  19.5 * noise_a P (room P rate M) + noise_b P (room P rate M) <= filter_error P rate M.
Proof.
  intros HR (HM0 & HM). pose proof (swell_range rate HR) as (S1 & S2). pose proof tiny_pos as T0. pose proof u_value as U1. pose proof u_pos as U0.
  assert (tiny <= / 2 ^ 10 * / 2 ^ 1000) as T1 by (unfold tiny; replace 1010%nat with (10 + 1000)%nat by lia; rewrite pow_split; lra).
  assert (0 < / 2 ^ 1000) as V0 by (apply Rinv_0_lt_compat, pow_lt; lra).
  assert (/ 2 ^ 1000 <= / 2 ^ 60) as V1 by (apply Rinv_le_contravar; [apply pow_lt; lra|apply Rle_pow; [lra|lia]]).
  assert (0 <= gap_a P <= 15 * / 2 ^ 52) as G by (unfold gap_a; destruct (p_ftz P); lra).
  unfold room, noise_a, noise_b. set (g := tiny + gap_a P). replace (M + tiny + gap_a P) with (M + g) by (unfold g; ring).
  assert (0 < g) as G0 by (unfold g; lra). set (L := swell rate) in *.
  assert (u * L <= 0.0000256) as UL. { assert (u * L <= u * 230000000000) by (apply Rmult_le_compat_l; lra). lra. }
  set (W := 1.02 * L * (M + g)). assert (0 <= W) as W0 by (unfold W; apply Rmult_le_pos; lra).
  split; [|split].
  - unfold W. replace 900%nat with (400 + 500)%nat by lia. rewrite pow_add. assert (1 <= 2 ^ 400) by (apply pow_R1_Rle; lra). assert (2 ^ 50 <= 2 ^ 500) by (apply Rle_pow; [lra|lia]).
    assert (g <= 1) by (unfold g; lra). set (p := 2 ^ 400) in *. set (q := 2 ^ 500) in *. clearbody p q.
    replace (p * q) with (q * p) by ring. apply Rle_trans with (2 ^ 50 * p); [|apply Rmult_le_compat_r; lra].
    apply Rle_trans with (1.02 * 230000000000 * (2 * p)); [|lra]. apply Rmult_le_compat; lra.
  - replace ((M + (460 * (u * W) + tiny + gap_a P)) * L) with (L * (M + g) + 460 * (u * L) * W) by (unfold g; ring).
    assert (460 * (u * L) * W <= 0.0118 * W) by (apply Rmult_le_compat_r; lra). replace (L * (M + g)) with (W / 1.02) by (unfold W; lra). lra.
  - replace (19.5 * (460 * (u * W) + tiny + gap_a P) + (1520 * (u * W) + tiny + gap_b P)) with (10490 * u * W + 20.5 * tiny + (19.5 * gap_a P + gap_b P)) by lra.
    replace W with (1.02 * L * M + 1.02 * L * g) by (unfold W; lra).
    assert (10490 * u * (1.02 * L * g) <= 0.28 * g) as X1. { replace (10490 * u * (1.02 * L * g)) with (10490 * 1.02 * (u * L) * g) by lra. apply Rmult_le_compat_r; lra. }
    assert (10490 * u * (1.02 * L * M) <= 4.2 / 10 ^ 6 * (IZR (Z.of_N rate) / 48000) ^ 4 * M) as X2.
    { unfold L, swell. set (s := (IZR (Z.of_N rate) / 48000) ^ 4). assert (0 <= s) by (unfold s; apply pow_le; pose proof (audio_real rate HR); lra).
      replace (10490 * u * (1.02 * (3450000 * s) * M)) with ((10490 * 1.02 * 3450000 * u) * (s * M)) by lra. replace (4.2 / 10 ^ 6 * s * M) with (4.2 / 10 ^ 6 * (s * M)) by lra.
      apply Rmult_le_compat_r; [nra|]. lra. }
    unfold filter_error. assert (20.5 * tiny + (19.5 * gap_a P + gap_b P) + 0.28 * g <= (if p_ftz P then / 2 ^ 1000 else / 2 ^ 43)); [|lra].
    unfold g, gap_a, gap_b in *. set (v := / 2 ^ 1000) in *. clearbody v. destruct (p_ftz P); lra.
Qed.
