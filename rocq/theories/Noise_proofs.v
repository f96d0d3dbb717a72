(** Rounding errors of the weighting filter, one step at a time. *)
From Coq Require Import List Arith NArith ZArith Bool Lia Reals Lra Psatz Floats.SpecFloat.
From Flocq Require Import Core IEEE754.BinarySingleNaN.
From Verif Require Import Prelude Float Env Utils Filter Ebur128 Spec Float_proofs Spec_real Spec_filter Spec_coeff Accuracy_proofs Lufs_proofs Kweight_proofs Coeff_proofs Peak_proofs Table_proofs Filter_proofs.
Import ListNotations.
Local Open Scope R_scope.

Definition tiny : R := / 2 ^ 1010.
Lemma tiny_pos : 0 < tiny. Proof. apply Rinv_0_lt_compat, pow_lt. lra. Qed.
Lemma pow_split (a b : nat) : / 2 ^ (a + b) = / 2 ^ a * / 2 ^ b.
Proof. rewrite pow_add, Rinv_mult. reflexivity. Qed.
Lemma tiny_eta : eta + / 2 ^ 1022 <= tiny * / 2 ^ 10.
Proof.
  unfold underflow, tiny. replace 1075%nat with (1010 + 65)%nat by lia. replace 1022%nat with (1010 + 12)%nat by lia. rewrite !pow_split.
  pose proof tiny_pos. unfold tiny in *. set (t := / 2 ^ 1010) in *. clearbody t. lra.
Qed.
Lemma flush_near P x : is_finite (ftz64 P x) = is_finite x /\ Rabs (real (ftz64 P x) - real x) <= / 2 ^ 1022.
Proof.
  assert (0 < / 2 ^ 1022) as H0 by (apply Rinv_0_lt_compat, pow_lt; lra).
  assert (Rabs (real x - real x) <= / 2 ^ 1022) as HX by (replace (real x - real x) with 0 by ring; rewrite Rabs_R0; lra).
  unfold ftz64. destruct (p_ftz P); [|auto]. destruct (is_finite x) eqn:F; [|destruct x; try discriminate F; auto].
  assert (bpow radix2 (-1022) = / 2 ^ 1022) as EB.
  { change (-1022)%Z with (- Z.of_nat 1022)%Z. rewrite bpow_opp. f_equal. rewrite bpow_powerRZ, <- pow_powerRZ. reflexivity. }
  destruct (Rle_dec (bpow radix2 (-1022)) (Rabs (B2R x))) as [L|L]; [rewrite flush64_normal; auto|].
  destruct x as [s|s| |s m e He]; try discriminate F; auto. unfold flush64. destruct (Z.pos m <? 2 ^ 52)%Z; auto.
  split; auto. unfold real. cbn [B2R] in *. rewrite Rminus_0_l, Rabs_Ropp. rewrite <- EB. apply Rlt_le, Rnot_le_lt, L.
Qed.
(** one multiplication with a coefficient *)
Lemma mul_step P a s A W : is_finite (ftz64 P (f64_mul a s)) = true -> Rabs (real s) <= W -> Rabs (real a - A) <= 65536 * u -> Rabs A <= 60 ->
  is_finite s = true /\ Rabs (real (ftz64 P (f64_mul a s)) - A * real s) <= 65600 * u * W + tiny * / 2 ^ 10.
Proof.
  intros F HW Ha HA. pose proof u_value as Hu. pose proof u_pos. destruct (flush_near P (f64_mul a s)) as (F1 & N1). rewrite F in F1. symmetry in F1.
  destruct (mul_fin a s F1) as (Fa & Fs & E1). split; auto. pose proof (rnd_error (B2R a * B2R s)) as R. rewrite <- E1 in R. fold (real a) (real s) in R.
  pose proof tiny_eta. set (r := real (ftz64 P (f64_mul a s))) in *. set (m := real (f64_mul a s)) in *. set (x := real s) in *. set (c := real a) in *. clearbody r m x c.
  assert (Rabs c <= 61) as Hc. { replace c with (A + (c - A)) by ring. eapply Rle_trans; [apply Rabs_triang|]. lra. }
  assert (Rabs (c * x) <= 61 * W) as Hx. { rewrite Rabs_mult. apply Rmult_le_compat; auto using Rabs_pos. }
  assert (Rabs (c * x - A * x) <= 65536 * u * W) as Hd. { replace (c * x - A * x) with ((c - A) * x) by ring. rewrite Rabs_mult. apply Rmult_le_compat; auto using Rabs_pos. }
  pose proof (Rabs_pos x). assert (u * Rabs (c * x) <= u * (61 * W)) by (apply Rmult_le_compat_l; lra). assert (0 <= u * W) by nra.
  replace (r - A * x) with ((r - m) + (m - c * x) + (c * x - A * x)) by ring.
  eapply Rle_trans; [apply Rabs_triang|]. eapply Rle_trans; [apply Rplus_le_compat_r, Rabs_triang|]. lra.
Qed.
(** one subtraction or addition of such a product *)
Lemma sum_step (r t z m : R) W B : Rabs (r - (t + z)) <= u * Rabs (t + z) + tiny * / 2 ^ 10 -> Rabs t <= B -> Rabs (z - m) <= 65600 * u * W + tiny * / 2 ^ 10 -> Rabs m <= 60 * W ->
  0 <= W -> B <= 400 * W + tiny -> Rabs (r - (t + m)) <= 66200 * u * W + tiny * / 2 ^ 8 /\ Rabs r <= B + 61 * W + tiny * / 2 ^ 8.
Proof.
  intros H Ht Hz Hm HW HB. pose proof u_value as Hu. pose proof u_pos. pose proof tiny_pos.
  assert (0 <= u * W) by nra. assert (0 <= u * tiny) by nra.
  assert (u * W <= W / 9007199254740992) by (replace W with ((u * 9007199254740992) * W) at 2 by (rewrite Hu; ring); lra).
  assert (u * tiny <= tiny / 9007199254740992) by (replace tiny with ((u * 9007199254740992) * tiny) at 2 by (rewrite Hu; ring); lra).
  assert (Rabs z <= 61 * W + tiny * / 2 ^ 9) as Az. { replace z with (m + (z - m)) by ring. eapply Rle_trans; [apply Rabs_triang|]. lra. }
  assert (Rabs (t + z) <= 461 * W + 2 * tiny) as Atz. { eapply Rle_trans; [apply Rabs_triang|]. lra. }
  assert (u * Rabs (t + z) <= u * (461 * W + 2 * tiny)) by (apply Rmult_le_compat_l; lra).
  assert (Rabs (r - (t + m)) <= 66200 * u * W + tiny * / 2 ^ 8) as A.
  { replace (r - (t + m)) with ((r - (t + z)) + (z - m)) by ring. eapply Rle_trans; [apply Rabs_triang|]. lra. }
  split; auto. replace r with ((r - (t + m)) + t + m) by ring. eapply Rle_trans; [apply Rabs_triang|]. eapply Rle_trans; [apply Rplus_le_compat_r, Rabs_triang|]. lra.
Qed.

Lemma sub_step P t a s A W B : is_finite (ftz64 P (f64_sub t (ftz64 P (f64_mul a s)))) = true -> Rabs (real s) <= W -> Rabs (real a - A) <= 65536 * u -> Rabs A <= 60 ->
  Rabs (real t) <= B -> B <= 400 * W + tiny ->
  let r := real (ftz64 P (f64_sub t (ftz64 P (f64_mul a s)))) in
  is_finite t = true /\ is_finite s = true /\ Rabs (r - (real t - A * real s)) <= 66200 * u * W + tiny * / 2 ^ 8 /\ Rabs r <= B + 61 * W + tiny * / 2 ^ 8.
Proof.
  intros F HW Ha HA Ht HB r. set (z := ftz64 P (f64_mul a s)) in *. destruct (flush_near P (f64_sub t z)) as (F1 & N1). rewrite F in F1. symmetry in F1.
  assert (is_finite t = true /\ is_finite z = true /\ real (f64_sub t z) = rnd64 (B2R t - B2R z)) as (Ft & Fz & E).
  { assert (is_finite t = true /\ is_finite z = true) as (X & Y).
    { unfold f64_sub in F1. clear - F1. clearbody z. destruct t as [t0|t0| |t0 m e B1], z as [s'|s'| |s' m' e' B']; cbn in F1; try discriminate; auto; destruct (Bool.eqb _ _); discriminate. }
    split; auto. split; auto. pose proof (Bminus_correct 53 1024 Hprec64 Hmax64 mode_NE t z X Y) as C. unfold f64_sub in *. destruct (Rlt_bool _ _); [apply C|].
    destruct C as (C & _). apply overflow_inf in C. congruence. }
  destruct (mul_step P a s A W Fz HW Ha HA) as (Fs & Hz). fold z in Hz. split; auto. split; auto.
  pose proof (rnd_error (B2R t - B2R z)) as R. rewrite <- E in R. fold (real t) (real z) in R. pose proof tiny_eta. pose proof (Rabs_pos (real s)).
  destruct (sum_step r (real t) (- real z) (- (A * real s)) W B) as (S1 & S2); auto; try lra.
  - replace (r - (real t + - real z)) with ((r - real (f64_sub t z)) + (real (f64_sub t z) - (real t - real z))) by ring. eapply Rle_trans; [apply Rabs_triang|]. fold r in N1.
    replace (real t + - real z) with (real t - real z) by ring. lra.
  - replace (- real z - - (A * real s)) with (- (real z - A * real s)) by ring. now rewrite Rabs_Ropp.
  - rewrite Rabs_Ropp, Rabs_mult. apply Rmult_le_compat; auto using Rabs_pos.
Qed.
Lemma add_step P t a s A W B : is_finite (ftz64 P (f64_add t (ftz64 P (f64_mul a s)))) = true -> Rabs (real s) <= W -> Rabs (real a - A) <= 65536 * u -> Rabs A <= 60 ->
  Rabs (real t) <= B -> B <= 400 * W + tiny ->
  let r := real (ftz64 P (f64_add t (ftz64 P (f64_mul a s)))) in
  is_finite t = true /\ is_finite s = true /\ Rabs (r - (real t + A * real s)) <= 66200 * u * W + tiny * / 2 ^ 8 /\ Rabs r <= B + 61 * W + tiny * / 2 ^ 8.
Proof.
  intros F HW Ha HA Ht HB r. set (z := ftz64 P (f64_mul a s)) in *. destruct (flush_near P (f64_add t z)) as (F1 & N1). rewrite F in F1. symmetry in F1.
  destruct (add_fin t z F1) as (Ft & Fz & E).
  destruct (mul_step P a s A W Fz HW Ha HA) as (Fs & Hz). fold z in Hz. split; auto. split; auto.
  pose proof (rnd_error (B2R t + B2R z)) as R. rewrite <- E in R. fold (real t) (real z) in R. pose proof tiny_eta. pose proof (Rabs_pos (real s)).
  destruct (sum_step r (real t) (real z) (A * real s) W B) as (S1 & S2); auto; try lra.
  - replace (r - (real t + real z)) with ((r - real (f64_add t z)) + (real (f64_add t z) - (real t + real z))) by ring. eapply Rle_trans; [apply Rabs_triang|]. fold r in N1. lra.
  - rewrite Rabs_mult. apply Rmult_le_compat; auto using Rabs_pos.
Qed.
Lemma sub_finite P t z : is_finite (ftz64 P (f64_sub t z)) = true -> is_finite t = true /\ is_finite z = true.
Proof.
  intros F. rewrite (proj1 (flush_near P (f64_sub t z))) in F. unfold f64_sub in F.
  destruct t as [t0|t0| |t0 m e B1], z as [s'|s'| |s' m' e' B']; cbn in F; try discriminate; auto; destruct (Bool.eqb _ _); discriminate.
Qed.
Lemma add_finite P t z : is_finite (ftz64 P (f64_add t z)) = true -> is_finite t = true /\ is_finite z = true.
Proof. intros F. rewrite (proj1 (flush_near P (f64_add t z))) in F. destruct (add_fin t z F) as (A & B & _). auto. Qed.
Lemma mul_finite P t z : is_finite (ftz64 P (f64_mul t z)) = true -> is_finite t = true /\ is_finite z = true.
Proof. intros F. rewrite (proj1 (flush_near P (f64_mul t z))) in F. destruct (mul_fin t z F) as (A & B & _). auto. Qed.

(** the largest value in the memory *)
Definition largest (c : arr5 f64) : R :=
  Rmax (Rabs (real (v1 c))) (Rmax (Rabs (real (v2 c))) (Rmax (Rabs (real (v3 c))) (Rabs (real (v4 c))))).
Definition as_real (c : arr5 f64) : arr5 R :=
  {| v0 := real (v0 c); v1 := real (v1 c); v2 := real (v2 c); v3 := real (v3 c); v4 := real (v4 c) |}.
Definition noise0 (W : R) : R := / 2 ^ 34 * W + / 2 ^ 1000.
Lemma noise0_bound W x : 0 <= W -> Rabs x <= 331100 * u * W + tiny * / 16 -> Rabs x <= noise0 W.
Proof.
  intros HW H. unfold noise0. pose proof tiny_pos. pose proof u_value as Hu. pose proof u_pos. assert (331100 * u <= / 2 ^ 34) by lra.
  assert (331100 * u * W <= / 2 ^ 34 * W) by (apply Rmult_le_compat_r; lra).
  assert (tiny <= / 2 ^ 1000) as T. { unfold tiny. apply Rinv_le_contravar; [apply pow_lt; lra|]. apply Rle_pow; [lra|lia]. }
  set (v := / 2 ^ 1000) in *. clearbody v. lra.
Qed.

(** one step with coefficients near [B], [A]: the exact filter with noise at its input and output *)
Lemma step_noise P b a B A W st x : close5 b B -> close5 a A -> is_finite (snd (filter_step (ar64_ftz P) b a st x)) = true ->
  Rabs (real x) <= W -> largest st <= W -> Rabs (real (v0 (fst (filter_step (ar64_ftz P) b a st x)))) <= W ->
  exists d e, Rabs d <= noise0 W /\ Rabs e <= noise0 W /\
    filter_step arR B A (as_real st) (real x + d) = (as_real (fst (filter_step (ar64_ftz P) b a st x)), real (snd (filter_step (ar64_ftz P) b a st x)) - e).
Proof.
  intros (Hb0 & Hb1 & Hb2 & Hb3 & Hb4) (Ha0 & Ha1 & Ha2 & Ha3 & Ha4). unfold filter_step, largest, as_real. cbn [fst snd v0 v1 v2 v3 v4 ar_add ar_mul ar_sub ar64_ftz arR].
  destruct Ha1 as (_ & Ea1 & Ga1), Ha2 as (_ & Ea2 & Ga2), Ha3 as (_ & Ea3 & Ga3), Ha4 as (_ & Ea4 & Ga4).
  destruct Hb0 as (_ & Eb0 & Gb0), Hb1 as (_ & Eb1 & Gb1), Hb2 as (_ & Eb2 & Gb2), Hb3 as (_ & Eb3 & Gb3), Hb4 as (_ & Eb4 & Gb4).
  set (t1 := ftz64 P (f64_sub x (ftz64 P (f64_mul (v1 a) (v1 st))))). set (t2 := ftz64 P (f64_sub t1 (ftz64 P (f64_mul (v2 a) (v2 st))))).
  set (t3 := ftz64 P (f64_sub t2 (ftz64 P (f64_mul (v3 a) (v3 st))))). set (s0 := ftz64 P (f64_sub t3 (ftz64 P (f64_mul (v4 a) (v4 st))))).
  set (y0 := ftz64 P (f64_mul (v0 b) s0)). set (y1 := ftz64 P (f64_add y0 (ftz64 P (f64_mul (v1 b) (v1 st))))). set (y2 := ftz64 P (f64_add y1 (ftz64 P (f64_mul (v2 b) (v2 st))))).
  set (y3 := ftz64 P (f64_add y2 (ftz64 P (f64_mul (v3 b) (v3 st))))). set (y := ftz64 P (f64_add y3 (ftz64 P (f64_mul (v4 b) (v4 st))))).
  intros Fy Hx HM HM'.
  destruct (add_finite P _ _ Fy) as (Fy3 & _). destruct (add_finite P _ _ Fy3) as (Fy2 & _). destruct (add_finite P _ _ Fy2) as (Fy1 & _). destruct (add_finite P _ _ Fy1) as (Fy0 & _).
  destruct (mul_finite P _ _ Fy0) as (_ & Fs0). destruct (sub_finite P _ _ Fs0) as (Ft3 & _). destruct (sub_finite P _ _ Ft3) as (Ft2 & _). destruct (sub_finite P _ _ Ft2) as (Ft1 & _).
  assert (Rabs (real (v1 st)) <= W /\ Rabs (real (v2 st)) <= W /\ Rabs (real (v3 st)) <= W /\ Rabs (real (v4 st)) <= W) as (M1 & M2 & M3 & M4).
  { repeat split; eapply Rle_trans; try exact HM; repeat (try apply Rmax_l; (eapply Rle_trans; [|apply Rmax_r])); try apply Rmax_l; apply Rle_refl. }
  rename HM' into M0.
  clear HM. pose proof (Rabs_pos (real x)) as Px. pose proof tiny_pos as Pt. pose proof u_pos as Pu. assert (0 <= W) as HW by lra. assert (0 <= u * W) by nra.
  destruct (sub_step P x _ _ (v1 A) W W Ft1 M1 Ea1 Ga1 Hx ltac:(lra)) as (_ & _ & D1 & N1). fold t1 in D1, N1.
  destruct (sub_step P t1 _ _ (v2 A) W _ Ft2 M2 Ea2 Ga2 N1 ltac:(lra)) as (_ & _ & D2 & N2). fold t2 in D2, N2.
  destruct (sub_step P t2 _ _ (v3 A) W _ Ft3 M3 Ea3 Ga3 N2 ltac:(lra)) as (_ & _ & D3 & N3). fold t3 in D3, N3.
  destruct (sub_step P t3 _ _ (v4 A) W _ Fs0 M4 Ea4 Ga4 N3 ltac:(lra)) as (_ & _ & D4 & _). fold s0 in D4.
  destruct (mul_step P _ _ (v0 B) W Fy0 M0 Eb0 Gb0) as (_ & D5). fold y0 in D5.
  assert (Rabs (real y0) <= 61 * W + tiny * / 2 ^ 8) as N5.
  { assert (Rabs (v0 B * real s0) <= 60 * W) by (rewrite Rabs_mult; apply Rmult_le_compat; auto using Rabs_pos). replace (real y0) with (v0 B * real s0 + (real y0 - v0 B * real s0)) by ring.
    pose proof u_value. assert (65600 * (u * W) <= W) by nra. eapply Rle_trans; [apply Rabs_triang|]. lra. }
  destruct (add_step P y0 _ _ (v1 B) W _ Fy1 M1 Eb1 Gb1 N5 ltac:(lra)) as (_ & _ & D6 & N6). fold y1 in D6, N6.
  destruct (add_step P y1 _ _ (v2 B) W _ Fy2 M2 Eb2 Gb2 N6 ltac:(lra)) as (_ & _ & D7 & N7). fold y2 in D7, N7.
  destruct (add_step P y2 _ _ (v3 B) W _ Fy3 M3 Eb3 Gb3 N7 ltac:(lra)) as (_ & _ & D8 & N8). fold y3 in D8, N8.
  destruct (add_step P y3 _ _ (v4 B) W _ Fy M4 Eb4 Gb4 N8 ltac:(lra)) as (_ & _ & D9 & _). fold y in D9.
  clearbody t1 t2 t3 s0 y0 y1 y2 y3 y.
  exists (real s0 - (real x - v1 A * real (v1 st) - v2 A * real (v2 st) - v3 A * real (v3 st) - v4 A * real (v4 st))).
  exists (real y - (v0 B * real s0 + v1 B * real (v1 st) + v2 B * real (v2 st) + v3 B * real (v3 st) + v4 B * real (v4 st))).
  split; [|split].
  - apply noise0_bound; auto.
    replace (real s0 - (real x - v1 A * real (v1 st) - v2 A * real (v2 st) - v3 A * real (v3 st) - v4 A * real (v4 st))) with
      ((real s0 - (real t3 - v4 A * real (v4 st))) + (real t3 - (real t2 - v3 A * real (v3 st))) + (real t2 - (real t1 - v2 A * real (v2 st))) + (real t1 - (real x - v1 A * real (v1 st)))) by ring.
    eapply Rle_trans; [apply Rabs_triang|]. eapply Rle_trans; [apply Rplus_le_compat_r, Rabs_triang|]. eapply Rle_trans; [apply Rplus_le_compat_r, Rplus_le_compat_r, Rabs_triang|]. lra.
  - apply noise0_bound; auto.
    replace (real y - (v0 B * real s0 + v1 B * real (v1 st) + v2 B * real (v2 st) + v3 B * real (v3 st) + v4 B * real (v4 st))) with
      ((real y - (real y3 + v4 B * real (v4 st))) + (real y3 - (real y2 + v3 B * real (v3 st))) + (real y2 - (real y1 + v2 B * real (v2 st))) + (real y1 - (real y0 + v1 B * real (v1 st))) + (real y0 - v0 B * real s0)) by ring.
    eapply Rle_trans; [apply Rabs_triang|]. eapply Rle_trans; [apply Rplus_le_compat_r, Rabs_triang|]. eapply Rle_trans; [apply Rplus_le_compat_r, Rplus_le_compat_r, Rabs_triang|].
    eapply Rle_trans; [apply Rplus_le_compat_r, Rplus_le_compat_r, Rplus_le_compat_r, Rabs_triang|]. lra.
  - match goal with |- ({| v0 := ?p; v1 := _; v2 := _; v3 := _; v4 := _ |}, _) = _ => replace p with (real s0) by ring end. f_equal. ring.
Qed.

(** * Flushed values *)
Definition cell (P : platform) (v : f64) (r : R) : Prop := real v = r \/ (p_ftz P = false /\ real v = 0 /\ Rabs r <= / 2 ^ 52).
Definition cells (P : platform) (st : arr5 f64) (S : arr5 R) : Prop :=
  cell P (v1 st) (v1 S) /\ cell P (v2 st) (v2 S) /\ cell P (v3 st) (v3 S) /\ cell P (v4 st) (v4 S).
Lemma cell_gap P v r : cell P v r -> Rabs (r - real v) <= (if p_ftz P then 0 else / 2 ^ 52).
Proof.
  intros [<-|(E & Z & L)].
  - replace (real v - real v) with 0 by ring. rewrite Rabs_R0. destruct (p_ftz P); lra.
  - rewrite E, Z, Rminus_0_r. exact L.
Qed.
Lemma gap_bound P A v r : Rabs A <= 60 -> cell P v r -> Rabs (A * (r - real v)) <= (if p_ftz P then 0 else 60 * / 2 ^ 52).
Proof.
  intros HA H. apply cell_gap in H. rewrite Rabs_mult. assert (Rabs A * Rabs (r - real v) <= 60 * (if p_ftz P then 0 else / 2 ^ 52)) by (apply Rmult_le_compat; auto using Rabs_pos).
  destruct (p_ftz P); lra.
Qed.
Lemma noise_more P W x y : Rabs x <= noise0 W -> Rabs y <= (if p_ftz P then 0 else 240 * / 2 ^ 52) -> Rabs (x + y) <= noise P W.
Proof.
  intros H1 H2. eapply Rle_trans; [apply Rabs_triang|]. unfold noise, noise0 in *. destruct (p_ftz P).
  - set (v := / 2 ^ 1000) in *. clearbody v. lra.
  - assert (/ 2 ^ 1000 <= / 2 ^ 50) as T. { apply Rinv_le_contravar; [apply pow_lt; lra|]. apply Rle_pow; [lra|lia]. }
    set (v := / 2 ^ 1000) in *. clearbody v. lra.
Qed.
Lemma gaps P (A : arr5 R) st S : Rabs (v1 A) <= 60 -> Rabs (v2 A) <= 60 -> Rabs (v3 A) <= 60 -> Rabs (v4 A) <= 60 -> cells P st S ->
  Rabs (v1 A * (v1 S - real (v1 st)) + v2 A * (v2 S - real (v2 st)) + v3 A * (v3 S - real (v3 st)) + v4 A * (v4 S - real (v4 st))) <= (if p_ftz P then 0 else 240 * / 2 ^ 52).
Proof.
  intros H1 H2 H3 H4 (C1 & C2 & C3 & C4). apply (gap_bound P _ _ _ H1) in C1. apply (gap_bound P _ _ _ H2) in C2. apply (gap_bound P _ _ _ H3) in C3. apply (gap_bound P _ _ _ H4) in C4.
  eapply Rle_trans; [apply Rabs_triang|]. eapply Rle_trans; [apply Rplus_le_compat_r, Rabs_triang|]. eapply Rle_trans; [apply Rplus_le_compat_r, Rplus_le_compat_r, Rabs_triang|].
  destruct (p_ftz P); lra.
Qed.
Lemma close_bounds c C : close5 c C -> Rabs (v1 C) <= 60 /\ Rabs (v2 C) <= 60 /\ Rabs (v3 C) <= 60 /\ Rabs (v4 C) <= 60.
Proof. intros (_ & (_ & _ & H1) & (_ & _ & H2) & (_ & _ & H3) & (_ & _ & H4)). auto. Qed.
Lemma step_cells P b a B A W st S x : close5 b B -> close5 a A -> cells P st S -> is_finite (snd (filter_step (ar64_ftz P) b a st x)) = true ->
  Rabs (real x) <= W -> largest st <= W -> Rabs (real (v0 (fst (filter_step (ar64_ftz P) b a st x)))) <= W ->
  exists d e, Rabs d <= noise P W /\ Rabs e <= noise P W /\
    cells P (fst (filter_step (ar64_ftz P) b a st x)) (fst (filter_step arR B A S (real x + d))) /\
    snd (filter_step arR B A S (real x + d)) = real (snd (filter_step (ar64_ftz P) b a st x)) - e.
Proof.
  intros HB HA HC F Hx HM H0. destruct (step_noise P b a B A W st x HB HA F Hx HM H0) as (d & e & Nd & Ne & E).
  destruct (close_bounds _ _ HA) as (A1 & A2 & A3 & A4). destruct (close_bounds _ _ HB) as (B1 & B2 & B3 & B4).
  pose proof (gaps P A st S A1 A2 A3 A4 HC) as GA. pose proof (gaps P B st S B1 B2 B3 B4 HC) as GB.
  set (ga := v1 A * (v1 S - real (v1 st)) + v2 A * (v2 S - real (v2 st)) + v3 A * (v3 S - real (v3 st)) + v4 A * (v4 S - real (v4 st))) in *.
  set (gb := v1 B * (v1 S - real (v1 st)) + v2 B * (v2 S - real (v2 st)) + v3 B * (v3 S - real (v3 st)) + v4 B * (v4 S - real (v4 st))) in *.
  exists (d + ga), (e + - gb). split; [apply noise_more; auto|]. split; [apply noise_more; auto; now rewrite Rabs_Ropp|].
  set (y := snd (filter_step (ar64_ftz P) b a st x)) in *. set (st' := fst (filter_step (ar64_ftz P) b a st x)) in *.
  assert (v1 st' = v0 st' /\ v2 st' = v1 st /\ v3 st' = v2 st /\ v4 st' = v3 st) as (E1 & E2 & E3 & E4) by (unfold st'; repeat split; reflexivity).
  clearbody y st'. unfold filter_step, as_real in E. cbn [fst snd v0 v1 v2 v3 v4 ar_add ar_mul ar_sub arR] in E. injection E as S0 S1 S2 S3 S4 SY.
  unfold filter_step. cbn [fst snd v0 v1 v2 v3 v4 ar_add ar_mul ar_sub arR]. unfold cells. cbn [v0 v1 v2 v3 v4].
  assert (real x + (d + ga) - v1 A * v1 S - v2 A * v2 S - v3 A * v3 S - v4 A * v4 S = real (v0 st')) as EQ by (rewrite <- S0; unfold ga; ring).
  rewrite EQ. split.
  - rewrite E1, E2, E3, E4. destruct HC as (C1 & C2 & C3 & C4). repeat split; auto. now left.
  - rewrite S0 in SY. replace (real y - (e + - gb)) with ((real y - e) + gb) by ring. rewrite <- SY. unfold gb. ring.
Qed.
Lemma largest_step P b a st x W : largest st <= W -> Rabs (real (v0 (fst (filter_step (ar64_ftz P) b a st x)))) <= W ->
  largest (fst (filter_step (ar64_ftz P) b a st x)) <= W.
Proof.
  set (st' := fst (filter_step (ar64_ftz P) b a st x)).
  assert (v1 st' = v0 st' /\ v2 st' = v1 st /\ v3 st' = v2 st /\ v4 st' = v3 st) as (E1 & E2 & E3 & E4) by (unfold st'; repeat split; reflexivity).
  clearbody st'. intros H H0. unfold largest in *. rewrite E1, E2, E3, E4. apply Rmax_lub; auto.
  assert (Rabs (real (v1 st)) <= W) by (eapply Rle_trans; [apply Rmax_l|exact H]).
  assert (Rmax (Rabs (real (v2 st))) (Rmax (Rabs (real (v3 st))) (Rabs (real (v4 st)))) <= W) as H2 by (eapply Rle_trans; [apply Rmax_r|exact H]).
  assert (Rabs (real (v2 st)) <= W) by (eapply Rle_trans; [apply Rmax_l|exact H2]).
  assert (Rmax (Rabs (real (v3 st))) (Rabs (real (v4 st))) <= W) as H5 by (eapply Rle_trans; [apply Rmax_r|exact H2]).
  assert (Rabs (real (v3 st)) <= W) by (eapply Rle_trans; [apply Rmax_l|exact H5]).
  apply Rmax_lub; auto. apply Rmax_lub; auto.
Qed.
(** a run *)
Definition run_ok P (B A : arr5 R) W (S : arr5 R) (xs ys : list f64) (st' : arr5 f64) : Prop :=
  exists ds es, length ds = length xs /\ length es = length xs /\ Forall (fun d => Rabs d <= noise P W) ds /\ Forall (fun e => Rabs e <= noise P W) es /\
    cells P st' (fst (filter_run arR B A S (map2 Rplus (map real xs) ds))) /\ snd (filter_run arR B A S (map2 Rplus (map real xs) ds)) = map2 Rminus (map real ys) es.
Definition bounded (W : R) (l : list f64) : Prop := Forall (fun x => Rabs (real x) <= W) l.
Lemma run_noise P b a B A W : close5 b B -> close5 a A -> forall xs st S, cells P st S -> largest st <= W ->
  Forall (fun y => is_finite y = true) (snd (filter_run (ar64_ftz P) b a st xs)) -> bounded W xs -> bounded W (kept P b a st xs) ->
  run_ok P B A W S xs (snd (filter_run (ar64_ftz P) b a st xs)) (fst (filter_run (ar64_ftz P) b a st xs)) /\ largest (fst (filter_run (ar64_ftz P) b a st xs)) <= W.
Proof.
  intros HB HA. induction xs as [|x xs IH]; intros st S HC HM F HX HK.
  - split; auto. exists [], []. cbn. auto 7.
  - change (kept P b a st (x :: xs)) with (v0 (fst (filter_step (ar64_ftz P) b a st x)) :: kept P b a (fst (filter_step (ar64_ftz P) b a st x)) xs) in HK. apply Forall_cons_iff in HK. destruct HK as (K0 & HK'). apply Forall_cons_iff in HX. destruct HX as (X0 & HX').
    cbn [filter_run] in *. pose proof (step_cells P b a B A W st S x HB HA HC) as ST. pose proof (largest_step P b a st x W HM K0) as LS.
    destruct (filter_step (ar64_ftz P) b a st x) as (st1, y). cbn [fst snd] in *. specialize (IH st1).
    destruct (filter_run (ar64_ftz P) b a st1 xs) as (st2, ys). cbn [fst snd] in *. inversion F as [|? ? F0 F']; subst.
    destruct (ST F0 X0 HM K0) as (d & e & Nd & Ne & C1 & EY). 
    destruct (IH _ C1 LS F' HX' HK') as ((ds & es & L1 & L2 & ND & NE & C2 & EYS) & L3). split; auto.
    exists (d :: ds), (e :: es). cbn [length map map2 filter_run].
    destruct (filter_step arR B A S (real x + d)) as (S1, Y). cbn [fst snd] in *.
    destruct (filter_run arR B A S1 (map2 Rplus (map real xs) ds)) as (S2, YS). cbn [fst snd] in *.
    do 5 (split; [solve [auto]|]). f_equal; auto.
Qed.
Lemma eps_real v : Rabs (real (eps_flush v)) <= Rabs (real v) /\ (real (eps_flush v) = real v \/ real (eps_flush v) = 0 /\ Rabs (real v) <= / 2 ^ 52).
Proof.
  unfold eps_flush. destruct (f64_lt (f64_abs v) f64_epsilon) eqn:L; [|split; [lra|now left]].
  assert (real f64_zero = 0) as Z by reflexivity. rewrite Z, Rabs_R0. split; [apply Rabs_pos|]. right. split; auto.
  assert (real f64_epsilon = / 2 ^ 52) as EE.
  { unfold real. rewrite <- SF2R_B2SF. assert (B2SF f64_epsilon = S754_finite false 4503599627370496 (-104)) as -> by (vm_compute; reflexivity).
    unfold SF2R, F2R. cbn [Fnum Fexp cond_Zopp]. change (bpow radix2 (-104)) with (/ IZR 20282409603651670423947251286016). lra. }
  destruct (is_finite v) eqn:F; [|destruct v; try discriminate F; unfold real; cbn [B2R]; rewrite Rabs_R0; apply Rlt_le, Rinv_0_lt_compat, pow_lt; lra].
  unfold f64_lt in L. unfold f64_abs in L. rewrite Bltb_correct in L; [|now rewrite is_finite_Babs|reflexivity].
  apply Rlt_bool_true_inv in L || (destruct (Rlt_bool_spec (B2R (Babs v)) (B2R f64_epsilon)) as [L'|]; [|discriminate L]).
  rewrite B2R_Babs in L'. change (B2R f64_epsilon) with (real f64_epsilon) in L'. rewrite EE in L'. unfold real. lra.
Qed.

Lemma cell_flush P v r : p_ftz P = false -> cell P v r -> cell P (eps_flush v) r.
Proof.
  intros HP [<-|(E & Z & L)]; destruct (eps_real v) as (A & [B|(B & C)]).
  - now left.
  - right. auto.
  - right. rewrite B. auto.
  - right. auto.
Qed.
Lemma cells_flush P st S : cells P st S -> cells P (flush_state P st) S.
Proof.
  intros (C1 & C2 & C3 & C4). unfold flush_state. destruct (p_ftz P) eqn:HP; [repeat split; auto|]. unfold cells. cbn [v1 v2 v3 v4]. auto using cell_flush.
Qed.
Lemma largest_flush P st : largest (flush_state P st) <= largest st.
Proof.
  unfold flush_state. destruct (p_ftz P); [apply Rle_refl|]. unfold largest. cbn [v1 v2 v3 v4].
  apply Rmax_lub; [eapply Rle_trans; [apply eps_real|apply Rmax_l]|]. eapply Rle_trans; [|apply Rmax_r].
  apply Rmax_lub; [eapply Rle_trans; [apply eps_real|apply Rmax_l]|]. eapply Rle_trans; [|apply Rmax_r].
  apply Rmax_lub; [eapply Rle_trans; [apply eps_real|apply Rmax_l]|]. eapply Rle_trans; [apply eps_real|apply Rmax_r].
Qed.
Lemma map2_app {X Y Z} (f : X -> Y -> Z) l m l' m' : length l = length m -> map2 f (l ++ l') (m ++ m') = map2 f l m ++ map2 f l' m'.
Proof. revert m. induction l as [|x l IH]; intros [|y m] H; cbn in *; try discriminate; auto. f_equal. apply IH. congruence. Qed.
Lemma run_ok_app P B A W S xs ys st xs' ys' st' : length ys = length xs -> run_ok P B A W S xs ys st -> (forall S', cells P st S' -> run_ok P B A W S' xs' ys' st') ->
  run_ok P B A W S (xs ++ xs') (ys ++ ys') st'.
Proof.
  intros HL (ds & es & L1 & L2 & ND & NE & C & EY) H. destruct (H _ C) as (ds' & es' & L1' & L2' & ND' & NE' & C' & EY').
  exists (ds ++ ds'), (es ++ es'). rewrite !app_length, !map_app, !map2_app by (rewrite ?map_length; congruence). rewrite filter_run_app.
  destruct (filter_run arR B A S (map2 Rplus (map real xs) ds)) as (S1, Y). cbn [fst snd] in *.
  destruct (filter_run arR B A S1 (map2 Rplus (map real xs') ds')) as (S2, Y'). cbn [fst snd] in *.
  do 2 (split; [congruence|]). do 2 (split; [apply Forall_app; auto|]). split; [auto|congruence].
Qed.
Lemma run_ok_flush P B A W S xs ys st : run_ok P B A W S xs ys st -> run_ok P B A W S xs ys (flush_state P st).
Proof. intros (ds & es & L1 & L2 & ND & NE & C & EY). exists ds, es. do 4 (split; [auto|]). split; [now apply cells_flush|auto]. Qed.
