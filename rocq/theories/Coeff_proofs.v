(** The coefficients computed in f64 against the exact ones. *)
From Coq Require Import List Arith NArith ZArith Bool Lia Reals Lra Psatz Machin.
From Flocq Require Import Core IEEE754.BinarySingleNaN.
From Verif Require Import Prelude Float Env Utils Interp Filter Float_proofs Tables Table_proofs Spec_real Spec_filter Spec_coeff Accuracy_proofs Lufs_proofs Kweight_proofs.
Import ListNotations.
Local Open Scope R_scope.

(** * Pi *)
Lemma PI_digits : 3.14159265358979323 <= PI <= 3.14159265358979325.
Proof.
  destruct (PI_2_3_7_ineq 9) as (A & B).
  assert (forall n, tg_alt PI_2_3_7_tg n = (-1) ^ n * (2 * / (INR (2 * n + 1) * 3 ^ (2 * n + 1)) + / (INR (2 * n + 1) * 7 ^ (2 * n + 1)))) as T.
  { intros n. unfold tg_alt, PI_2_3_7_tg, Ratan_seq. f_equal. rewrite !pow_inv by lra. rewrite !Rinv_mult by (try apply not_0_INR; try apply pow_nonzero; lra || lia). unfold Rdiv. ring. }
  cbn [Nat.mul Nat.add sum_f_R0] in A, B. rewrite !T in A, B. clear T.
  rewrite !INR_IZR_INZ, !pow_IZR, <- !mult_IZR in A, B.
  cbv -[Rplus Rminus Rmult Rdiv Rinv Ropp IZR PI Rle] in A, B. split; lra.
Qed.

(** * Absolute errors, counted in units of 2^-53 *)
Definition off (k B : R) (x : f64) (X : R) : Prop := is_finite x = true /\ Rabs (real x - X) <= k * u /\ Rabs X <= B.
Definition small (k : R) : Prop := 0 <= k <= 2 ^ 20.
Lemma u_value : u * 9007199254740992 = 1.
Proof. unfold roundoff. lra. Qed.
Lemma eta_u : eta <= u * / 2.
Proof.
  unfold underflow, roundoff. rewrite <- Rinv_mult. apply Rinv_le_contravar; [apply Rmult_lt_0_compat; [apply pow_lt|]; lra|].
  replace (2 ^ 53 * 2) with (2 ^ 54) by lra. apply Rle_pow; [lra|lia].
Qed.
Lemma off_weaken k k' B B' x X : off k B x X -> k <= k' -> B <= B' -> off k' B' x X.
Proof. intros (F & H & HB) Hk HB'. pose proof u_pos. repeat split; auto; [nra|lra]. Qed.
Lemma rnd_off z Z k B : small k -> small B -> Rabs (z - Z) <= k * u -> Rabs Z <= B ->
  Rabs (rnd64 z - Z) <= (k + B + 1) * u /\ Rlt_bool (Rabs (rnd64 z)) (bpow radix2 1024) = true.
Proof.
  intros (Hk0 & Hk) (HB0 & HB) Hz HZ. pose proof (rnd_error z) as R. pose proof eta_u. pose proof u_value. pose proof u_pos.
  assert (Rabs z <= B + k * u) as Az.
  { replace z with (Z + (z - Z)) by ring. eapply Rle_trans; [apply Rabs_triang|]. lra. }
  assert (k * u <= / 2) as Ku by nra.
  assert (Rabs (rnd64 z - Z) <= (k + B + 1) * u) as A.
  { replace (rnd64 z - Z) with ((rnd64 z - z) + (z - Z)) by ring. eapply Rle_trans; [apply Rabs_triang|].
    assert (u * Rabs z <= u * (B + / 2)) by (apply Rmult_le_compat_l; lra). lra. }
  split; auto. apply Rlt_bool_true.
  apply Rle_lt_trans with (2 ^ 22).
  - replace (rnd64 z) with (Z + (rnd64 z - Z)) by ring. eapply Rle_trans; [apply Rabs_triang|].
    assert ((k + B + 1) * u <= 1) by nra. lra.
  - replace (2 ^ 22) with (bpow radix2 22) by (cbn; lra). apply bpow_lt. lia.
Qed.
Lemma off_add k l B x X y Y A A' : off k A x X -> off l A' y Y -> small (k + l) -> small B -> Rabs (X + Y) <= B ->
  off (k + l + B + 1) B (f64_add x y) (X + Y).
Proof.
  intros (Fx & Hx & _) (Fy & Hy & _) Hk HB HZ.
  assert (Rabs (B2R x + B2R y - (X + Y)) <= (k + l) * u) as H.
  { replace (B2R x + B2R y - (X + Y)) with ((real x - X) + (real y - Y)) by (unfold real; ring). eapply Rle_trans; [apply Rabs_triang|]. lra. }
  destruct (rnd_off _ _ _ _ Hk HB H HZ) as (H1 & H2).
  pose proof (Bplus_correct 53 1024 Hprec64 Hmax64 mode_NE x y Fx Fy) as C. change (round radix2 _ _ (B2R x + B2R y)) with (rnd64 (B2R x + B2R y)) in C.
  rewrite H2 in C. destruct C as (C1 & C2 & _). unfold off, real, f64_add. rewrite C1. auto.
Qed.
Lemma off_sub k l B x X y Y A A' : off k A x X -> off l A' y Y -> small (k + l) -> small B -> Rabs (X - Y) <= B ->
  off (k + l + B + 1) B (f64_sub x y) (X - Y).
Proof.
  intros (Fx & Hx & _) (Fy & Hy & _) Hk HB HZ.
  assert (Rabs (B2R x - B2R y - (X - Y)) <= (k + l) * u) as H.
  { replace (B2R x - B2R y - (X - Y)) with ((real x - X) - (real y - Y)) by (unfold real; ring). eapply Rle_trans; [apply Rabs_triang|]. rewrite Rabs_Ropp. lra. }
  destruct (rnd_off _ _ _ _ Hk HB H HZ) as (H1 & H2).
  pose proof (Bminus_correct 53 1024 Hprec64 Hmax64 mode_NE x y Fx Fy) as C. change (round radix2 _ _ (B2R x - B2R y)) with (rnd64 (B2R x - B2R y)) in C.
  rewrite H2 in C. destruct C as (C1 & C2 & _). unfold off, real, f64_sub. rewrite C1. auto.
Qed.
Lemma off_mul k l B x X y Y A A' : off k A x X -> off l A' y Y -> small k -> small l -> small (k * A' + l * A + 1) -> small B -> Rabs (X * Y) <= B ->
  off (k * A' + l * A + 1 + B + 1) B (f64_mul x y) (X * Y).
Proof.
  intros (Fx & Hx & HX) (Fy & Hy & HY) (Sk & Sk') (Sl & Sl') Hk HB HZ. pose proof u_value. pose proof u_pos.
  assert (Rabs (B2R x * B2R y - X * Y) <= (k * A' + l * A + 1) * u) as H'.
  { replace (B2R x * B2R y - X * Y) with ((real x - X) * Y + X * (real y - Y) + (real x - X) * (real y - Y)) by (unfold real; ring).
    eapply Rle_trans; [apply Rabs_triang|]. eapply Rle_trans; [apply Rplus_le_compat_r, Rabs_triang|]. rewrite !Rabs_mult.
    assert (Rabs (real x - X) * Rabs Y <= (k * u) * A') by (apply Rmult_le_compat; auto using Rabs_pos).
    assert (Rabs X * Rabs (real y - Y) <= A * (l * u)) by (apply Rmult_le_compat; auto using Rabs_pos).
    assert (Rabs (real x - X) * Rabs (real y - Y) <= (k * u) * (l * u)) by (apply Rmult_le_compat; auto using Rabs_pos).
    assert (k * l <= 2 ^ 20 * 2 ^ 20) by (apply Rmult_le_compat; auto). assert (k * l * u <= 1) by nra. assert ((k * u) * (l * u) <= u) by nra. lra. }
  destruct (rnd_off _ _ _ _ Hk HB H' HZ) as (G1 & G2).
  pose proof (Bmult_correct 53 1024 Hprec64 Hmax64 mode_NE x y) as C. change (round radix2 _ _ (B2R x * B2R y)) with (rnd64 (B2R x * B2R y)) in C.
  rewrite G2, Fx, Fy in C. destruct C as (C1 & C2 & _). unfold off, real, f64_mul. rewrite C1. auto.
Qed.
Lemma off_div k l B x X y Y A A' m : off k A x X -> off l A' y Y -> / 2 <= m <= Y -> small k -> small l -> small ((k + B * l) * (2 / m)) -> small B -> Rabs (X / Y) <= B ->
  off ((k + B * l) * (2 / m) + B + 1) B (f64_div x y) (X / Y).
Proof.
  intros (Fx & Hx & HX) (Fy & Hy & HY) (Hm & HmY) (Sk & Sk') (Sl & Sl') Hk HB HZ. pose proof u_value. pose proof u_pos.
  assert (m / 2 <= real y) as Yl. { apply Rabs_le_inv in Hy. assert (l * u <= / 4) by nra. lra. }
  assert (0 < real y) by lra. assert (0 < Y) by lra.
  assert (Rabs (B2R x / B2R y - X / Y) <= ((k + B * l) * (2 / m)) * u) as H'.
  { replace (B2R x / B2R y - X / Y) with (((real x - X) + - (X / Y) * (real y - Y)) * / real y) by (unfold real in *; field; split; lra).
    rewrite Rabs_mult, (Rabs_pos_eq (/ real y)) by (apply Rlt_le, Rinv_0_lt_compat; lra).
    assert (/ real y <= 2 / m) by (replace (2 / m) with (/ (m / 2)) by (field; lra); apply Rinv_le_contravar; lra).
    assert (Rabs ((real x - X) + - (X / Y) * (real y - Y)) <= (k + B * l) * u).
    { eapply Rle_trans; [apply Rabs_triang|]. rewrite Rabs_mult, Rabs_Ropp.
      assert (Rabs (X / Y) * Rabs (real y - Y) <= B * (l * u)) by (apply Rmult_le_compat; auto using Rabs_pos). lra. }
    replace ((k + B * l) * (2 / m) * u) with (((k + B * l) * u) * (2 / m)) by ring. apply Rmult_le_compat; auto using Rabs_pos. apply Rlt_le, Rinv_0_lt_compat; lra. }
  destruct (rnd_off _ _ _ _ Hk HB H' HZ) as (G1 & G2).
  pose proof (Bdiv_correct 53 1024 Hprec64 Hmax64 mode_NE x y ltac:(unfold real in *; lra)) as C. change (round radix2 _ _ (B2R x / B2R y)) with (rnd64 (B2R x / B2R y)) in C.
  rewrite G2, Fx in C. destruct C as (C1 & C2 & _). unfold off, real, f64_div. rewrite C1. auto.
Qed.

(** * Literals *)
Ltac literal m e := let F := fresh in let E := fresh in
  destruct (bin_real m e ltac:(lia) ltac:(lia)) as (F & E); split; [exact F|]; unfold real, PI64, lit_f0_shelf, lit_f0_hp, lit_G, lit_Q_shelf, lit_Q_hp, lit_Vb_exp; rewrite E;
let b := eval vm_compute in (2 ^ (- e))%Z in change (bpow radix2 e) with (/ IZR b); unfold roundoff; split; apply Rabs_le; lra.
Lemma off_pi : off 2 4 PI64 PI.
Proof. pose proof PI_digits. literal 7074237752028440%Z (-51)%Z. Qed.
Lemma off_f1 : off 1024 1682 lit_f0_shelf 1681.974450955533.
Proof. literal 7397401865791048%Z (-42)%Z. Qed.
Lemma off_f2 : off 32 39 lit_f0_hp 38.13547087602444.
Proof. literal 5367090388339440%Z (-47)%Z. Qed.
Lemma off_G : off 2 4 lit_G 3.999843853973347.
Proof. literal 9006847645147267%Z (-51)%Z. Qed.
Lemma off_q1 : off 1 0.71 lit_Q_shelf 0.7071752369554196.
Proof. literal 6369668267276140%Z (-53)%Z. Qed.
Lemma off_q2 : off 1 0.51 lit_Q_hp 0.5003270373238773.
Proof. literal 4506545317710396%Z (-53)%Z. Qed.
Lemma off_vb : off 1 0.5 lit_Vb_exp 0.4996667741545416.
Proof. literal 9001196391567245%Z (-54)%Z. Qed.
Lemma off_int z : (Z.abs z <= 2 ^ 53)%Z -> off 0 (Rabs (IZR z)) (f64_of_Z z) (IZR z).
Proof.
  intros Hz. assert (is_finite (f64_of_Z z) = true /\ B2R (f64_of_Z z) = IZR z) as (F & H).
  { unfold f64_of_Z, f64_bin. pose proof (binary_normalize_correct 53 1024 Hprec64 Hmax64 mode_NE z 0 false) as C.
    assert (generic_format radix2 (FLT_exp (-1074) 53) (F2R (Float radix2 z 0))) as G.
    { apply generic_format_FLT. destruct (Z.eq_dec (Z.abs z) (2 ^ 53)) as [e|ne].
      - apply FLT_spec with (Float radix2 (z / 2) 1); cbn [Fnum Fexp]; try lia.
        + unfold F2R. cbn [Fnum Fexp]. change (bpow radix2 0) with 1. change (bpow radix2 1) with 2. rewrite Rmult_1_r, <- mult_IZR. f_equal.
          destruct (Z.abs_spec z) as [(_ & X)|(_ & X)]; rewrite X in e; [subst z|replace z with (- 2 ^ 53)%Z by lia]; reflexivity.
        + destruct (Z.abs_spec z) as [(_ & X)|(_ & X)]; rewrite X in e; [subst z|replace z with (- 2 ^ 53)%Z by lia]; reflexivity.
      - apply FLT_spec with (Float radix2 z 0); cbn [Fnum Fexp]; try lia; [reflexivity|]. change (radix2 ^ 53)%Z with (2 ^ 53)%Z. lia. }
    cbv zeta in C. pose proof (round_generic radix2 (FLT_exp (-1074) 53) (round_mode mode_NE) _ G) as R. change (FLT_exp (-1074) 53) with (SpecFloat.fexp 53 1024) in R. rewrite R in C.
    unfold F2R in C. cbn [Fnum Fexp] in C. change (bpow radix2 0) with 1 in C. rewrite Rmult_1_r in C.
    rewrite Rlt_bool_true in C; [now destruct C as (C1 & C2 & _)|].
    rewrite <- abs_IZR. apply Rle_lt_trans with (IZR (2 ^ 53)); [now apply IZR_le|]. change (IZR (2 ^ 53)) with (bpow radix2 53). apply bpow_lt. lia. }
  split; auto. unfold real. rewrite H. replace (IZR z - IZR z) with 0 by ring. rewrite Rabs_R0. lra.
Qed.

(** * Angles *)
Lemma cos_half x : 0 <= x <= 1 -> / 2 <= cos x.
Proof. intros H. pose proof PI_digits. replace (/ 2) with (cos (PI / 3)) by (rewrite cos_PI3; lra). apply cos_decr_1; lra. Qed.
Lemma sin_abs d : Rabs d <= 1 -> Rabs (sin d) <= Rabs d.
Proof.
  pose proof PI_digits. assert (forall d, 0 <= d <= 1 -> Rabs (sin d) <= d) as K.
  { intros x Hx. destruct (Req_dec x 0) as [->|n]; [rewrite sin_0, Rabs_R0; lra|]. rewrite Rabs_pos_eq by (apply sin_ge_0; lra). apply Rlt_le, sin_lt_x. lra. }
  intros Hd. destruct (Rle_dec 0 d).
  - rewrite (Rabs_pos_eq d) in * by lra. apply K. lra.
  - rewrite (Rabs_left d) in * by lra. replace (sin d) with (- sin (- d)) by (rewrite sin_neg; ring). rewrite Rabs_Ropp. apply K. lra.
Qed.
Lemma tan_lipschitz x y : 0 <= x <= 1 -> 0 <= y <= 1 -> Rabs (tan x - tan y) <= 4 * Rabs (x - y).
Proof.
  intros Hx Hy. pose proof (cos_half x Hx). pose proof (cos_half y Hy).
  replace (tan x - tan y) with (sin (x - y) * / (cos x * cos y)) by (unfold tan; rewrite sin_minus; field; lra).
  rewrite Rabs_mult, Rmult_comm. apply Rmult_le_compat; auto using Rabs_pos.
  - rewrite Rabs_pos_eq; [|apply Rlt_le, Rinv_0_lt_compat; nra]. replace 4 with (/ / 4) by field. apply Rinv_le_contravar; [lra|]. nra.
  - apply sin_abs, Rabs_le. lra.
Qed.
Lemma tan_unit x : 0 < x <= PI / 4 -> 0 < tan x <= 1.
Proof.
  intros Hx. pose proof PI_digits. split; [apply tan_gt_0; lra|]. rewrite <- tan_PI4. destruct (Req_dec x (PI / 4)) as [->|n]; [lra|].
  apply Rlt_le, tan_increasing; lra.
Qed.
Definition fair_rate (rate : N) : Prop := (6728 <= rate <= 2822400)%N.
Lemma fair_real rate : fair_rate rate -> 6728 <= IZR (Z.of_N rate) <= 2822400.
Proof. intros (H1 & H2). split; apply IZR_le; lia. Qed.
Lemma angle_off f F k B rate : off k B f F -> 38 <= F <= B -> B <= 1682 -> 0 <= k <= 1024 -> fair_rate rate -> 
  off 6 1 (f64_div (f64_mul PI64 f) (f64_of_N rate)) (PI * F / IZR (Z.of_N rate)) /\
  0.00004 <= PI * F / IZR (Z.of_N rate) <= PI / 4.
Proof.
  intros Hf HF HB Hk HR. pose proof (fair_real rate HR) as (R1 & R2). pose proof PI_digits. set (r := IZR (Z.of_N rate)) in *.
  assert (0 <= PI * F <= 5285) as M by nra.
  assert (0.00004 <= PI * F / r <= PI / 4) as A.
  { split; apply Rmult_le_reg_r with r; try lra; unfold Rdiv; rewrite Rmult_assoc, (Rmult_comm (/ r)), <- ?Rmult_assoc; [rewrite Rinv_r_simpl_l by lra|rewrite Rinv_r_simpl_l by lra]; nra. }
  split; auto.
  assert (off 12747 5285 (f64_mul PI64 f) (PI * F)) as P1.
  { eapply off_weaken; [apply (off_mul 2 k 5285 _ _ _ _ 4 B off_pi Hf); unfold small; rewrite ?Rabs_pos_eq; try lra|lra|lra]; nra. }
  eapply off_weaken; [eapply (off_div 12747 0 1 _ _ (f64_of_N rate) r 5285 (Rabs r) 6728 P1); unfold small; try lra|lra|lra].
  - unfold f64_of_N, r. apply off_int. destruct HR. lia.
  - rewrite Rabs_pos_eq; lra.
Qed.
Lemma tan_off E f F k B rate : tan_accurate E -> off k B f F -> 38 <= F <= B -> B <= 1682 -> 0 <= k <= 1024 -> fair_rate rate ->
  off 32 1 (e_tan E (f64_div (f64_mul PI64 f) (f64_of_N rate))) (tan (PI * F / IZR (Z.of_N rate))) /\ 0 < tan (PI * F / IZR (Z.of_N rate)) <= 1.
Proof.
  intros HT Hf HF HB Hk HR. destruct (angle_off f F k B rate Hf HF HB Hk HR) as ((Fx & Hx & _) & A).
  set (x := f64_div _ _) in *. set (X := PI * F / _) in *. pose proof PI_digits. pose proof u_value. pose proof u_pos.
  assert (6 * u <= 0.00001) by lra. pose proof (Rabs_le_inv _ _ Hx).
  destruct (HT x Fx ltac:(lra)) as (FT & HTx). pose proof (tan_unit X ltac:(lra)) as (T1 & T2). split; [|lra].
  split; auto. split.
  - pose proof (tan_lipschitz (real x) X ltac:(lra) ltac:(lra)).
    replace (real (e_tan E x) - tan X) with ((real (e_tan E x) - tan (real x)) + (tan (real x) - tan X)) by ring. eapply Rle_trans; [apply Rabs_triang|].
    replace (/ 2 ^ 50) with (8 * u) in HTx by (unfold roundoff; lra). lra.
  - rewrite Rabs_pos_eq; lra.
Qed.

(** * Powers *)
Lemma exp_step d : Rabs d <= / 2 -> Rabs (exp d - 1) <= 2 * Rabs d.
Proof.
  intros H. pose proof (exp_ineq1_le d). pose proof (exp_ineq1_le (- d)) as N. rewrite exp_Ropp in N. pose proof (exp_pos d).
  assert (exp d * (1 - d) <= 1) by (replace 1 with (exp d * / exp d) at 2 by (field; lra); apply Rmult_le_compat_l; lra).
  apply Rabs_le_inv in H. apply Rabs_le. destruct (Rle_dec 0 d).
  - rewrite Rabs_pos_eq by lra. nra.
  - rewrite Rabs_left by lra. nra.
Qed.
Lemma power_step x y X Y d : 0 < x -> 0 < X -> Rabs (y * ln x - Y * ln X) <= d -> d <= / 2 -> Rabs (Rpower x y - Rpower X Y) <= 2 * d * Rpower X Y.
Proof.
  intros Hx HX H Hd. unfold Rpower. replace (exp (y * ln x)) with (exp (Y * ln X) * exp (y * ln x - Y * ln X)) by (rewrite <- exp_plus; f_equal; ring).
  replace (_ - _) with (exp (Y * ln X) * (exp (y * ln x - Y * ln X) - 1)) by ring. rewrite Rabs_mult, Rabs_pos_eq by (apply Rlt_le, exp_pos).
  pose proof (exp_pos (Y * ln X)). pose proof (exp_step (y * ln x - Y * ln X) ltac:(lra)). nra.
Qed.
Definition Vh := Rpower 10 (3.999843853973347 / 20).
Definition Vb := Rpower Vh 0.4996667741545416.
Lemma Vh_range : 1 <= Vh <= 2.
Proof.
  pose proof ln10_pos. unfold Vh. split.
  - rewrite <- exp_0. unfold Rpower. destruct (Rle_lt_or_eq_dec 0 (3.999843853973347 / 20 * ln 10)) as [L|L]; [nra|now apply Rlt_le, exp_increasing|rewrite <- L; lra].
  - apply Rle_trans with (Rpower 32 (/ 5)).
    + apply Rle_trans with (Rpower 10 (/ 5)); [apply Rle_Rpower; lra|]. apply Rle_Rpower_l; lra.
    + right. replace 32 with (Rpower 2 5) by (replace 5 with (INR 5) by (cbn; lra); rewrite Rpower_pow by lra; lra). rewrite Rpower_mult. replace (5 * / 5) with 1 by field. apply Rpower_1. lra.
Qed.
Lemma Vb_range : 1 <= Vb <= 2.
Proof.
  pose proof Vh_range as (L & U). unfold Vb. split.
  - apply Rle_trans with (Rpower Vh 0); [rewrite Rpower_O; lra|]. apply Rle_Rpower; lra.
  - apply Rle_trans with (Rpower Vh 1); [apply Rle_Rpower; lra|]. rewrite Rpower_1; lra.
Qed.
Lemma Vh_above : 1.1 <= Vh.
Proof.
  unfold Vh. apply Rle_trans with (Rpower (Rpower 1.1 6) (/ 6)).
  - rewrite Rpower_mult. replace (6 * / 6) with 1 by field. rewrite Rpower_1; lra.
  - replace 6 with (INR 6) at 1 by (cbn; lra). rewrite Rpower_pow by lra. apply Rle_trans with (Rpower 10 (/ 6)); [apply Rle_Rpower_l; lra|apply Rle_Rpower; lra].
Qed.
Lemma ln10_9 : ln 10 <= 9. Proof. pose proof (ln_below 10). lra. Qed.
Lemma exact_int z : (Z.abs z <= 2 ^ 53)%Z -> is_finite (f64_of_Z z) = true /\ real (f64_of_Z z) = IZR z.
Proof. intros H. destruct (off_int z H) as (F & E & _). split; auto. rewrite Rmult_0_l in E. apply Rabs_le_inv in E. lra. Qed.
Lemma Vh_off E : powf_accurate E -> off 104 2 (e_powf E f64_ten (f64_div lit_G (f64_of_Z 20))) Vh.
Proof.
  intros HP. pose proof u_value. pose proof u_pos. pose proof Vh_range as HV. pose proof ln10_9. pose proof ln10_pos.
  assert (off 2 0.2 (f64_div lit_G (f64_of_Z 20)) (3.999843853973347 / 20)) as Y.
  { eapply off_weaken; [apply (off_div 2 0 0.2 _ _ _ _ 4 (Rabs 20) 20 off_G (off_int 20 ltac:(lia))); unfold small; try lra; rewrite Rabs_pos_eq; lra|lra|lra]. }
  destruct Y as (Fy & Hy & _). destruct (exact_int 10 ltac:(lia)) as (F10 & E10). fold f64_ten in F10, E10. set (y := f64_div _ _) in *.
  pose proof (Rabs_le_inv _ _ Hy). destruct (HP f64_ten y F10 Fy ltac:(lra) ltac:(lra)) as (Fp & Hp).
  split; auto. split; [|rewrite Rabs_pos_eq; lra]. rewrite E10 in Hp.
  pose proof (power_step 10 (real y) 10 (3.999843853973347 / 20) (18 * u) ltac:(lra) ltac:(lra)) as S. fold Vh in S.
  assert (Rabs (real y * ln 10 - 3.999843853973347 / 20 * ln 10) <= 18 * u) as D.
  { rewrite <- Rmult_minus_distr_r, Rabs_mult, (Rabs_pos_eq (ln 10)) by lra. replace (18 * u) with ((2 * u) * 9) by ring. apply Rmult_le_compat; auto using Rabs_pos. lra. }
  specialize (S D ltac:(lra)). replace (/ 2 ^ 48) with (32 * u) in Hp by (unfold roundoff; lra).
  replace (_ - Vh) with ((real (e_powf E f64_ten y) - Rpower 10 (real y)) + (Rpower 10 (real y) - Vh)) by ring. eapply Rle_trans; [apply Rabs_triang|]. nra.
Qed.
Lemma Vb_off E v : powf_accurate E -> off 104 2 v Vh -> off 456 2 (e_powf E v lit_Vb_exp) Vb.
Proof.
  intros HP (Fv & Hv & _). pose proof u_value. pose proof u_pos. pose proof Vh_range as HV. pose proof Vh_above. pose proof Vb_range.
  destruct off_vb as (Fy & Hy & _). set (y := lit_Vb_exp) in *. pose proof (Rabs_le_inv _ _ Hy). pose proof (Rabs_le_inv _ _ Hv).
  destruct (HP v y Fv Fy ltac:(lra) ltac:(lra)) as (Fp & Hp). split; auto. split; [|rewrite Rabs_pos_eq; lra].
  destruct (ln_close (real v) Vh (104 * u) ltac:(lra) ltac:(lra) ltac:(nra)) as (_ & L).
  pose proof (ln_below (real v) ltac:(lra)). pose proof (ln_le' 1 (real v) ltac:(lra) ltac:(lra)) as L0. rewrite ln_1 in L0.
  pose proof (power_step (real v) (real y) Vh 0.4996667741545416 (106 * u) ltac:(lra) ltac:(lra)) as S. fold Vb in S.
  assert (Rabs (real y * ln (real v) - 0.4996667741545416 * ln Vh) <= 106 * u) as D.
  { replace (_ - _) with ((real y - 0.4996667741545416) * ln (real v) + 0.4996667741545416 * (ln (real v) - ln Vh)) by ring.
    eapply Rle_trans; [apply Rabs_triang|]. rewrite !Rabs_mult, (Rabs_pos_eq (ln (real v))), (Rabs_pos_eq 0.4996667741545416) by lra.
    assert (Rabs (real y - 0.4996667741545416) * ln (real v) <= (1 * u) * 1.1) by (apply Rmult_le_compat; auto using Rabs_pos; lra). lra. }
  specialize (S D ltac:(lra)). replace (/ 2 ^ 48) with (32 * u) in Hp by (unfold roundoff; lra).
  replace (_ - Vb) with ((real (e_powf E v y) - Rpower (real v) (real y)) + (Rpower (real v) (real y) - Vb)) by ring. eapply Rle_trans; [apply Rabs_triang|]. nra.
Qed.

(** * The sections *)
Ltac num := unfold small; try lra.
Tactic Notation "weaken" tactic(t) := eapply off_weaken; [t|lra|lra].
Lemma one_off : off 0 1 f64_one 1.
Proof. eapply off_weaken; [apply (off_int 1); lia|lra|rewrite Rabs_pos_eq; lra]. Qed.
Lemma two_off : off 0 2 f64_two 2.
Proof. eapply off_weaken; [apply (off_int 2); lia|lra|rewrite Rabs_pos_eq; lra]. Qed.
Lemma mtwo_off : off 0 2 (f64_of_Z (-2)) (-2).
Proof. eapply off_weaken; [apply (off_int (-2)); lia|lra|rewrite Rabs_left; lra]. Qed.
Section OneSection.
Variables (K Q : f64) (k q : R).
Hypothesis HK : off 32 1 K k.
Hypothesis Hk : 0 < k <= 1.
Hypothesis HQ : off 1 0.71 Q q.
Hypothesis Hq : / 2 <= q <= 0.71.
Let t := k / q.
Lemma t_range : 0 < t <= 2 /\ k * k <= 1 /\ 0 < k * k.
Proof.
  split; [|nra]. unfold t. split; [apply Rdiv_lt_0_compat; lra|]. apply Rmult_le_reg_r with q; [lra|]. unfold Rdiv. rewrite Rmult_assoc, Rinv_l by lra. nra.
Qed.
Lemma kq_off : off 139 2 (f64_div K Q) t.
Proof. pose proof t_range. weaken (eapply (off_div 32 1 2 _ _ _ _ 1 0.71 (/ 2) HK HQ); num). fold t. rewrite Rabs_pos_eq; lra. Qed.
Lemma kk_off : off 67 1 (f64_mul K K) (k * k).
Proof. pose proof t_range. weaken (eapply (off_mul 32 32 1 _ _ _ _ 1 1 HK HK); num). rewrite Rabs_pos_eq; lra. Qed.
Lemma a0_off : off 215 4 (f64_add (f64_add f64_one (f64_div K Q)) (f64_mul K K)) (1 + t + k * k).
Proof.
  pose proof t_range. assert (off 143 3 (f64_add f64_one (f64_div K Q)) (1 + t)) as A.
  { weaken (eapply (off_add 0 139 3 _ _ _ _ _ _ one_off kq_off); num). rewrite Rabs_pos_eq; lra. }
  weaken (eapply (off_add 143 67 4 _ _ _ _ _ _ A kk_off); num). rewrite Rabs_pos_eq; lra.
Qed.
Lemma a0_pos : 1 <= 1 + t + k * k. Proof. pose proof t_range. lra. Qed.
Lemma ratio_bound x B : Rabs x <= B -> 0 <= B -> Rabs (x / (1 + t + k * k)) <= B.
Proof.
  intros H HB. pose proof a0_pos. unfold Rdiv. rewrite Rabs_mult, (Rabs_pos_eq (/ _)) by (apply Rlt_le, Rinv_0_lt_compat; lra).
  apply Rmult_le_reg_r with (1 + t + k * k); [lra|]. rewrite Rmult_assoc, Rinv_l by lra. nra.
Qed.
Lemma over_a0 m B A x X : off m A x X -> Rabs X <= B -> small m -> small B -> small ((m + B * 215) * 2) ->
  off ((m + B * 215) * 2 + B + 1) B (f64_div x (f64_add (f64_add f64_one (f64_div K Q)) (f64_mul K K))) (X / (1 + t + k * k)).
Proof.
  intros Hx HB Sm SB Sf. pose proof a0_pos. pose proof (off_div m 215 B _ _ _ _ A 4 1 Hx a0_off) as D. replace (2 / 1) with 2 in D by field.
  apply D; auto; num. apply ratio_bound; auto. apply SB.
Qed.
Lemma a1_off : off 1300 2 (f64_div (f64_mul f64_two (f64_sub (f64_mul K K) f64_one)) (f64_add (f64_add f64_one (f64_div K Q)) (f64_mul K K)))
  (2 * (k * k - 1) / (1 + t + k * k)).
Proof.
  pose proof t_range. assert (off 69 1 (f64_sub (f64_mul K K) f64_one) (k * k - 1)) as A.
  { weaken (eapply (off_sub 67 0 1 _ _ _ _ _ _ kk_off one_off); num). apply Rabs_le. lra. }
  assert (off 142 2 (f64_mul f64_two (f64_sub (f64_mul K K) f64_one)) (2 * (k * k - 1))) as M.
  { weaken (eapply (off_mul 0 69 2 _ _ _ _ 2 1 two_off A); num). apply Rabs_le. lra. }
  weaken (apply (over_a0 142 2 2 _ _ M); num). apply Rabs_le. lra.
Qed.
Lemma a2_off : off 1300 2 (f64_div (f64_add (f64_sub f64_one (f64_div K Q)) (f64_mul K K)) (f64_add (f64_add f64_one (f64_div K Q)) (f64_mul K K)))
  ((1 - t + k * k) / (1 + t + k * k)).
Proof.
  pose proof t_range. assert (off 141 1 (f64_sub f64_one (f64_div K Q)) (1 - t)) as A.
  { weaken (eapply (off_sub 0 139 1 _ _ _ _ _ _ one_off kq_off); num). apply Rabs_le. lra. }
  assert (off 212 2 (f64_add (f64_sub f64_one (f64_div K Q)) (f64_mul K K)) (1 - t + k * k)) as M.
  { weaken (eapply (off_add 141 67 2 _ _ _ _ _ _ A kk_off); num). apply Rabs_le. lra. }
  weaken (apply (over_a0 212 2 2 _ _ M); num). apply Rabs_le. lra.
Qed.
Variables (VH VB : f64).
Hypothesis Hvh : off 104 2 VH Vh.
Hypothesis Hvb : off 456 2 VB Vb.
Lemma mid_off : off 2117 4 (f64_div (f64_mul VB K) Q) (Vb * k / q) /\ 0 <= Vb * k / q <= 4.
Proof.
  pose proof t_range. pose proof Vb_range. assert (0 <= Vb * k / q <= 4) as M.
  { replace (Vb * k / q) with (Vb * t) by (unfold t; field; lra). nra. }
  split; auto. assert (off 524 2 (f64_mul VB K) (Vb * k)) as A.
  { weaken (eapply (off_mul 456 32 2 _ _ _ _ 2 1 Hvb HK); num). rewrite Rabs_pos_eq; nra. }
  weaken (eapply (off_div 524 1 4 _ _ _ _ 2 0.71 (/ 2) A HQ); num). rewrite Rabs_pos_eq; lra.
Qed.
Lemma b0_off : off 7624 7 (f64_div (f64_add (f64_add VH (f64_div (f64_mul VB K) Q)) (f64_mul K K)) (f64_add (f64_add f64_one (f64_div K Q)) (f64_mul K K)))
  ((Vh + Vb * k / q + k * k) / (1 + t + k * k)).
Proof.
  pose proof t_range. pose proof Vh_range. destruct mid_off as (HM & M).
  assert (off 2228 6 (f64_add VH (f64_div (f64_mul VB K) Q)) (Vh + Vb * k / q)) as A.
  { weaken (eapply (off_add 104 2117 6 _ _ _ _ _ _ Hvh HM); num). rewrite Rabs_pos_eq; lra. }
  assert (off 2303 7 (f64_add (f64_add VH (f64_div (f64_mul VB K) Q)) (f64_mul K K)) (Vh + Vb * k / q + k * k)) as B.
  { weaken (eapply (off_add 2228 67 7 _ _ _ _ _ _ A kk_off); num). rewrite Rabs_pos_eq; lra. }
  weaken (apply (over_a0 2303 7 7 _ _ B); num). apply B.
Qed.
Lemma b1_off : off 7624 7 (f64_div (f64_mul f64_two (f64_sub (f64_mul K K) VH)) (f64_add (f64_add f64_one (f64_div K Q)) (f64_mul K K)))
  (2 * (k * k - Vh) / (1 + t + k * k)).
Proof.
  pose proof t_range. pose proof Vh_range.
  assert (off 174 2 (f64_sub (f64_mul K K) VH) (k * k - Vh)) as A.
  { weaken (eapply (off_sub 67 104 2 _ _ _ _ _ _ kk_off Hvh); num). apply Rabs_le; lra. }
  assert (off 354 4 (f64_mul f64_two (f64_sub (f64_mul K K) VH)) (2 * (k * k - Vh))) as B.
  { weaken (eapply (off_mul 0 174 4 _ _ _ _ 2 2 two_off A); num). apply Rabs_le; lra. }
  weaken (apply (over_a0 354 4 4 _ _ B); num). apply B.
Qed.
Lemma b2_off : off 7624 7 (f64_div (f64_add (f64_sub VH (f64_div (f64_mul VB K) Q)) (f64_mul K K)) (f64_add (f64_add f64_one (f64_div K Q)) (f64_mul K K)))
  ((Vh - Vb * k / q + k * k) / (1 + t + k * k)).
Proof.
  pose proof t_range. pose proof Vh_range. destruct mid_off as (HM & M).
  assert (off 2228 4 (f64_sub VH (f64_div (f64_mul VB K) Q)) (Vh - Vb * k / q)) as A.
  { weaken (eapply (off_sub 104 2117 4 _ _ _ _ _ _ Hvh HM); num). apply Rabs_le; lra. }
  assert (off 2303 5 (f64_add (f64_sub VH (f64_div (f64_mul VB K) Q)) (f64_mul K K)) (Vh - Vb * k / q + k * k)) as B.
  { weaken (eapply (off_add 2228 67 5 _ _ _ _ _ _ A kk_off); num). apply Rabs_le; lra. }
  weaken (apply (over_a0 2303 5 5 _ _ B); num). apply B.
Qed.
End OneSection.

(** * The product *)
Definition close5 (c : arr5 f64) (C : arr5 R) : Prop :=
  off 65536 60 (v0 c) (v0 C) /\ off 65536 60 (v1 c) (v1 C) /\ off 65536 60 (v2 c) (v2 C) /\ off 65536 60 (v3 c) (v3 C) /\ off 65536 60 (v4 c) (v4 C).
Lemma prod_bound x X A y Y B k l : off k A x X -> off l B y Y -> Rabs (X * Y) <= A * B.
Proof. intros (_ & _ & HX) (_ & _ & HY). rewrite Rabs_mult. apply Rmult_le_compat; auto using Rabs_pos. Qed.
Lemma sum_bound x X A y Y B k l : off k A x X -> off l B y Y -> Rabs (X + Y) <= A + B.
Proof. intros (_ & _ & HX) (_ & _ & HY). eapply Rle_trans; [apply Rabs_triang|]. lra. Qed.
Lemma sum2_off k A k' A' x X y Y : off k A x X -> off k' A' y Y -> 0 <= k <= 60000 -> 0 <= k' <= 60000 -> 0 <= A <= 60000 -> 0 <= A' <= 60000 ->
  off (k + k' + (A + A') + 1) (A + A') (f64_add x y) (X + Y).
Proof. intros H H' ? ? ? ?. eapply (off_add k k' (A + A')); eauto; num. eapply sum_bound; eauto. Qed.
Lemma prod_off k A k' A' x X y Y : off k A x X -> off k' A' y Y -> 0 <= k <= 10000 -> 0 <= k' <= 10000 -> 0 <= A <= 7 -> 0 <= A' <= 7 ->
  off (k * A' + k' * A + 1 + A * A' + 1) (A * A') (f64_mul x y) (X * Y).
Proof. intros H H' ? ? ? ?. eapply (off_mul k k' (A * A')); eauto; num; try nra. eapply prod_bound; eauto. Qed.

Lemma b_product (s : sections f64) (S : sections R) :
  off 7624 7 (pb0 s) (pb0 S) -> off 7624 7 (pb1 s) (pb1 S) -> off 7624 7 (pb2 s) (pb2 S) ->
  off 0 2 (rb0 s) (rb0 S) -> off 0 2 (rb1 s) (rb1 S) -> off 0 2 (rb2 s) (rb2 S) ->
  close5 (fst (filter_product ar64 s)) (fst (filter_product arR S)).
Proof.
  intros H0 H1 H2 G0 G1 G2.
  assert (forall x X y Y, off 7624 7 x X -> off 0 2 y Y -> off 15264 14 (f64_mul x y) (X * Y)) as M.
  { intros x X y Y A B. weaken (eapply (prod_off 7624 7 0 2); eauto; lra). }
  assert (forall x X y Y, off 15264 14 x X -> off 15264 14 y Y -> off 30557 28 (f64_add x y) (X + Y)) as A1.
  { intros x X y Y A B. weaken (eapply (sum2_off 15264 14 15264 14); eauto; lra). }
  assert (forall x X y Y, off 30557 28 x X -> off 15264 14 y Y -> off 45864 42 (f64_add x y) (X + Y)) as A2.
  { intros x X y Y A B. weaken (eapply (sum2_off 30557 28 15264 14); eauto; lra). }
  unfold close5, filter_product. cbn [fst v0 v1 v2 v3 v4 ar_add ar_mul ar64 arR].
  split; [weaken (apply M; auto)|]. split; [weaken (apply A1; apply M; auto)|]. split; [weaken (apply A2; [apply A1|]; apply M; auto)|].
  split; [weaken (apply A1; apply M; auto)|weaken (apply M; auto)].
Qed.
Lemma a_product (s : sections f64) (S : sections R) :
  off 1300 2 (pa0 s) (pa0 S) -> off 1300 2 (pa1 s) (pa1 S) -> off 1300 2 (pa2 s) (pa2 S) ->
  off 1300 2 (ra0 s) (ra0 S) -> off 1300 2 (ra1 s) (ra1 S) -> off 1300 2 (ra2 s) (ra2 S) ->
  close5 (snd (filter_product ar64 s)) (snd (filter_product arR S)).
Proof.
  intros H0 H1 H2 G0 G1 G2.
  assert (forall x X y Y, off 1300 2 x X -> off 1300 2 y Y -> off 15264 14 (f64_mul x y) (X * Y)) as M.
  { intros x X y Y A B. weaken (eapply (prod_off 1300 2 1300 2); eauto; lra). }
  assert (forall x X y Y, off 15264 14 x X -> off 15264 14 y Y -> off 30557 28 (f64_add x y) (X + Y)) as A1.
  { intros x X y Y A B. weaken (eapply (sum2_off 15264 14 15264 14); eauto; lra). }
  assert (forall x X y Y, off 30557 28 x X -> off 15264 14 y Y -> off 45864 42 (f64_add x y) (X + Y)) as A2.
  { intros x X y Y A B. weaken (eapply (sum2_off 30557 28 15264 14); eauto; lra). }
  unfold close5, filter_product. cbn [snd v0 v1 v2 v3 v4 ar_add ar_mul ar64 arR].
  split; [weaken (apply M; auto)|]. split; [weaken (apply A1; apply M; auto)|]. split; [weaken (apply A2; [apply A1|]; apply M; auto)|].
  split; [weaken (apply A1; apply M; auto)|weaken (apply M; auto)].
Qed.
Lemma coefficients_off E rate : tan_accurate E -> powf_accurate E -> fair_rate rate ->
  close5 (fst (filter_coefficients E (f64_of_N rate))) (fst (coefficientsR (coeff_inputsR (IZR (Z.of_N rate))))) /\
  close5 (snd (filter_coefficients E (f64_of_N rate))) (snd (coefficientsR (coeff_inputsR (IZR (Z.of_N rate))))).
Proof.
  intros HT HP HR. destruct (tan_off E _ _ 1024 1682 rate HT off_f1 ltac:(lra) ltac:(lra) ltac:(lra) HR) as (K1 & R1).
  destruct (tan_off E _ _ 32 39 rate HT off_f2 ltac:(lra) ltac:(lra) ltac:(lra) HR) as (K2 & R2).
  pose proof (Vh_off E HP) as V1. pose proof (Vb_off E _ HP V1) as V2.
  assert (off 1 0.71 lit_Q_hp 0.5003270373238773) as Q2 by (eapply off_weaken; [apply off_q2|lra|lra]).
  pose proof off_q1 as Q1. unfold filter_coefficients, coefficientsR. split.
  - apply b_product; unfold filter_sections, coeff_inputs64, coeff_inputsR;
      cbn [pb0 pb1 pb2 rb0 rb1 rb2 c_one c_two c_mtwo c_K1 c_Q1 c_Vh c_Vb ar_add ar_sub ar_mul ar_div ar64 arR].
    + apply b0_off; auto. lra.
    + apply b1_off; auto. lra.
    + apply b2_off; auto. lra.
    + weaken apply one_off.
    + apply mtwo_off.
    + weaken apply one_off.
  - apply a_product; unfold filter_sections, coeff_inputs64, coeff_inputsR;
      cbn [pa0 pa1 pa2 ra0 ra1 ra2 c_one c_two c_K1 c_Q1 c_K2 c_Q2 ar_add ar_sub ar_mul ar_div ar64 arR].
    + weaken apply one_off.
    + apply a1_off; auto. lra.
    + apply a2_off; auto. lra.
    + weaken apply one_off.
    + apply a1_off; auto. lra.
    + apply a2_off; auto. lra.
Qed.
