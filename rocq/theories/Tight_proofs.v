(** The coefficients computed in f64 against the exact ones, more closely, at rates from 22050 Hz on. *)
From Coq Require Import List Arith NArith ZArith Bool Lia Reals Lra Psatz.
From Flocq Require Import Core IEEE754.BinarySingleNaN.
From Verif Require Import Prelude Float Env Utils Interp Filter Float_proofs Tables Table_proofs Spec_real Spec_filter Spec_coeff Spec_exact Accuracy_proofs Lufs_proofs Kweight_proofs Coeff_proofs Calibration_proofs.
Import ListNotations.
Local Open Scope R_scope.

(** * Sharper rules *)
Definition slight (k : R) : Prop := 0 <= k <= 2 ^ 15.
Lemma eta_less : eta <= u * / 2 ^ 20.
Proof.
  unfold underflow, roundoff. rewrite <- Rinv_mult. apply Rinv_le_contravar; [apply Rmult_lt_0_compat; apply pow_lt; lra|].
  rewrite <- pow_add. apply Rle_pow; [lra|lia].
Qed.
Lemma rnd_sharp z Z k B : slight k -> slight B -> Rabs (z - Z) <= k * u -> Rabs Z <= B ->
  Rabs (rnd64 z - Z) <= (k + B + / 1000) * u /\ Rlt_bool (Rabs (rnd64 z)) (bpow radix2 1024) = true.
Proof.
  intros (Hk0 & Hk) (HB0 & HB) Hz HZ. pose proof (rnd_error z) as R. pose proof eta_less. pose proof u_value. pose proof u_pos.
  assert (Rabs z <= B + k * u) as Az.
  { replace z with (Z + (z - Z)) by ring. eapply Rle_trans; [apply Rabs_triang|]. lra. }
  assert (k * u <= / 10000) as Ku by nra.
  assert (Rabs (rnd64 z - Z) <= (k + B + / 1000) * u) as A.
  { replace (rnd64 z - Z) with ((rnd64 z - z) + (z - Z)) by ring. eapply Rle_trans; [apply Rabs_triang|].
    assert (u * Rabs z <= u * (B + / 10000)) by (apply Rmult_le_compat_l; lra). lra. }
  split; auto. apply Rlt_bool_true.
  apply Rle_lt_trans with (2 ^ 22).
  - replace (rnd64 z) with (Z + (rnd64 z - Z)) by ring. eapply Rle_trans; [apply Rabs_triang|].
    assert ((k + B + / 1000) * u <= 1) by nra. lra.
  - replace (2 ^ 22) with (bpow radix2 22) by (cbn; lra). apply bpow_lt. lia.
Qed.
Lemma add_sharp k l B x X y Y A A' : off k A x X -> off l A' y Y -> slight (k + l) -> slight B -> Rabs (X + Y) <= B ->
  off (k + l + B + / 1000) B (f64_add x y) (X + Y).
Proof.
  intros (Fx & Hx & _) (Fy & Hy & _) Hk HB HZ.
  assert (Rabs (B2R x + B2R y - (X + Y)) <= (k + l) * u) as H.
  { replace (B2R x + B2R y - (X + Y)) with ((real x - X) + (real y - Y)) by (unfold real; ring). eapply Rle_trans; [apply Rabs_triang|]. lra. }
  destruct (rnd_sharp _ _ _ _ Hk HB H HZ) as (H1 & H2).
  pose proof (Bplus_correct 53 1024 Hprec64 Hmax64 mode_NE x y Fx Fy) as C. change (round radix2 _ _ (B2R x + B2R y)) with (rnd64 (B2R x + B2R y)) in C.
  rewrite H2 in C. destruct C as (C1 & C2 & _). unfold off, real, f64_add. rewrite C1. auto.
Qed.
Lemma sub_sharp k l B x X y Y A A' : off k A x X -> off l A' y Y -> slight (k + l) -> slight B -> Rabs (X - Y) <= B ->
  off (k + l + B + / 1000) B (f64_sub x y) (X - Y).
Proof.
  intros (Fx & Hx & _) (Fy & Hy & _) Hk HB HZ.
  assert (Rabs (B2R x - B2R y - (X - Y)) <= (k + l) * u) as H.
  { replace (B2R x - B2R y - (X - Y)) with ((real x - X) - (real y - Y)) by (unfold real; ring). eapply Rle_trans; [apply Rabs_triang|]. rewrite Rabs_Ropp. lra. }
  destruct (rnd_sharp _ _ _ _ Hk HB H HZ) as (H1 & H2).
  pose proof (Bminus_correct 53 1024 Hprec64 Hmax64 mode_NE x y Fx Fy) as C. change (round radix2 _ _ (B2R x - B2R y)) with (rnd64 (B2R x - B2R y)) in C.
  rewrite H2 in C. destruct C as (C1 & C2 & _). unfold off, real, f64_sub. rewrite C1. auto.
Qed.
Lemma mul_sharp k l B x X y Y A A' : off k A x X -> off l A' y Y -> slight k -> slight l -> slight (k * A' + l * A + / 1000) -> slight B -> Rabs (X * Y) <= B ->
  off (k * A' + l * A + / 500 + B) B (f64_mul x y) (X * Y).
Proof.
  intros (Fx & Hx & HX) (Fy & Hy & HY) (Sk & Sk') (Sl & Sl') Hk HB HZ. pose proof u_value. pose proof u_pos.
  assert (Rabs (B2R x * B2R y - X * Y) <= (k * A' + l * A + / 1000) * u) as H'.
  { replace (B2R x * B2R y - X * Y) with ((real x - X) * Y + X * (real y - Y) + (real x - X) * (real y - Y)) by (unfold real; ring).
    eapply Rle_trans; [apply Rabs_triang|]. eapply Rle_trans; [apply Rplus_le_compat_r, Rabs_triang|]. rewrite !Rabs_mult.
    assert (Rabs (real x - X) * Rabs Y <= (k * u) * A') by (apply Rmult_le_compat; auto using Rabs_pos).
    assert (Rabs X * Rabs (real y - Y) <= A * (l * u)) by (apply Rmult_le_compat; auto using Rabs_pos).
    assert (Rabs (real x - X) * Rabs (real y - Y) <= (k * u) * (l * u)) by (apply Rmult_le_compat; auto using Rabs_pos).
    assert (k * l <= 2 ^ 15 * 2 ^ 15) by (apply Rmult_le_compat; auto). assert (k * l * u <= / 1000) by nra. assert ((k * u) * (l * u) <= / 1000 * u) by nra. lra. }
  destruct (rnd_sharp _ _ _ _ Hk HB H' HZ) as (G1 & G2).
  pose proof (Bmult_correct 53 1024 Hprec64 Hmax64 mode_NE x y) as C. change (round radix2 _ _ (B2R x * B2R y)) with (rnd64 (B2R x * B2R y)) in C.
  rewrite G2, Fx, Fy in C. destruct C as (C1 & C2 & _). unfold off, real, f64_mul. rewrite C1. repeat split; auto. lra.
Qed.
Lemma div_sharp k l B x X y Y A A' m : off k A x X -> off l A' y Y -> / 2 <= m <= Y -> slight k -> slight l -> slight ((k + B * l) * (1.0001 / m)) -> slight B -> Rabs (X / Y) <= B ->
  off ((k + B * l) * (1.0001 / m) + B + / 1000) B (f64_div x y) (X / Y).
Proof.
  intros (Fx & Hx & HX) (Fy & Hy & HY) (Hm & HmY) (Sk & Sk') (Sl & Sl') Hk HB HZ. pose proof u_value. pose proof u_pos.
  assert (m / 1.0001 <= real y) as Yl. { apply Rabs_le_inv in Hy. assert (l * u <= / 10000000) by nra. lra. }
  assert (0 < real y) by lra. assert (0 < Y) by lra.
  assert (Rabs (B2R x / B2R y - X / Y) <= ((k + B * l) * (1.0001 / m)) * u) as H'.
  { replace (B2R x / B2R y - X / Y) with (((real x - X) + - (X / Y) * (real y - Y)) * / real y) by (unfold real in *; field; split; lra).
    rewrite Rabs_mult, (Rabs_pos_eq (/ real y)) by (apply Rlt_le, Rinv_0_lt_compat; lra).
    assert (/ real y <= 1.0001 / m) by (replace (1.0001 / m) with (/ (m / 1.0001)) by (field; lra); apply Rinv_le_contravar; lra).
    assert (Rabs ((real x - X) + - (X / Y) * (real y - Y)) <= (k + B * l) * u).
    { eapply Rle_trans; [apply Rabs_triang|]. rewrite Rabs_mult, Rabs_Ropp.
      assert (Rabs (X / Y) * Rabs (real y - Y) <= B * (l * u)) by (apply Rmult_le_compat; auto using Rabs_pos). lra. }
    replace ((k + B * l) * (1.0001 / m) * u) with (((k + B * l) * u) * (1.0001 / m)) by ring. apply Rmult_le_compat; auto using Rabs_pos. apply Rlt_le, Rinv_0_lt_compat; lra. }
  destruct (rnd_sharp _ _ _ _ Hk HB H' HZ) as (G1 & G2).
  pose proof (Bdiv_correct 53 1024 Hprec64 Hmax64 mode_NE x y ltac:(unfold real in *; lra)) as C. change (round radix2 _ _ (B2R x / B2R y)) with (rnd64 (B2R x / B2R y)) in C.
  rewrite G2, Fx in C. destruct C as (C1 & C2 & _). unfold off, real, f64_div. rewrite C1. auto.
Qed.

(** * Tangents *)
Lemma audio_real rate : audio_rate rate -> 22050 <= IZR (Z.of_N rate) <= 768000.
Proof. intros (H1 & H2). split; apply IZR_le; lia. Qed.
Lemma audio_fair rate : audio_rate rate -> fair_rate rate.
Proof. intros (H1 & H2). split; lia. Qed.
Lemma pi_sharp : off 1.3 3.15 PI64 PI.
Proof. pose proof PI_digits. literal 7074237752028440%Z (-51)%Z. Qed.
Lemma cos_above x : 0 <= x <= 1 -> 1 - x * x / 2 <= cos x.
Proof. intros Hx. pose proof (cos_poly x Hx). cbn [pow] in H. lra. Qed.
Lemma tan_slope x y : 0 <= x <= 0.245 -> 0 <= y <= 0.245 -> Rabs (tan x - tan y) <= 1.07 * Rabs (x - y).
Proof.
  intros Hx Hy. pose proof (cos_above x ltac:(lra)). pose proof (cos_above y ltac:(lra)). assert (0.969 <= cos x) by nra. assert (0.969 <= cos y) by nra.
  replace (tan x - tan y) with (sin (x - y) * / (cos x * cos y)) by (unfold tan; rewrite sin_minus; field; lra).
  rewrite Rabs_mult, Rmult_comm. apply Rmult_le_compat; auto using Rabs_pos.
  - rewrite Rabs_pos_eq; [|apply Rlt_le, Rinv_0_lt_compat; nra]. assert (0.93896 <= cos x * cos y) by nra. apply Rmult_le_reg_r with (cos x * cos y); [lra|]. rewrite Rinv_l by lra. lra.
  - apply sin_abs, Rabs_le. lra.
Qed.
Lemma tan_value x : 0 < x <= 0.2398 -> 0.99 * x <= tan x <= 0.25.
Proof.
  intros Hx. pose proof PI_digits. pose proof (cos_above x ltac:(lra)) as C. pose proof (COS_bound x) as (_ & C1). assert (0.971 <= cos x) by nra. split.
  - assert (0.99 * x <= sin x) as S1. { pose proof (sin_poly x ltac:(lra)) as (S & _). assert (x ^ 2 <= 0.0576) by nra. assert (x ^ 3 / 6 <= 0.0096 * x) by nra. lra. }
    unfold tan. apply Rle_trans with (sin x); [lra|]. apply Rmult_le_reg_r with (cos x); [lra|]. unfold Rdiv. rewrite Rmult_assoc, Rinv_l by lra. nra.
  - unfold tan. pose proof (sin_lt_x x ltac:(lra)). apply Rmult_le_reg_r with (cos x); [lra|]. unfold Rdiv. rewrite Rmult_assoc, Rinv_l by lra. lra.
Qed.
Lemma angle_sharp f F k B rate : off k B f F -> 38 <= F <= B -> B <= 1682 -> 0 <= k <= 1024 -> audio_rate rate ->
  off 0.73 0.2397 (f64_div (f64_mul PI64 f) (f64_of_N rate)) (PI * F / IZR (Z.of_N rate)) /\
  0.0001 <= PI * F / IZR (Z.of_N rate) <= 0.2397.
Proof.
  intros Hf HF HB Hk HR. pose proof (audio_real rate HR) as (R1 & R2). pose proof PI_digits. set (r := IZR (Z.of_N rate)) in *.
  assert (0 <= PI * F <= 5284.3) as M by nra.
  assert (0.0001 <= PI * F / r <= 0.2397) as A.
  { split; apply Rmult_le_reg_r with r; try lra; unfold Rdiv; rewrite Rmult_assoc, (Rmult_comm (/ r)), <- ?Rmult_assoc; [rewrite Rinv_r_simpl_l by lra|rewrite Rinv_r_simpl_l by lra]; nra. }
  split; auto.
  assert (off 10700 5284.3 (f64_mul PI64 f) (PI * F)) as P1.
  { eapply off_weaken; [apply (mul_sharp 1.3 k 5284.3 _ _ _ _ 3.15 B pi_sharp Hf); unfold slight; rewrite ?Rabs_pos_eq; try lra|lra|lra]; nra. }
  assert (off ((10700 + 0.2397 * 0) * (1.0001 / 22050) + 0.2397 + / 1000) 0.2397 (f64_div (f64_mul PI64 f) (f64_of_N rate)) (PI * F / r)) as D.
  { eapply (div_sharp 10700 0 0.2397 _ _ (f64_of_N rate) r 5284.3 (Rabs r) 22050 P1); unfold slight; try lra.
    - unfold f64_of_N, r. apply off_int. destruct HR. lia.
    - rewrite Rabs_pos_eq; lra. }
  eapply off_weaken; [exact D|lra|lra].
Qed.
Lemma tan_sharp E f F k B rate : tan_precise E -> off k B f F -> 38 <= F <= B -> B <= 1682 -> 0 <= k <= 1024 -> audio_rate rate ->
  off 1.84 0.25 (e_tan E (f64_div (f64_mul PI64 f) (f64_of_N rate))) (tan (PI * F / IZR (Z.of_N rate))).
Proof.
  intros HT Hf HF HB Hk HR. destruct (angle_sharp f F k B rate Hf HF HB Hk HR) as ((Fx & Hx & _) & A).
  set (x := f64_div _ _) in *. set (X := PI * F / _) in *. pose proof PI_digits. pose proof u_value. pose proof u_pos.
  assert (0.73 * u <= 0.00001) by lra. pose proof (Rabs_le_inv _ _ Hx).
  destruct (HT x Fx ltac:(lra)) as (FT & HTx). pose proof (tan_value X ltac:(lra)) as (T1 & T2). pose proof (tan_value (real x) ltac:(lra)) as (T3 & T4).
  split; auto. split.
  - pose proof (tan_slope (real x) X ltac:(lra) ltac:(lra)).
    replace (real (e_tan E x) - tan X) with ((real (e_tan E x) - tan (real x)) + (tan (real x) - tan X)) by ring. eapply Rle_trans; [apply Rabs_triang|].
    assert (/ 2 ^ 51 * tan (real x) <= / 2 ^ 51 * 0.25) by (apply Rmult_le_compat_l; lra).
    replace (/ 2 ^ 51) with (4 * u) in * by (unfold roundoff; lra). replace (/ 2 ^ 58) with (u / 32) in * by (unfold roundoff; lra). lra.
  - rewrite Rabs_pos_eq; lra.
Qed.

(** * Powers *)
Lemma Vb_upper : 1 <= Vb <= 1.26.
Proof. pose proof Vb_range. pose proof Vb_digits. pose proof Vh_digits. split; [lra|]. destruct (Rle_lt_dec Vb 1.26); auto. nra. Qed.
Lemma G_sharp : off 2 4 lit_G 3.999843853973347. Proof. apply off_G. Qed.
Lemma Vh_sharp E : powf_accurate E -> off 35 1.585 (e_powf E f64_ten (f64_div lit_G (f64_of_Z 20))) Vh.
Proof.
  intros HP. pose proof u_value. pose proof u_pos. pose proof Vh_digits as HV. pose proof ln10_upper. pose proof ln10_pos.
  assert (off 0.302 0.2 (f64_div lit_G (f64_of_Z 20)) (3.999843853973347 / 20)) as Y.
  { eapply off_weaken; [apply (div_sharp 2 0 0.2 _ _ _ _ 4 (Rabs 20) 20 off_G (off_int 20 ltac:(lia))); unfold slight; try lra; rewrite Rabs_pos_eq; lra|lra|lra]. }
  destruct Y as (Fy & Hy & _). destruct (exact_int 10 ltac:(lia)) as (F10 & E10). fold f64_ten in F10, E10. set (y := f64_div _ _) in *.
  pose proof (Rabs_le_inv _ _ Hy). destruct (HP f64_ten y F10 Fy ltac:(lra) ltac:(lra)) as (Fp & Hp).
  split; auto. split; [|rewrite Rabs_pos_eq; lra]. rewrite E10 in Hp.
  pose proof (power_step 10 (real y) 10 (3.999843853973347 / 20) (0.755 * u) ltac:(lra) ltac:(lra)) as S. fold Vh in S.
  assert (Rabs (real y * ln 10 - 3.999843853973347 / 20 * ln 10) <= 0.755 * u) as D.
  { rewrite <- Rmult_minus_distr_r, Rabs_mult, (Rabs_pos_eq (ln 10)) by lra. replace (0.755 * u) with ((0.302 * u) * 2.5) by lra. apply Rmult_le_compat; auto using Rabs_pos. lra. }
  specialize (S D ltac:(lra)). replace (/ 2 ^ 48) with (32 * u) in Hp by (unfold roundoff; lra).
  replace (_ - Vh) with ((real (e_powf E f64_ten y) - Rpower 10 (real y)) + (Rpower 10 (real y) - Vh)) by ring. eapply Rle_trans; [apply Rabs_triang|].
  assert (2 * (0.755 * u) * Vh <= 2 * (0.755 * u) * 1.585) by (apply Rmult_le_compat_l; lra). lra.
Qed.
Lemma Vb_sharp E v : powf_accurate E -> off 35 1.585 v Vh -> off 124 1.26 (e_powf E v lit_Vb_exp) Vb.
Proof.
  intros HP (Fv & Hv & _). pose proof u_value. pose proof u_pos. pose proof Vh_digits as HV. pose proof Vb_upper.
  destruct off_vb as (Fy & Hy & _). set (y := lit_Vb_exp) in *. pose proof (Rabs_le_inv _ _ Hy). pose proof (Rabs_le_inv _ _ Hv).
  destruct (HP v y Fv Fy ltac:(lra) ltac:(lra)) as (Fp & Hp). split; auto. split; [|rewrite Rabs_pos_eq; lra].
  destruct (ln_close (real v) Vh (35 * u) ltac:(lra) ltac:(lra) ltac:(nra)) as (_ & L).
  pose proof (ln_below (real v) ltac:(lra)). pose proof (ln_le' 1 (real v) ltac:(lra) ltac:(lra)) as L0. rewrite ln_1 in L0.
  pose proof (power_step (real v) (real y) Vh 0.4996667741545416 (36 * u) ltac:(lra) ltac:(lra)) as S. fold Vb in S.
  assert (Rabs (real y * ln (real v) - 0.4996667741545416 * ln Vh) <= 36 * u) as D.
  { replace (_ - _) with ((real y - 0.4996667741545416) * ln (real v) + 0.4996667741545416 * (ln (real v) - ln Vh)) by ring.
    eapply Rle_trans; [apply Rabs_triang|]. rewrite !Rabs_mult, (Rabs_pos_eq (ln (real v))), (Rabs_pos_eq 0.4996667741545416) by lra.
    assert (Rabs (real y - 0.4996667741545416) * ln (real v) <= (1 * u) * 0.6) by (apply Rmult_le_compat; auto using Rabs_pos; lra). lra. }
  specialize (S D ltac:(lra)). replace (/ 2 ^ 48) with (32 * u) in Hp by (unfold roundoff; lra).
  replace (_ - Vb) with ((real (e_powf E v y) - Rpower (real v) (real y)) + (Rpower (real v) (real y) - Vb)) by ring. eapply Rle_trans; [apply Rabs_triang|].
  assert (2 * (36 * u) * Vb <= 2 * (36 * u) * 1.26) by (apply Rmult_le_compat_l; lra). lra.
Qed.

(** * The sections *)
Ltac slt := unfold slight; try lra.
Section OneSection.
Variables (K Q : f64) (k q : R).
Hypothesis HK : off 1.84 0.25 K k.
Hypothesis HQ : off 1 0.71 Q q.
Hypothesis Hk : 0 < k.
Hypothesis Hq : / 2 <= q.
Let t := k / q.
Lemma k_bound : k <= 0.25. Proof. destruct HK as (_ & _ & H). rewrite Rabs_pos_eq in H; lra. Qed.
Lemma t_small : 0 < t <= 0.5 /\ 0 < k * k <= 0.0625.
Proof.
  pose proof k_bound. split; [|nra]. unfold t. split; [apply Rdiv_lt_0_compat; lra|]. apply Rmult_le_reg_r with q; [lra|]. unfold Rdiv. rewrite Rmult_assoc, Rinv_l by lra. lra.
Qed.
Lemma kq_sharp : off 5.2 0.5 (f64_div K Q) t.
Proof. pose proof t_small. pose proof k_bound. weaken (eapply (div_sharp 1.84 1 0.5 _ _ _ _ 0.25 0.71 (/ 2) HK HQ); slt). fold t. rewrite Rabs_pos_eq; lra. Qed.
Lemma kk_sharp : off 0.99 0.0625 (f64_mul K K) (k * k).
Proof. pose proof t_small. weaken (eapply (mul_sharp 1.84 1.84 0.0625 _ _ _ _ 0.25 0.25 HK HK); slt). rewrite Rabs_pos_eq; lra. Qed.
Lemma a0_sharp : off 9.28 1.5625 (f64_add (f64_add f64_one (f64_div K Q)) (f64_mul K K)) (1 + t + k * k).
Proof.
  pose proof t_small. assert (off 6.71 1.5 (f64_add f64_one (f64_div K Q)) (1 + t)) as A.
  { weaken (eapply (add_sharp 0 5.2 1.5 _ _ _ _ _ _ one_off kq_sharp); slt). rewrite Rabs_pos_eq; lra. }
  weaken (eapply (add_sharp 6.71 0.99 1.5625 _ _ _ _ _ _ A kk_sharp); slt). rewrite Rabs_pos_eq; lra.
Qed.
Lemma ratio_sharp x B : Rabs x <= B * (1 + t + k * k) -> 0 <= B -> Rabs (x / (1 + t + k * k)) <= B.
Proof.
  intros H HB. pose proof t_small. unfold Rdiv. rewrite Rabs_mult, (Rabs_pos_eq (/ _)) by (apply Rlt_le, Rinv_0_lt_compat; lra).
  apply Rmult_le_reg_r with (1 + t + k * k); [lra|]. rewrite Rmult_assoc, Rinv_l by lra. lra.
Qed.
Lemma over_sharp m B A x X : off m A x X -> Rabs X <= B * (1 + t + k * k) -> slight m -> 0 <= B <= 4 -> 0 <= m <= 200 ->
  off (m * 1.0001 + B * 10.3 + / 1000) B (f64_div x (f64_add (f64_add f64_one (f64_div K Q)) (f64_mul K K))) (X / (1 + t + k * k)).
Proof.
  intros Hx HB Sm SB Sm'. pose proof t_small. pose proof (div_sharp m 9.28 B _ _ _ _ A 1.5625 1 Hx a0_sharp) as D. replace (1.0001 / 1) with 1.0001 in D by field.
  eapply off_weaken; [apply D; slt|lra|lra]. apply ratio_sharp; lra.
Qed.
Lemma a1_sharp : off 26.7 2 (f64_div (f64_mul f64_two (f64_sub (f64_mul K K) f64_one)) (f64_add (f64_add f64_one (f64_div K Q)) (f64_mul K K)))
  (2 * (k * k - 1) / (1 + t + k * k)).
Proof.
  pose proof t_small. assert (off 1.992 1 (f64_sub (f64_mul K K) f64_one) (k * k - 1)) as A.
  { weaken (eapply (sub_sharp 0.99 0 1 _ _ _ _ _ _ kk_sharp one_off); slt). apply Rabs_le. lra. }
  assert (off 5.99 2 (f64_mul f64_two (f64_sub (f64_mul K K) f64_one)) (2 * (k * k - 1))) as M.
  { weaken (eapply (mul_sharp 0 1.992 2 _ _ _ _ 2 1 two_off A); slt). apply Rabs_le. lra. }
  weaken (apply (over_sharp 5.99 2 2 _ _ M); slt). apply Rabs_le. lra.
Qed.
Lemma a2_sharp : off 18.6 1 (f64_div (f64_add (f64_sub f64_one (f64_div K Q)) (f64_mul K K)) (f64_add (f64_add f64_one (f64_div K Q)) (f64_mul K K)))
  ((1 - t + k * k) / (1 + t + k * k)).
Proof.
  pose proof t_small. assert (off 6.21 1 (f64_sub f64_one (f64_div K Q)) (1 - t)) as A.
  { weaken (eapply (sub_sharp 0 5.2 1 _ _ _ _ _ _ one_off kq_sharp); slt). apply Rabs_le. lra. }
  assert (off 8.27 1.0625 (f64_add (f64_sub f64_one (f64_div K Q)) (f64_mul K K)) (1 - t + k * k)) as M.
  { weaken (eapply (add_sharp 6.21 0.99 1.0625 _ _ _ _ _ _ A kk_sharp); slt). apply Rabs_le. lra. }
  weaken (apply (over_sharp 8.27 1 1.0625 _ _ M); slt). apply Rabs_le. lra.
Qed.
Variables (VH VB : f64).
Hypothesis Hvh : off 35 1.585 VH Vh.
Hypothesis Hvb : off 124 1.26 VB Vb.
Hypothesis Hq1 : 0.707 <= q.
Lemma mid_sharp : off 49 0.446 (f64_div (f64_mul VB K) Q) (Vb * k / q) /\ 0 <= Vb * k / q <= 0.446.
Proof.
  pose proof t_small. pose proof Vb_upper. pose proof k_bound. assert (0 <= Vb * k <= 0.315) as M0 by nra. assert (0 <= Vb * k / q <= 0.446) as M.
  { split; [apply Rmult_le_pos; [lra|apply Rlt_le, Rinv_0_lt_compat; lra]|]. apply Rmult_le_reg_r with q; [lra|]. unfold Rdiv. rewrite Rmult_assoc, Rinv_l by lra. lra. }
  split; auto. assert (off 33.7 0.315 (f64_mul VB K) (Vb * k)) as A.
  { weaken (eapply (mul_sharp 124 1.84 0.315 _ _ _ _ 1.26 0.25 Hvb HK); slt). rewrite Rabs_pos_eq; nra. }
  pose proof (div_sharp 33.7 1 0.446 _ _ _ _ 0.315 0.71 0.707 A HQ) as D. weaken (apply D; slt). rewrite Rabs_pos_eq; lra.
Qed.
Lemma b0_sharp : off 112 2.1 (f64_div (f64_add (f64_add VH (f64_div (f64_mul VB K) Q)) (f64_mul K K)) (f64_add (f64_add f64_one (f64_div K Q)) (f64_mul K K)))
  ((Vh + Vb * k / q + k * k) / (1 + t + k * k)).
Proof.
  pose proof t_small. pose proof Vh_digits. destruct mid_sharp as (HM & M).
  assert (off 86.1 2.031 (f64_add VH (f64_div (f64_mul VB K) Q)) (Vh + Vb * k / q)) as A.
  { weaken (eapply (add_sharp 35 49 2.031 _ _ _ _ _ _ Hvh HM); slt). rewrite Rabs_pos_eq; lra. }
  assert (off 89.2 2.1 (f64_add (f64_add VH (f64_div (f64_mul VB K) Q)) (f64_mul K K)) (Vh + Vb * k / q + k * k)) as B.
  { weaken (eapply (add_sharp 86.1 0.99 2.1 _ _ _ _ _ _ A kk_sharp); slt). rewrite Rabs_pos_eq; lra. }
  weaken (apply (over_sharp 89.2 2.1 2.1 _ _ B); slt). rewrite Rabs_pos_eq; lra.
Qed.
Lemma b1_sharp : off 112 3.17 (f64_div (f64_mul f64_two (f64_sub (f64_mul K K) VH)) (f64_add (f64_add f64_one (f64_div K Q)) (f64_mul K K)))
  (2 * (k * k - Vh) / (1 + t + k * k)).
Proof.
  pose proof t_small. pose proof Vh_digits.
  assert (off 37.6 1.585 (f64_sub (f64_mul K K) VH) (k * k - Vh)) as A.
  { weaken (eapply (sub_sharp 0.99 35 1.585 _ _ _ _ _ _ kk_sharp Hvh); slt). apply Rabs_le. lra. }
  assert (off 78.4 3.17 (f64_mul f64_two (f64_sub (f64_mul K K) VH)) (2 * (k * k - Vh))) as B.
  { weaken (eapply (mul_sharp 0 37.6 3.17 _ _ _ _ 2 1.585 two_off A); slt). apply Rabs_le. lra. }
  weaken (apply (over_sharp 78.4 3.17 3.17 _ _ B); slt). apply Rabs_le. lra.
Qed.
Lemma b2_sharp : off 112 1.65 (f64_div (f64_add (f64_sub VH (f64_div (f64_mul VB K) Q)) (f64_mul K K)) (f64_add (f64_add f64_one (f64_div K Q)) (f64_mul K K)))
  ((Vh - Vb * k / q + k * k) / (1 + t + k * k)).
Proof.
  pose proof t_small. pose proof Vh_digits. destruct mid_sharp as (HM & M).
  assert (off 85.6 1.585 (f64_sub VH (f64_div (f64_mul VB K) Q)) (Vh - Vb * k / q)) as A.
  { weaken (eapply (sub_sharp 35 49 1.585 _ _ _ _ _ _ Hvh HM); slt). rewrite Rabs_pos_eq; lra. }
  assert (off 88.3 1.65 (f64_add (f64_sub VH (f64_div (f64_mul VB K) Q)) (f64_mul K K)) (Vh - Vb * k / q + k * k)) as B.
  { weaken (eapply (add_sharp 85.6 0.99 1.65 _ _ _ _ _ _ A kk_sharp); slt). rewrite Rabs_pos_eq; lra. }
  weaken (apply (over_sharp 88.3 1.65 1.65 _ _ B); slt). rewrite Rabs_pos_eq; lra.
Qed.
End OneSection.

(** * The product *)
Lemma sum_sharp k A k' A' x X y Y : off k A x X -> off k' A' y Y -> 0 <= k <= 1000 -> 0 <= k' <= 1000 -> 0 <= A <= 100 -> 0 <= A' <= 100 ->
  off (k + k' + (A + A') + / 1000) (A + A') (f64_add x y) (X + Y).
Proof. intros H H' ? ? ? ?. eapply (add_sharp k k' (A + A')); eauto; slt. eapply sum_bound; eauto. Qed.
Lemma prod_sharp k A k' A' x X y Y : off k A x X -> off k' A' y Y -> 0 <= k <= 1000 -> 0 <= k' <= 1000 -> 0 <= A <= 7 -> 0 <= A' <= 7 ->
  off (k * A' + k' * A + / 500 + A * A') (A * A') (f64_mul x y) (X * Y).
Proof. intros H H' ? ? ? ?. eapply (mul_sharp k k' (A * A')); eauto; slt; try nra. eapply prod_bound; eauto. Qed.
(** errors of the four feedback and the five feedforward coefficients, in units of 2^-53, and their sizes *)
Definition sharp_a (c : arr5 f64) (C : arr5 R) : Prop := off 61.5 4 (v1 c) (v1 C) /\ off 161.3 6 (v2 c) (v2 C) /\ off 136 4 (v3 c) (v3 C) /\ off 38.3 1 (v4 c) (v4 C).
Definition sharp_b (c : arr5 f64) (C : arr5 R) : Prop :=
  off 114.2 2.1 (v0 c) (v0 C) /\ off 351 7.37 (v1 c) (v1 C) /\ off 477 10.1 (v2 c) (v2 C) /\ off 349.2 6.48 (v3 c) (v3 C) /\ off 113.7 1.65 (v4 c) (v4 C).
Tactic Notation "prod" constr(H) constr(G) := weaken (apply (prod_sharp _ _ _ _ _ _ _ _ H G); lra).
Tactic Notation "summ" constr(H) constr(G) := weaken (apply (sum_sharp _ _ _ _ _ _ _ _ H G); lra).
Lemma b_sharp (s : sections f64) (S : sections R) :
  off 112 2.1 (pb0 s) (pb0 S) -> off 112 3.17 (pb1 s) (pb1 S) -> off 112 1.65 (pb2 s) (pb2 S) ->
  off 0 1 (rb0 s) (rb0 S) -> off 0 2 (rb1 s) (rb1 S) -> off 0 1 (rb2 s) (rb2 S) ->
  sharp_b (fst (filter_product ar64 s)) (fst (filter_product arR S)).
Proof.
  intros H0 H1 H2 G0 G1 G2. unfold sharp_b, filter_product. cbn [fst v0 v1 v2 v3 v4 ar_add ar_mul ar64 arR].
  assert (off 114.2 2.1 (f64_mul (pb0 s) (rb0 s)) (pb0 S * rb0 S)) as P00 by prod H0 G0.
  assert (off 228.3 4.2 (f64_mul (pb0 s) (rb1 s)) (pb0 S * rb1 S)) as P01 by prod H0 G1.
  assert (off 114.2 2.1 (f64_mul (pb0 s) (rb2 s)) (pb0 S * rb2 S)) as P02 by prod H0 G2.
  assert (off 115.2 3.17 (f64_mul (pb1 s) (rb0 s)) (pb1 S * rb0 S)) as P10 by prod H1 G0.
  assert (off 230.4 6.34 (f64_mul (pb1 s) (rb1 s)) (pb1 S * rb1 S)) as P11 by prod H1 G1.
  assert (off 115.2 3.17 (f64_mul (pb1 s) (rb2 s)) (pb1 S * rb2 S)) as P12 by prod H1 G2.
  assert (off 113.7 1.65 (f64_mul (pb2 s) (rb0 s)) (pb2 S * rb0 S)) as P20 by prod H2 G0.
  assert (off 227.4 3.3 (f64_mul (pb2 s) (rb1 s)) (pb2 S * rb1 S)) as P21 by prod H2 G1.
  assert (off 113.7 1.65 (f64_mul (pb2 s) (rb2 s)) (pb2 S * rb2 S)) as P22 by prod H2 G2.
  split; [exact P00|]. split; [summ P01 P10|]. split.
  { assert (off 353.1 8.44 (f64_add (f64_mul (pb0 s) (rb2 s)) (f64_mul (pb1 s) (rb1 s))) (pb0 S * rb2 S + pb1 S * rb1 S)) as A by summ P02 P11. summ A P20. }
  split; [summ P12 P21|exact P22].
Qed.
Lemma a_sharp (s : sections f64) (S : sections R) :
  off 0 1 (pa0 s) (pa0 S) -> off 26.7 2 (pa1 s) (pa1 S) -> off 18.6 1 (pa2 s) (pa2 S) ->
  off 0 1 (ra0 s) (ra0 S) -> off 26.7 2 (ra1 s) (ra1 S) -> off 18.6 1 (ra2 s) (ra2 S) ->
  sharp_a (snd (filter_product ar64 s)) (snd (filter_product arR S)).
Proof.
  intros H0 H1 H2 G0 G1 G2. unfold sharp_a, filter_product. cbn [snd v0 v1 v2 v3 v4 ar_add ar_mul ar64 arR].
  assert (off 28.71 2 (f64_mul (pa0 s) (ra1 s)) (pa0 S * ra1 S)) as P01 by prod H0 G1.
  assert (off 19.61 1 (f64_mul (pa0 s) (ra2 s)) (pa0 S * ra2 S)) as P02 by prod H0 G2.
  assert (off 28.71 2 (f64_mul (pa1 s) (ra0 s)) (pa1 S * ra0 S)) as P10 by prod H1 G0.
  assert (off 110.9 4 (f64_mul (pa1 s) (ra1 s)) (pa1 S * ra1 S)) as P11 by prod H1 G1.
  assert (off 65.91 2 (f64_mul (pa1 s) (ra2 s)) (pa1 S * ra2 S)) as P12 by prod H1 G2.
  assert (off 19.61 1 (f64_mul (pa2 s) (ra0 s)) (pa2 S * ra0 S)) as P20 by prod H2 G0.
  assert (off 65.91 2 (f64_mul (pa2 s) (ra1 s)) (pa2 S * ra1 S)) as P21 by prod H2 G1.
  assert (off 38.3 1 (f64_mul (pa2 s) (ra2 s)) (pa2 S * ra2 S)) as P22 by prod H2 G2.
  split; [summ P01 P10|]. split.
  { assert (off 135.6 5 (f64_add (f64_mul (pa0 s) (ra2 s)) (f64_mul (pa1 s) (ra1 s))) (pa0 S * ra2 S + pa1 S * ra1 S)) as A by summ P02 P11. summ A P20. }
  split; [summ P12 P21|exact P22].
Qed.
Lemma tangent_pos F rate : 38 <= F <= 1682 -> audio_rate rate -> 0 < tan (PI * F / IZR (Z.of_N rate)).
Proof.
  intros HF HR. pose proof (audio_real rate HR). pose proof PI_digits. assert (0 < PI * F / IZR (Z.of_N rate) <= 0.2398) as A.
  { split; [apply Rdiv_lt_0_compat; nra|]. apply Rmult_le_reg_r with (IZR (Z.of_N rate)); [lra|]. unfold Rdiv. rewrite Rmult_assoc, Rinv_l by lra. nra. }
  pose proof (tan_value _ A). lra.
Qed.
Lemma coefficients_sharp E rate : tan_precise E -> powf_accurate E -> audio_rate rate ->
  sharp_b (fst (filter_coefficients E (f64_of_N rate))) (fst (coefficientsR (coeff_inputsR (IZR (Z.of_N rate))))) /\
  sharp_a (snd (filter_coefficients E (f64_of_N rate))) (snd (coefficientsR (coeff_inputsR (IZR (Z.of_N rate))))).
Proof.
  intros HT HP HR. pose proof (tan_sharp E _ _ 1024 1682 rate HT off_f1 ltac:(lra) ltac:(lra) ltac:(lra) HR) as K1.
  pose proof (tan_sharp E _ _ 32 39 rate HT off_f2 ltac:(lra) ltac:(lra) ltac:(lra) HR) as K2.
  pose proof (tangent_pos 1681.974450955533 rate ltac:(lra) HR) as R1. pose proof (tangent_pos 38.13547087602444 rate ltac:(lra) HR) as R2.
  pose proof (Vh_sharp E HP) as V1. pose proof (Vb_sharp E _ HP V1) as V2.
  assert (off 1 0.71 lit_Q_hp 0.5003270373238773) as Q2 by (eapply off_weaken; [apply off_q2|lra|lra]).
  pose proof off_q1 as Q1. unfold filter_coefficients, coefficientsR. split.
  - apply b_sharp; unfold filter_sections, coeff_inputs64, coeff_inputsR;
      cbn [pb0 pb1 pb2 rb0 rb1 rb2 c_one c_two c_mtwo c_K1 c_Q1 c_Vh c_Vb ar_add ar_sub ar_mul ar_div ar64 arR].
    + apply b0_sharp; auto; lra.
    + apply b1_sharp; auto; lra.
    + apply b2_sharp; auto; lra.
    + apply one_off.
    + apply mtwo_off.
    + apply one_off.
  - apply a_sharp; unfold filter_sections, coeff_inputs64, coeff_inputsR;
      cbn [pa0 pa1 pa2 ra0 ra1 ra2 c_one c_two c_K1 c_Q1 c_K2 c_Q2 ar_add ar_sub ar_mul ar_div ar64 arR].
    + apply one_off.
    + apply a1_sharp; auto; lra.
    + apply a2_sharp; auto; lra.
    + apply one_off.
    + apply a1_sharp; auto; lra.
    + apply a2_sharp; auto; lra.
Qed.
