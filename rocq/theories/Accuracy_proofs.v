(** Rounding errors of energies. *)
From Coq Require Import List Arith NArith ZArith Bool Lia Permutation Reals Lra Psatz.
From Flocq Require Import Core IEEE754.BinarySingleNaN.
From Flocq.Prop Require Import Plus_error Relative.
From Verif Require Import Prelude Float Env Tables Utils Interp History TruePeak Filter Ebur128 Float_proofs Ebur128_proofs Spec Spec_real Feed_proofs Stream_proofs Loud_proofs Energy_proofs Silence_proofs Window_proofs.
Import ListNotations.
Local Open Scope R_scope.

Notation u := roundoff.
Notation eta := underflow.
Lemma u_pos : 0 < u. Proof. apply Rinv_0_lt_compat, pow_lt. lra. Qed.
Lemma u_small : u <= / 2. Proof. unfold roundoff. apply Rinv_le_contravar; [lra|]. replace 2 with (2 ^ 1) at 1 by lra. apply Rle_pow; [lra|lia]. Qed.
Lemma eta_pos : 0 < eta. Proof. apply Rinv_0_lt_compat, pow_lt. lra. Qed.
Lemma u_bpow : / 2 * bpow radix2 (Z.opp 53 + 1) = u.
Proof. unfold roundoff. change (bpow radix2 (Z.opp 53 + 1)) with (/ IZR (2 ^ 52)). rewrite <- Rinv_mult. f_equal. rewrite pow_IZR, <- mult_IZR. f_equal. Qed.
Lemma eta_bpow : / 2 * bpow radix2 (-1074) = eta.
Proof.
  unfold underflow.
  change (/ 2) with (bpow radix2 (-1)). rewrite <- bpow_plus. change (-1 + -1074)%Z with (- Z.of_nat 1075)%Z. rewrite bpow_opp. f_equal.
  rewrite bpow_powerRZ, <- pow_powerRZ. reflexivity.
Qed.

(** * One operation *)
Lemma rnd_bounds x : 0 <= x -> (1 - u) * x - eta <= rnd64 x <= (1 + u) * x + eta.
Proof.
  intros Hx. destruct (error_N_FLT radix2 (-1074) 53 ltac:(lia) (fun n => negb (Z.even n)) x) as (a & b & Ha & Hb & _ & E).
  rewrite u_bpow in Ha. rewrite eta_bpow in Hb. apply Rabs_le_inv in Ha. apply Rabs_le_inv in Hb.
  change (rnd64 x) with (round radix2 (FLT_exp (-1074) 53) ZnearestE x). rewrite E. nra.
Qed.
Lemma rnd_plus (x y : f64) : 0 <= B2R x + B2R y ->
  (1 - u) * (B2R x + B2R y) <= rnd64 (B2R x + B2R y) <= (1 + u) * (B2R x + B2R y).
Proof.
  intros Hx. destruct (FLT_plus_error_N_ex radix2 (-1074) 53 (fun n => negb (Z.even n)) (B2R x) (B2R y) (B2R_64 x) (B2R_64 y))
    as (a & Ha & E).
  unfold u_ro in Ha. rewrite u_bpow in Ha.
  assert (Rabs a <= u) as Ha'.
  { eapply Rle_trans; [exact Ha|]. pose proof u_pos. apply Rmult_le_reg_r with (1 + u); [lra|]. unfold Rdiv.
    rewrite Rmult_assoc, Rinv_l by lra. nra. }
  apply Rabs_le_inv in Ha'.
  change (rnd64 ?z) with (round radix2 (FLT_exp (-1074) 53) ZnearestE z). rewrite E. nra.
Qed.
Lemma overflow_inf (x : f64) s : B2SF x = binary_overflow 53 1024 mode_NE s -> is_finite x = false.
Proof. destruct x; cbn; try discriminate; auto. Qed.
Lemma add_fin x y : is_finite (f64_add x y) = true -> is_finite x = true /\ is_finite y = true /\ real (f64_add x y) = rnd64 (B2R x + B2R y).
Proof.
  intros H. assert (is_finite x = true /\ is_finite y = true) as (Fx & Fy).
  { unfold f64_add in H. destruct x as [s|s| |s m e B], y as [s'|s'| |s' m' e' B']; cbn in H; try discriminate; auto; destruct (Bool.eqb _ _); discriminate. }
  split; auto. split; auto. pose proof (Bplus_correct 53 1024 Hprec64 Hmax64 mode_NE x y Fx Fy) as X.
  unfold f64_add in *. destruct (Rlt_bool _ _).
  - apply X.
  - destruct X as (X & _). apply overflow_inf in X. congruence.
Qed.
Lemma mul_fin x y : is_finite (f64_mul x y) = true -> is_finite x = true /\ is_finite y = true /\ real (f64_mul x y) = rnd64 (B2R x * B2R y).
Proof.
  intros H. pose proof (Bmult_correct 53 1024 Hprec64 Hmax64 mode_NE x y) as X. unfold f64_mul in *. destruct (Rlt_bool _ _).
  - destruct X as (X1 & X2 & _). rewrite H in X2. symmetry in X2. apply andb_true_iff in X2. tauto.
  - apply overflow_inf in X. congruence.
Qed.
Lemma div_fin x y : is_finite y = true -> B2R y <> 0 -> is_finite (f64_div x y) = true -> is_finite x = true /\ real (f64_div x y) = rnd64 (B2R x / B2R y).
Proof.
  intros Fy Hy H. pose proof (Bdiv_correct 53 1024 Hprec64 Hmax64 mode_NE x y Hy) as X. unfold f64_div in *. destruct (Rlt_bool _ _).
  - destruct X as (X1 & X2 & _). rewrite H in X2. auto.
  - apply overflow_inf in X. congruence.
Qed.

(** * Accumulated errors *)
Lemma pow_up n : 1 <= (1 + u) ^ n.
Proof. apply pow_R1_Rle. pose proof u_pos. lra. Qed.
Lemma pow_down n : 0 <= (1 - u) ^ n <= 1.
Proof.
  pose proof u_pos. pose proof u_small. induction n as [|n IH]; cbn [pow]; [lra|]. nra.
Qed.
Lemma nearly_pos n d x X : 0 <= X -> 0 <= d -> nearly n d x X -> 0 <= X + d * eta.
Proof. intros. pose proof eta_pos. nra. Qed.
Lemma nearly_mono n n' d d' x X : (n <= n')%nat -> 0 <= d <= d' -> 0 <= X -> nearly n d x X -> nearly n' d' x X.
Proof.
  intros Hn Hd HX (H1 & H2). pose proof eta_pos. split.
  - assert ((1 - u) ^ n' <= (1 - u) ^ n).
    { replace n' with (n + (n' - n))%nat by lia. rewrite pow_add. pose proof (pow_down n). pose proof (pow_down (n' - n)). nra. }
    nra.
  - assert ((1 + u) ^ n <= (1 + u) ^ n') by (apply Rle_pow; auto; pose proof u_pos; lra).
    pose proof (pow_up n). assert (X + d * eta <= X + d' * eta) by nra. assert (0 <= X + d * eta) by nra. nra.
Qed.
Lemma nearly_exact x : 0 <= x -> nearly 0 0 x x.
Proof. intros. split; cbn [pow]; lra. Qed.
Lemma nearly_add n d d' (x y : f64) X Y : 0 <= X -> 0 <= Y -> 0 <= d -> 0 <= d' -> 0 <= B2R x + B2R y ->
  nearly n d (B2R x) X -> nearly n d' (B2R y) Y -> nearly (S n) (d + d') (rnd64 (B2R x + B2R y)) (X + Y).
Proof.
  intros HX HY Hd Hd' H0 (A1 & A2) (B1 & B2). destruct (rnd_plus x y H0) as (R1 & R2).
  pose proof u_pos. pose proof u_small. pose proof eta_pos. pose proof (pow_up n). pose proof (pow_down n). unfold nearly. cbn [pow].
  set (p := (1 + u) ^ n) in *. set (q := (1 - u) ^ n) in *. clearbody p q. split.
  - eapply Rle_trans; [|exact R1].
    assert ((1 - u) * (q * (X + Y) - (d + d') * eta) <= (1 - u) * (B2R x + B2R y)) by (apply Rmult_le_compat_l; lra).
    assert (0 <= u * ((d + d') * eta)) by (apply Rmult_le_pos; nra). nra.
  - eapply Rle_trans; [exact R2|].
    assert ((1 + u) * (B2R x + B2R y) <= (1 + u) * (p * (X + Y + (d + d') * eta))) by (apply Rmult_le_compat_l; nra). nra.
Qed.
Lemma nearly_rnd n d x X : 0 <= X -> 0 <= d -> 0 <= x -> nearly n d x X -> nearly (S n) (d + 1) (rnd64 x) X.
Proof.
  intros HX Hd H0 (A1 & A2). destruct (rnd_bounds x H0) as (R1 & R2).
  pose proof u_pos. pose proof u_small. pose proof eta_pos. pose proof (pow_up n). pose proof (pow_down n). unfold nearly. cbn [pow].
  set (p := (1 + u) ^ n) in *. set (q := (1 - u) ^ n) in *. clearbody p q. split.
  - eapply Rle_trans; [|exact R1].
    assert ((1 - u) * (q * X - d * eta) <= (1 - u) * x) by (apply Rmult_le_compat_l; lra).
    assert (0 <= u * (d * eta)) by (apply Rmult_le_pos; nra). nra.
  - eapply Rle_trans; [exact R2|].
    assert ((1 + u) * x <= (1 + u) * (p * (X + d * eta))) by (apply Rmult_le_compat_l; nra).
    assert (1 <= (1 + u) * p) by nra. assert (1 * eta <= (1 + u) * p * eta) by (apply Rmult_le_compat_r; lra). nra.
Qed.
(** a factor that is itself rounded *)
Lemma nearly_scale n d x X c C : 0 <= X -> 0 <= d -> 0 <= x -> 0 <= C <= 2 -> (1 - u) * C <= c <= (1 + u) * C ->
  nearly n d x X -> nearly (S n) (2 * d) (x * c) (C * X).
Proof.
  intros HX Hd H0 HC (C1 & C2) (A1 & A2).
  pose proof u_pos. pose proof u_small. pose proof eta_pos. pose proof (pow_up n). pose proof (pow_down n). unfold nearly. cbn [pow].
  set (p := (1 + u) ^ n) in *. set (q := (1 - u) ^ n) in *. clearbody p q. split.
  - apply Rle_trans with (x * ((1 - u) * C)); [|apply Rmult_le_compat_l; lra].
    assert (0 <= (1 - u) * C <= 2) by nra.
    assert ((q * X - d * eta) * ((1 - u) * C) <= x * ((1 - u) * C)) by (apply Rmult_le_compat_r; lra).
    assert (d * eta * ((1 - u) * C) <= d * eta * 2) by (apply Rmult_le_compat_l; nra). nra.
  - apply Rle_trans with (x * ((1 + u) * C)); [apply Rmult_le_compat_l; lra|].
    assert (0 <= (1 + u) * C) by nra.
    assert (x * ((1 + u) * C) <= p * (X + d * eta) * ((1 + u) * C)) by (apply Rmult_le_compat_r; lra).
    assert (p * (1 + u) * (C * (d * eta)) <= p * (1 + u) * (2 * (d * eta))).
    { apply Rmult_le_compat_l; [nra|]. apply Rmult_le_compat_r; nra. }
    nra.
Qed.
Lemma nearly_over n d x X k : 0 <= X -> 0 <= d -> 0 <= x -> 1 <= k -> nearly n d x X -> nearly n (d / k) (x / k) (X / k).
Proof.
  intros HX Hd H0 Hk (A1 & A2). unfold nearly, Rdiv. assert (0 < / k) by (apply Rinv_0_lt_compat; lra). split.
  - replace ((1 - u) ^ n * (X * / k) - d * / k * eta) with (((1 - u) ^ n * X - d * eta) * / k) by ring. apply Rmult_le_compat_r; lra.
  - replace ((1 + u) ^ n * (X * / k + d * / k * eta)) with (((1 + u) ^ n * (X + d * eta)) * / k) by ring. apply Rmult_le_compat_r; lra.
Qed.

(** * Sums of squares *)
Lemma total_app a b : total (a ++ b) = total a + total b.
Proof. unfold total. induction a as [|x a IH]; cbn [app fold_right]; lra. Qed.
Lemma total_nonneg l : Forall (fun x => 0 <= x) l -> 0 <= total l.
Proof. unfold total. induction 1; cbn [fold_right]; lra. Qed.
Definition sq (y : f64) : R := real y * real y.
Lemma sq_nonneg l : 0 <= total (map sq l).
Proof. apply total_nonneg. rewrite Forall_map. apply Forall_forall. intros y _. unfold sq. nra. Qed.
Lemma unsigned_real x : unsigned x -> 0 <= real x.
Proof. unfold unsigned, real. destruct x as [s|s| |[] m e B]; cbn; intros H; try lra; try discriminate. apply F2R_ge_0. cbn. lia. Qed.
Lemma add_nonneg_real s x : unsigned s -> unsigned x -> 0 <= B2R s + B2R x.
Proof. intros H1 H2. apply unsigned_real in H1. apply unsigned_real in H2. unfold real in *. lra. Qed.
Lemma squares_near : forall l n s S, unsigned s -> 0 <= S -> (1 <= n)%nat -> nearly n (INR n - 1) (real s) S ->
  is_finite (fold_left (fun sum y => f64_add sum (f64_mul y y)) l s) = true ->
  is_finite s = true /\
  nearly (n + length l) (INR (n + length l) - 1) (real (fold_left (fun sum y => f64_add sum (f64_mul y y)) l s)) (S + total (map sq l)).
Proof.
  induction l as [|y l IH]; intros n s S Hs HS Hn HN HF; cbn [fold_left map length total fold_right] in *.
  - rewrite Nat.add_0_r, Rplus_0_r. auto.
  - assert (unsigned (f64_mul y y)) as Hy by apply (mul_unsigned y y (xorb_nilpotent (Bsign y))).
    assert (1 <= INR n) as Hn1 by (replace 1 with (INR 1) by reflexivity; now apply le_INR).
    assert (is_finite (f64_add s (f64_mul y y)) = true -> is_finite s = true /\
            nearly (Datatypes.S n) (INR (Datatypes.S n) - 1) (real (f64_add s (f64_mul y y))) (S + sq y)) as X.
    { intros Fa. destruct (add_fin _ _ Fa) as (Fs & Fm & Ea). destruct (mul_fin _ _ Fm) as (_ & _ & Em).
      split; auto. rewrite Ea, S_INR. replace (INR n + 1 - 1) with ((INR n - 1) + 1) by ring.
      apply nearly_add; auto; try lra.
      - unfold sq. nra.
      - now apply add_nonneg_real.
      - change (B2R (f64_mul y y)) with (real (f64_mul y y)). rewrite Em. apply nearly_mono with (n := 1%nat) (d := 0 + 1); auto; try lra; [unfold sq; nra|].
        apply nearly_rnd; try (unfold sq, real; nra). apply nearly_exact. unfold sq, real. nra. }
    assert (is_finite (f64_add s (f64_mul y y)) = true) as Fa.
    { clear -HF. revert HF. generalize (f64_add s (f64_mul y y)) as a. induction l as [|z l IH]; intros a HF; auto.
      cbn [fold_left] in HF. apply IH in HF. now apply add_fin in HF. }
    destruct (X Fa) as (Fs & X1). split; auto.
    destruct (IH (Datatypes.S n) (f64_add s (f64_mul y y)) (S + sq y)) as (_ & K); auto.
    + now apply add_unsigned.
    + unfold sq. nra.
    + replace (n + Datatypes.S (length l))%nat with (Datatypes.S n + length l)%nat by lia.
      replace (S + (sq y + fold_right Rplus 0 (map sq l))) with (S + sq y + total (map sq l)) by (unfold total; ring). exact K.
Qed.
Lemma sum_of_squares_near l : is_finite (sum_of_squares l) = true ->
  nearly (1 + length l) (INR (length l)) (real (sum_of_squares l)) (total (map sq l)).
Proof.
  intros HF. destruct (squares_near l 1 f64_zero 0) as (_ & K); auto; try lra.
  - reflexivity.
  - unfold nearly. cbn. lra.
  - unfold sum_of_squares in *. replace (INR (length l)) with (INR (1 + length l) - 1) by (rewrite plus_INR; cbn [INR]; ring).
    replace (total (map sq l)) with (0 + total (map sq l)) by ring. exact K.
Qed.

(** * Weighted energies *)
Lemma surround_literal : (1 - u) * (141 / 100) <= B2R (f64_bin 6350075474592399 (-52)) <= (1 + u) * (141 / 100).
Proof.
  assert (B2SF (f64_bin 6350075474592399 (-52)) = SpecFloat.S754_finite false 6350075474592399 (-52)) as H by (vm_compute; reflexivity).
  rewrite <- SF2R_B2SF, H. unfold SF2R, F2R, roundoff. cbn [Fnum Fexp cond_Zopp].
  change (bpow radix2 (-52)) with (/ IZR 4503599627370496). rewrite pow_IZR. change (2 ^ Z.of_nat 53)%Z with 9007199254740992%Z. lra.
Qed.
Lemma gain_near ch n d x X : unsigned x -> 0 <= X -> 0 <= d -> ch <> Unused -> is_finite (gain ch x) = true ->
  nearly n d (real x) X -> nearly (n + 2) (2 * d + 1) (real (gain ch x)) (weight ch * X).
Proof.
  intros Hx HX Hd Hch HF HN.
  assert (nearly (n + 2) (2 * d + 1) (real x) (1 * X)) as Hid.
  { rewrite Rmult_1_l. apply nearly_mono with (n := n) (d := d); auto; [lia|lra]. }
  assert (forall c C, 0 <= C <= 2 -> (1 - u) * C <= B2R c <= (1 + u) * C -> is_finite (f64_mul x c) = true ->
     nearly (n + 2) (2 * d + 1) (real (f64_mul x c)) (C * X)) as Hm.
  { intros c C HC Hc Fm. destruct (mul_fin _ _ Fm) as (_ & _ & ->). replace (n + 2)%nat with (S (S n)) by lia.
    pose proof (unsigned_real x Hx) as Hr. pose proof u_small.
    apply nearly_rnd; try nra; [apply Rmult_le_pos; [exact Hr|nra]|]. apply nearly_scale; auto; nra. }
  assert ((1 - u) * 2 <= B2R f64_two <= (1 + u) * 2) as H2.
  { destruct two_finite as (_ & -> & _). pose proof u_pos. lra. }
  pose proof surround_literal.
  destruct ch; cbn [gain weight] in *; try exact Hid; try contradiction; apply Hm; auto; lra.
Qed.
Lemma total_perm l m : Permutation l m -> total l = total m.
Proof. unfold total. induction 1; cbn [fold_right]; lra. Qed.
Lemma ring_perm i (l : list f64) : Permutation (ring_order i l) l.
Proof.
  unfold ring_order. destruct (_ <? _)%nat; [|reflexivity].
  eapply perm_trans; [apply Permutation_app_comm|]. now rewrite firstn_skipn.
Qed.
Lemma recent_length w ys : length (recent w ys) = w.
Proof. unfold recent. rewrite skipn_length, app_length, repeat_length. lia. Qed.
Lemma f64_of_nat_real w : (Z.of_nat w <= 2 ^ 53)%Z -> is_finite (f64_of_nat w) = true /\ B2R (f64_of_nat w) = INR w.
Proof.
  intros H. unfold f64_of_nat, f64_of_Z, f64_bin.
  pose proof (binary_normalize_correct 53 1024 Hprec64 Hmax64 mode_NE (Z.of_nat w) 0 false) as X. cbv zeta in X.
  assert (F2R (Float radix2 (Z.of_nat w) 0) = INR w) as EF.
  { unfold F2R. cbn [Fnum Fexp bpow]. rewrite Rmult_1_r. symmetry. apply INR_IZR_INZ. }
  rewrite EF in X.
  assert (round radix2 (SpecFloat.fexp 53 1024) (round_mode mode_NE) (INR w) = INR w) as ER.
  { apply round_generic; [apply valid_rnd_N|]. destruct (Z.eq_dec (Z.of_nat w) (2 ^ 53)) as [E53|N53].
    - rewrite INR_IZR_INZ, E53. change (IZR (2 ^ 53)) with (bpow radix2 53). apply generic_format_bpow. unfold SpecFloat.fexp, SpecFloat.emin. lia.
    - rewrite <- EF. apply generic_format_F2R. intros Hz. unfold cexp. 
      assert (mag radix2 (F2R (Float radix2 (Z.of_nat w) 0)) <= 53)%Z.
      { apply mag_le_bpow.
        - rewrite EF. rewrite INR_IZR_INZ. now apply not_0_IZR.
        - rewrite EF, INR_IZR_INZ, <- abs_IZR. change (bpow radix2 53) with (IZR (2 ^ 53)). apply IZR_lt. lia. }
      unfold SpecFloat.fexp, SpecFloat.emin. lia. }
  rewrite ER in X. rewrite Rlt_bool_true in X.
  - split; apply X.
  - rewrite INR_IZR_INZ, <- abs_IZR. apply Rle_lt_trans with (IZR (2 ^ 53)); [apply IZR_le; lia|].
    change (IZR (2 ^ 53)) with (bpow radix2 53). apply bpow_lt. lia.
Qed.
Lemma weight_pos ch : 0 <= weight ch.
Proof. destruct ch; cbn; lra. Qed.
Definition add_role (L w : nat) (sum : f64) (p : Filter.channel * list f64) : f64 :=
  let '(ch, ys) := p in
  if unused ch then sum else f64_add sum (gain ch (sum_of_squares (ring_order (length ys mod L) (recent w ys)))).
Lemma roles_near L w : forall l k s S, unsigned s -> 0 <= S -> nearly (w + 3 + k) (INR k * (2 * INR w + 1)) (real s) S ->
  is_finite (fold_left (add_role L w) l s) = true ->
  is_finite s = true /\
  nearly (w + 3 + k + length l) (INR (k + length l) * (2 * INR w + 1)) (real (fold_left (add_role L w) l s))
    (S + total (map (fun '(ch, ys) => weight ch * total (map sq (recent w ys))) l)).
Proof.
  assert (forall l s, is_finite (fold_left (add_role L w) l s) = true -> is_finite s = true) as Fin.
  { induction l as [|[ch ys] l IH]; intros s H; auto. cbn [fold_left] in H. apply IH in H. unfold add_role in H.
    destruct (unused ch); auto. now apply add_fin in H. }
  intros l k s S Hs HS HN HF. split; [eauto|]. revert k s S Hs HS HN HF.
  induction l as [|[ch ys] l IH]; intros k s S Hs HS HN HF; cbn [fold_left map length total fold_right] in *.
  - rewrite !Nat.add_0_r, Rplus_0_r. exact HN.
  - pose proof (pos_INR w) as Hw. pose proof (pos_INR k) as Hk.
    assert (0 <= weight ch * total (map sq (recent w ys))) as HP by (apply Rmult_le_pos; [apply weight_pos|apply sq_nonneg]).
    assert (nearly (w + 3 + Datatypes.S k) (INR (Datatypes.S k) * (2 * INR w + 1)) (real (add_role L w s (ch, ys)))
              (S + weight ch * total (map sq (recent w ys)))) as X.
    { pose proof (Fin _ _ HF) as Fa. unfold add_role in *. destruct (unused ch) eqn:Eu.
      - assert (ch = Unused) as -> by (destruct ch; try discriminate; reflexivity). cbn [weight]. rewrite Rmult_0_l, Rplus_0_r.
        apply nearly_mono with (n := (w + 3 + k)%nat) (d := INR k * (2 * INR w + 1)); auto; [lia|]. rewrite S_INR. nra.
      - assert (ch <> Unused) as Hch by (intros ->; discriminate).
        destruct (add_fin _ _ Fa) as (Fs & Fg & ->). rewrite S_INR.
        replace ((INR k + 1) * (2 * INR w + 1)) with (INR k * (2 * INR w + 1) + (2 * INR w + 1)) by ring.
        replace (w + 3 + Datatypes.S k)%nat with (Datatypes.S (w + 3 + k)) by lia.
        pose proof (sum_of_squares_unsigned (ring_order (length ys mod L) (recent w ys))) as Hq.
        apply nearly_add; auto; try nra.
        + apply add_nonneg_real; auto. now apply gain_unsigned.
        + apply nearly_mono with (n := (1 + w + 2)%nat) (d := 2 * INR w + 1); auto; [lia|nra|].
          apply gain_near; auto; try nra; [apply sq_nonneg|].
          assert (is_finite (sum_of_squares (ring_order (length ys mod L) (recent w ys))) = true) as Fq.
          { revert Fg. destruct ch; cbn [gain]; auto; intros Fg; now apply mul_fin in Fg. }
          apply sum_of_squares_near in Fq. rewrite (Permutation_length (ring_perm _ _)), recent_length in Fq.
          rewrite (total_perm _ _ (Permutation_map sq (ring_perm (length ys mod L) (recent w ys)))) in Fq. exact Fq. }
    specialize (IH (Datatypes.S k) (add_role L w s (ch, ys)) (S + weight ch * total (map sq (recent w ys)))).
    replace (w + 3 + k + Datatypes.S (length l))%nat with (w + 3 + Datatypes.S k + length l)%nat by lia.
    replace (k + Datatypes.S (length l))%nat with (Datatypes.S k + length l)%nat by lia.
    replace (S + (weight ch * total (map sq (recent w ys)) + fold_right Rplus 0 (map (fun '(ch, ys) => weight ch * total (map sq (recent w ys))) l)))
      with (S + weight ch * total (map sq (recent w ys)) + total (map (fun '(ch, ys) => weight ch * total (map sq (recent w ys))) l))
      by (unfold total; ring).
    apply IH; auto.
    + unfold add_role. destruct (unused ch); auto. apply add_unsigned; auto. apply gain_unsigned, sum_of_squares_unsigned.
    + lra.
Qed.
Lemma energy_near L w roles ss : (1 <= w)%nat -> (Z.of_nat w <= 2 ^ 53)%Z -> is_finite (energy L w roles ss) = true ->
  nearly (w + length roles + 4) (3 * INR (length roles) + 1) (real (energy L w roles ss)) (mean_square w roles ss).
Proof.
  intros Hw1 Hw HF. destruct (f64_of_nat_real w Hw) as (Fw & Rw).
  assert (1 <= INR w) as Hw2 by (replace 1 with (INR 1) by reflexivity; now apply le_INR).
  unfold energy in *. destruct (div_fin _ _ Fw ltac:(rewrite Rw; lra) HF) as (Fn & ->). rewrite Rw.
  change (fun sum '(ch, ys) => if unused ch then sum
     else f64_add sum (gain ch (sum_of_squares (ring_order (length ys mod L) (recent w ys))))) with (add_role L w) in *.
  destruct (roles_near L w (combine roles ss) 0 f64_zero 0) as (_ & K); auto; try lra.
  { reflexivity. }
  { unfold nearly. cbn [INR real B2R f64_zero]. rewrite Rmult_0_l. cbn. lra. }
  rewrite Rplus_0_l in K. cbn [Nat.add] in K.
  assert (length (combine roles ss) <= length roles)%nat as Hlen by (rewrite combine_length; lia).
  set (sum := fold_left (add_role L w) (combine roles ss) f64_zero) in *.
  assert (0 <= real sum) as Hs.
  { apply unsigned_real. unfold sum. assert (forall l s, unsigned s -> unsigned (fold_left (add_role L w) l s)) as X.
    { induction l as [|[ch ys] l IH]; intros s Hs; auto. cbn [fold_left]. apply IH. unfold add_role. destruct (unused ch); auto.
      apply add_unsigned; auto. apply gain_unsigned, sum_of_squares_unsigned. }
    now apply X. }
  assert (0 <= total (map (fun '(ch, ys) => weight ch * total (map sq (recent w ys))) (combine roles ss))) as HT.
  { apply total_nonneg. rewrite Forall_map. apply Forall_forall. intros (ch, ys) _. apply Rmult_le_pos; [apply weight_pos|apply sq_nonneg]. }
  assert (INR (length (combine roles ss)) <= INR (length roles)) as HI by now apply le_INR.
  pose proof (pos_INR (length (combine roles ss))) as Hp.
  apply nearly_mono with (n := S (w + 3 + 0 + length (combine roles ss))) (d := INR (length (combine roles ss)) * (2 * INR w + 1) / INR w + 1).
  - lia.
  - assert (0 <= INR (length (combine roles ss)) * (2 * INR w + 1) / INR w <= 3 * INR (length roles)); [|lra].
    assert (0 < / INR w) by (apply Rinv_0_lt_compat; lra). split.
    + apply Rmult_le_pos; [|lra]. apply Rmult_le_pos; lra.
    + apply Rmult_le_reg_r with (INR w); [lra|]. unfold Rdiv. rewrite Rmult_assoc, Rinv_l by lra. nra.
  - unfold mean_square. apply Rmult_le_pos; [exact HT|]. left. apply Rinv_0_lt_compat. lra.
  - change (B2R sum) with (real sum). unfold mean_square.
    assert (0 <= real sum / INR w) by (apply Rmult_le_pos; [exact Hs|left; apply Rinv_0_lt_compat; lra]).
    apply nearly_rnd; auto.
    + apply Rmult_le_pos; [exact HT|]. left. apply Rinv_0_lt_compat. lra.
    + apply Rmult_le_pos; [apply Rmult_le_pos; lra|]. left. apply Rinv_0_lt_compat. lra.
    + apply nearly_over; auto. apply Rmult_le_pos; lra.
Qed.

Lemma gain_unit ch x : weight ch = 1 -> gain ch x = x.
Proof. destruct ch; cbn [weight gain]; auto; lra. Qed.
Lemma energy_near_taped P E e t w : is_64bit P -> taped P E e t -> (1 <= w <= capacity e)%nat ->
  let x := energy (capacity e) w (e_cmap e) (signals t) in
  is_finite x = true ->
  nearly (w + e_channels e + 4) (3 * INR (e_channels e) + 1) (real x) (mean_square w (e_cmap e) (signals t)).
Proof.
  intros HP HT Hw x Hx. pose proof (taped_reachable P E e t HT) as Hr.
  destruct (reachable_inv P E e HP Hr) as (g & L & H & _). rewrite <- (i_cmap _ _ _ _ _ H).
  apply energy_near; auto; [lia|]. pose proof (capacity_small P E e HP Hr). lia.
Qed.

Lemma interval_near P E e t w : is_64bit P -> taped P E e t -> (1 <= w <= capacity e)%nat ->
  exists x, energy_in_interval e w = Ret (Ok x) /\
    (is_finite x = true ->
     nearly (w + e_channels e + 4) (3 * INR (e_channels e) + 1) (real x) (mean_square w (e_cmap e) (signals t))).
Proof.
  intros HP HT Hw. exists (energy (capacity e) w (e_cmap e) (signals t)). split.
  - rewrite (interval_ok P E e t w HP HT). destruct (Nat.ltb_spec (capacity e) w); [lia|reflexivity].
  - now apply (energy_near_taped P E e t w).
Qed.
Lemma apply_weight_unit ch x : weight ch = 1 -> apply_weight ch x = x.
Proof. destruct ch; cbn [weight apply_weight]; auto; lra. Qed.
