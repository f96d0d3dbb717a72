(** Sums of squares in floating point: signs, doubling, silence. *)
From Coq Require Import List Arith NArith ZArith Bool Lia Reals Lra.
From Flocq Require Import Core.Core IEEE754.BinarySingleNaN.
From Verif Require Import Prelude Float Env Filter Ebur128 Float_proofs Spec.
Import ListNotations.
Local Open Scope nat_scope.

(** not negative: a NaN counts as non-negative, -0 does not *)
Definition unsigned (x : f64) : Prop := Bsign x = false.

Lemma add_unsigned x y : unsigned x -> unsigned y -> unsigned (f64_add x y).
Proof.
  unfold unsigned, f64_add. intros Hx Hy.
  destruct (is_finite x) eqn:Fx, (is_finite y) eqn:Fy.
  - pose proof (Bplus_correct 53 1024 _ _ mode_NE x y Fx Fy) as H.
    destruct (Rlt_bool _ _).
    + destruct H as (_ & _ & ->). rewrite Hx, Hy. cbn.
      destruct (Rcompare_spec (B2R x + B2R y) 0) as [Hr|Hr|Hr]; auto. exfalso.
      assert (0 <= B2R x)%R by (apply nn_B2R; split; auto; now destruct x).
      assert (0 <= B2R y)%R by (apply nn_B2R; split; auto; now destruct y). lra.
    + destruct H as (H & _). rewrite Hx in H. 
      assert (Bplus mode_NE x y = B754_infinity false) as ->; auto.
      apply B2SF_inj. rewrite H. reflexivity.
  - destruct y as [[]|[]| |]; try discriminate; destruct x as [[]|[]| |[] ? ? ?]; try discriminate; reflexivity.
  - destruct x as [[]|[]| |]; try discriminate; destruct y as [[]|[]| |[] ? ? ?]; try discriminate; reflexivity.
  - destruct x as [[]|[]| |]; try discriminate; destruct y as [[]|[]| |]; try discriminate; reflexivity.
Qed.
Lemma mul_sign x y : is_nan (f64_mul x y) = false -> Bsign (f64_mul x y) = xorb (Bsign x) (Bsign y).
Proof.
  unfold f64_mul. intros Hn. pose proof (Bmult_correct 53 1024 _ _ mode_NE x y) as H.
  destruct (Rlt_bool _ _).
  - now apply H.
  - assert (Bmult mode_NE x y = B754_infinity (xorb (Bsign x) (Bsign y))) as ->; auto.
    apply B2SF_inj. rewrite H. reflexivity.
Qed.
Lemma nan_unsigned x : is_nan x = true -> unsigned x.
Proof. destruct x; try discriminate. reflexivity. Qed.
Lemma mul_unsigned x y : xorb (Bsign x) (Bsign y) = false -> unsigned (f64_mul x y).
Proof.
  intros H. destruct (is_nan (f64_mul x y)) eqn:Hn; [now apply nan_unsigned|]. unfold unsigned. now rewrite mul_sign.
Qed.
Lemma div_unsigned x y : unsigned x -> unsigned y -> unsigned (f64_div x y).
Proof.
  unfold unsigned, f64_div. intros Hx Hy.
  destruct (is_nan (Bdiv mode_NE x y)) eqn:Hn; [now apply nan_unsigned|].
  destruct y as [sy|sy| |sy my ey By]; try discriminate.
  - destruct x as [[]|[]| |[] ? ? ?]; cbn in *; subst; try discriminate; reflexivity.
  - destruct x as [[]|[]| |[] ? ? ?]; cbn in *; subst; try discriminate; reflexivity.
  - destruct x as [[]|[]| |[] ? ? ?]; discriminate.
  - assert (B2R (B754_finite sy my ey By) <> 0%R) as Hz.
    { cbn. apply F2R_neq_0. cbn. destruct sy; discriminate. }
    pose proof (Bdiv_correct 53 1024 _ _ mode_NE x _ Hz) as H.
    destruct (Rlt_bool _ _).
    + destruct H as (_ & _ & H). rewrite (H Hn), Hx, Hy. reflexivity.
    + rewrite Hx, Hy in H.
      assert (Bdiv mode_NE x (B754_finite sy my ey By) = B754_infinity false) as ->; auto.
      apply B2SF_inj. rewrite H. reflexivity.
Qed.
Lemma squares_unsigned l : forall s, unsigned s -> unsigned (fold_left (fun sum y => f64_add sum (f64_mul y y)) l s).
Proof.
  induction l as [|y l IH]; intros s Hs; cbn [fold_left]; auto. apply IH. apply add_unsigned; auto.
  apply mul_unsigned. apply xorb_nilpotent.
Qed.
Lemma sum_of_squares_unsigned l : unsigned (sum_of_squares l).
Proof. now apply squares_unsigned. Qed.
Lemma gain_unsigned ch x : unsigned x -> unsigned (gain ch x).
Proof.
  intros H. assert (unsigned (f64_bin 6350075474592399 (-52))) as H1 by (vm_compute; reflexivity).
  assert (unsigned f64_two) as H2 by (vm_compute; reflexivity).
  destruct ch; cbn [gain]; auto; apply mul_unsigned; unfold unsigned in *; rewrite H; auto.
Qed.
Lemma f64_of_nat_unsigned n : unsigned (f64_of_nat n).
Proof.
  unfold unsigned, f64_of_nat, f64_of_Z, f64_bin.
  pose proof (binary_normalize_correct 53 1024 _ _ mode_NE (Z.of_nat n) 0 false) as H. cbv zeta in H.
  assert (0 <= F2R (Float radix2 (Z.of_nat n) 0))%R as Hp by (apply F2R_ge_0; cbn; lia).
  destruct (Rlt_bool _ _).
  - destruct H as (_ & _ & ->). destruct (Rcompare_spec (F2R (Float radix2 (Z.of_nat n) 0)) 0); auto. lra.
  - rewrite Rlt_bool_false in H by exact Hp.
    match goal with |- Bsign ?x = _ => assert (x = B754_infinity false) as -> end; auto.
    apply B2SF_inj. rewrite H. reflexivity.
Qed.
(** every energy is non-negative or NaN *)
Lemma energy_unsigned L w roles ss : unsigned (energy L w roles ss).
Proof.
  unfold energy. apply div_unsigned; [|apply f64_of_nat_unsigned].
  assert (forall l s, unsigned s -> unsigned (fold_left (fun sum '(ch, ys) =>
             if unused ch then sum
             else f64_add sum (gain ch (sum_of_squares (ring_order (length ys mod L) (recent w ys))))) l s)) as X.
  { induction l as [|[ch ys] l IH]; intros s Hs; cbn [fold_left]; auto. apply IH.
    destruct (unused ch); auto. apply add_unsigned; auto. apply gain_unsigned, sum_of_squares_unsigned. }
  now apply X.
Qed.
Lemma unsigned_not_le0 x : unsigned x -> f64_le x f64_zero = true -> x = f64_zero.
Proof.
  unfold unsigned, f64_le, f64_zero. destruct x as [[]|[]| |[] m e B]; intros Hs H; try discriminate Hs; try discriminate H; auto.
Qed.

(** 2 * x = x + x and 0 + x = x, whatever the rounding *)
Lemma two_finite : is_finite f64_two = true /\ B2R f64_two = 2%R /\ Bsign f64_two = false.
Proof.
  repeat split; auto. 
  unfold f64_two, f64_of_Z, f64_bin.
  pose proof (binary_normalize_correct 53 1024 _ _ mode_NE 2 0 false) as H. cbv zeta in H.
  assert (F2R (Float radix2 2 0) = 2%R) as E2 by (unfold F2R; cbn; lra).
  rewrite E2 in H.
  rewrite round_generic in H; [|apply valid_rnd_N|].
  2:{ replace 2%R with (bpow radix2 1) by (cbn; lra). apply generic_format_bpow. unfold SpecFloat.fexp, SpecFloat.emin. lia. }
  rewrite Rlt_bool_true in H.
  - apply H.
  - rewrite Rabs_pos_eq by lra. replace 2%R with (bpow radix2 1) by (cbn; lra). apply bpow_lt. lia.
Qed.
Lemma add_self x : unsigned x -> f64_mul x f64_two = f64_add x x.
Proof.
  destruct two_finite as (F2 & R2 & S2). unfold unsigned, f64_mul, f64_add. intros Hx.
  destruct (is_finite x) eqn:Fx.
  - pose proof (Bmult_correct 53 1024 _ _ mode_NE x f64_two) as H.
    pose proof (Bplus_correct 53 1024 _ _ mode_NE x x Fx Fx) as H'.
    rewrite R2 in H. replace (B2R x * 2)%R with (B2R x + B2R x)%R in H by ring.
    rewrite Hx, S2 in H. rewrite Hx in H'. 
    destruct (Rlt_bool _ _).
    + destruct H as (A1 & A2 & A3). destruct H' as (B1 & B2 & B3). rewrite Fx, F2 in A2. cbn in A2.
      apply B2R_Bsign_inj; auto.
      * congruence.
      * rewrite A3 by now destruct (Bmult _ _ _). rewrite B3. cbn.
        destruct (Rcompare_spec (B2R x + B2R x) 0) as [Hr|Hr|Hr]; auto.
        assert (0 <= B2R x)%R by (apply nn_B2R; split; auto; now destruct x). lra.
    + destruct H' as (H' & _). apply B2SF_inj. rewrite H, H'. reflexivity.
  - destruct x as [[]|[]| |]; try discriminate; reflexivity.
Qed.
Lemma add_zero_l x : unsigned x -> f64_add f64_zero x = x.
Proof.
  unfold unsigned, f64_add, f64_zero. intros Hx. destruct x as [[]|[]| |s m e B]; try discriminate; auto.
Qed.
Lemma energy_dual L w ys : energy L w [DualMono] [ys] = energy L w [Filter.Left; Filter.Right] [ys; ys].
Proof.
  unfold energy. cbn [combine fold_left unused gain]. f_equal.
  set (s := sum_of_squares _). assert (unsigned s) as Hs by apply sum_of_squares_unsigned.
  rewrite (add_self s Hs), (add_zero_l s Hs). apply add_zero_l. now apply add_unsigned.
Qed.
