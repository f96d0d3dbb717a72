(** Facts about the binary formats. *)
From Coq Require Import ZArith NArith List Bool Lia Reals Lra.
From Flocq Require Import Core.Core IEEE754.BinarySingleNaN.
From Verif Require Import Prelude Float Env Utils Ref.
Import ListNotations.
Local Open Scope R_scope.

Notation fexp64 := (SpecFloat.fexp 53 1024).
Notation fexp32 := (SpecFloat.fexp 24 128).
Notation rnd64 := (round radix2 fexp64 ZnearestE).
Notation rnd32 := (round radix2 fexp32 ZnearestE).

#[global] Instance valid64 : Valid_exp fexp64 := fexp_correct 53 1024 Hprec64.
#[global] Instance valid32 : Valid_exp fexp32 := fexp_correct 24 128 Hprec32.

Lemma rnd64_generic x : generic_format radix2 fexp64 x -> rnd64 x = x.
Proof. apply round_generic; apply valid_rnd_N. Qed.
Lemma rnd32_generic x : generic_format radix2 fexp32 x -> rnd32 x = x.
Proof. apply round_generic; apply valid_rnd_N. Qed.

Lemma generic_32_64 x : generic_format radix2 fexp32 x -> generic_format radix2 fexp64 x.
Proof.
  apply generic_inclusion_mag. intros _. unfold SpecFloat.fexp, SpecFloat.emin. lia.
Qed.

Lemma B2R_64 (x : f64) : generic_format radix2 fexp64 (B2R x).
Proof. apply generic_format_B2R. Qed.
Lemma B2R_32 (x : f32) : generic_format radix2 fexp32 (B2R x).
Proof. apply generic_format_B2R. Qed.

(** f32 -> f64 is exact *)
Lemma f64_of_f32_finite (x : f32) : is_finite x = true ->
  is_finite (f64_of_f32 x) = true /\ B2R (f64_of_f32 x) = B2R x /\ Bsign (f64_of_f32 x) = Bsign x.
Proof.
  destruct x as [s|s| |s m e H]; try discriminate; intros _; simpl; auto.
  unfold f64_of_f32.
  set (x := B754_finite s m e H : f32).
  pose proof (binary_normalize_correct 53 1024 Hprec64 Hmax64 mode_NE (SpecFloat.cond_Zopp s (Zpos m)) e s) as HC.
  cbv zeta in HC. change (round_mode mode_NE) with ZnearestE in HC.
  change (F2R {| Fnum := SpecFloat.cond_Zopp s (Zpos m); Fexp := e |}) with (B2R x) in HC.
  rewrite rnd64_generic in HC by (apply generic_32_64, B2R_32).
  rewrite Rlt_bool_true in HC.
  - destruct HC as (H1 & H2 & H3). split; [exact H2|]. split; [exact H1|].
    etransitivity; [exact H3|]. simpl.
    destruct s; simpl.
    + rewrite Rcompare_Lt; auto. now apply F2R_lt_0.
    + rewrite Rcompare_Gt; auto. now apply F2R_gt_0.
  - eapply Rlt_trans; [apply (abs_B2R_lt_emax 24 128 x)|]. apply bpow_lt. lia.
Qed.

Lemma f32_of_f64_of_f32 (x : f32) : f32_of_f64 (f64_of_f32 x) = x.
Proof.
  destruct (is_finite x) eqn:Hf.
  2:{ destruct x as [s|s| |s m e H]; try discriminate; reflexivity. }
  destruct (f64_of_f32_finite x Hf) as (H1 & H2 & H3).
  destruct (f64_of_f32 x) as [s|s| |s m e H] eqn:E; try discriminate.
  - destruct x as [s'|s'| |s' m e H]; try discriminate.
    + unfold f64_of_f32 in E. unfold f32_of_f64. congruence.
    + exfalso. simpl in H2. symmetry in H2. apply eq_0_F2R in H2. destruct s'; discriminate.
  - unfold f32_of_f64.
    set (y := B754_finite s m e H : f64) in *.
    pose proof (binary_normalize_correct 24 128 Hprec32 Hmax32 mode_NE (SpecFloat.cond_Zopp s (Zpos m)) e s) as HC.
    cbv zeta in HC. change (round_mode mode_NE) with ZnearestE in HC.
    change (F2R {| Fnum := SpecFloat.cond_Zopp s (Zpos m); Fexp := e |}) with (B2R y) in HC.
    rewrite H2 in HC. rewrite rnd32_generic in HC by apply B2R_32.
    rewrite Rlt_bool_true in HC by apply (abs_B2R_lt_emax 24 128 x).
    destruct HC as (C1 & C2 & C3). apply B2R_Bsign_inj; auto.
    etransitivity; [exact C3|]. rewrite <- H3, <- H2. simpl.
    destruct s; simpl.
    + rewrite Rcompare_Lt; auto. now apply F2R_lt_0.
    + rewrite Rcompare_Gt; auto. now apply F2R_gt_0.
Qed.

Lemma f64_of_f32_inj x y : f64_of_f32 x = f64_of_f32 y -> x = y.
Proof. intros H. rewrite <- (f32_of_f64_of_f32 x), H. apply f32_of_f64_of_f32. Qed.

(** comparisons *)
Lemma Bltb_spec {p e} (x y : binary_float p e) :
  Bltb x y = match x, y with
             | B754_nan, _ | _, B754_nan => false
             | B754_infinity false, _ => false
             | _, B754_infinity true => false
             | B754_infinity true, _ => true
             | _, B754_infinity false => true
             | _, _ => Rlt_bool (B2R x) (B2R y)
             end.
Proof.
  destruct x as [[]|[]| |[] m1 e1 H1], y as [[]|[]| |[] m2 e2 H2];
    try reflexivity; apply Bltb_correct; reflexivity.
Qed.

Lemma Bleb_spec {p e} (x y : binary_float p e) :
  Bleb x y = match x, y with
             | B754_nan, _ | _, B754_nan => false
             | B754_infinity true, _ => true
             | _, B754_infinity false => true
             | B754_infinity false, _ => false
             | _, B754_infinity true => false
             | _, _ => Rle_bool (B2R x) (B2R y)
             end.
Proof.
  destruct x as [[]|[]| |[] m1 e1 H1], y as [[]|[]| |[] m2 e2 H2];
    try reflexivity; apply Bleb_correct; reflexivity.
Qed.

Lemma f64_gt_of_f32 a b : f64_gt (f64_of_f32 a) (f64_of_f32 b) = f32_gt a b.
Proof.
  unfold f64_gt, f32_gt.
  destruct (is_finite a) eqn:Ha, (is_finite b) eqn:Hb.
  - destruct (f64_of_f32_finite a Ha) as (A1 & A2 & _), (f64_of_f32_finite b Hb) as (B1 & B2 & _).
    rewrite !Bltb_correct by auto. congruence.
  - destruct (f64_of_f32_finite a Ha) as (A1 & A2 & _).
    destruct b as [| | |]; try discriminate; destruct (f64_of_f32 a), a; try discriminate;
      try reflexivity; destruct s; reflexivity.
  - destruct (f64_of_f32_finite b Hb) as (B1 & B2 & _).
    destruct a as [| | |]; try discriminate; destruct (f64_of_f32 b), b; try discriminate;
      try reflexivity; destruct s; reflexivity.
  - destruct a, b; try discriminate; reflexivity.
Qed.

Lemma f64_of_f32_max a b : f64_of_f32 (max32 a b) = max64 (f64_of_f32 a) (f64_of_f32 b).
Proof. unfold max32, max64. rewrite f64_gt_of_f32. destruct (f32_gt b a); reflexivity. Qed.

Lemma Bsign_Babs {p e} (x : binary_float p e) : is_nan x = false -> Bsign (Babs x) = false.
Proof. destruct x; simpl; congruence. Qed.

Lemma f64_of_f32_abs a : f64_of_f32 (f32_abs a) = f64_abs (f64_of_f32 a).
Proof.
  destruct (is_finite a) eqn:Ha.
  - assert (is_finite (f32_abs a) = true) as Ha' by (destruct a; try discriminate; reflexivity).
    destruct (f64_of_f32_finite a Ha) as (A1 & A2 & A3).
    destruct (f64_of_f32_finite _ Ha') as (B1 & B2 & B3).
    apply B2R_Bsign_inj; auto.
    + unfold f64_abs. now rewrite is_finite_Babs.
    + rewrite B2. unfold f32_abs, f64_abs. rewrite !B2R_Babs. congruence.
    + rewrite B3. unfold f32_abs, f64_abs. rewrite !Bsign_Babs; auto.
      * destruct (f64_of_f32 a); try discriminate; reflexivity.
      * destruct a; try discriminate; reflexivity.
  - destruct a; try discriminate; reflexivity.
Qed.

(** flushing *)
Lemma flush32_idem x : flush32 (flush32 x) = flush32 x.
Proof.
  destruct x as [s|s| |s m e H]; try reflexivity. unfold flush32 at 2 3.
  destruct (Z.pos m <? 2 ^ 23)%Z eqn:E; try reflexivity. unfold flush32. now rewrite E.
Qed.
Lemma flush64_idem x : flush64 (flush64 x) = flush64 x.
Proof.
  destruct x as [s|s| |s m e H]; try reflexivity. unfold flush64 at 2 3.
  destruct (Z.pos m <? 2 ^ 52)%Z eqn:E; try reflexivity. unfold flush64. now rewrite E.
Qed.
Lemma ftz32_idem P x : ftz32 P (ftz32 P x) = ftz32 P x.
Proof. unfold ftz32. destruct (p_ftz P); auto using flush32_idem. Qed.
Lemma ftz64_idem P x : ftz64 P (ftz64 P x) = ftz64 P x.
Proof. unfold ftz64. destruct (p_ftz P); auto using flush64_idem. Qed.

(** values not changed by flushing *)
Definition stable32 (P : platform) (x : f32) : Prop := ftz32 P x = x.
Lemma stable32_zero P : stable32 P f32_zero.
Proof. unfold stable32, ftz32. destruct (p_ftz P); reflexivity. Qed.
Lemma stable32_ftz P x : stable32 P (ftz32 P x).
Proof. apply ftz32_idem. Qed.
Lemma stable32_abs P x : stable32 P x -> stable32 P (f32_abs x).
Proof.
  unfold stable32, ftz32. destruct (p_ftz P); auto.
  destruct x as [s|s| |s m e H]; try reflexivity.
  unfold flush32, f32_abs, Babs. destruct (Z.pos m <? 2 ^ 23)%Z; congruence.
Qed.
Lemma stable32_max P x y : stable32 P x -> stable32 P y -> stable32 P (max32 x y).
Proof. unfold max32. destruct (f32_gt y x); auto. Qed.

(** * Non-negative numbers (no NaN, sign bit clear) *)
Definition nn {p e} (x : binary_float p e) : Prop := is_nan x = false /\ Bsign x = false.

Lemma Bltb_irrefl {p e} (x : binary_float p e) : Bltb x x = false.
Proof.
  rewrite Bltb_spec. destruct x as [s|s| |s m ex H]; try destruct s; auto;
    apply Rlt_bool_false; lra.
Qed.

Lemma Bltb_trans {p e} (x y z : binary_float p e) : Bltb x y = true -> Bltb y z = true -> Bltb x z = true.
Proof.
  rewrite !Bltb_spec.
  destruct x as [[]|[]| |[] m1 e1 H1], y as [[]|[]| |[] m2 e2 H2], z as [[]|[]| |[] m3 e3 H3];
    try congruence; intros A B;
    repeat match goal with H : Rlt_bool _ _ = true |- _ => apply Rlt_bool_true_iff in H || (revert H; case Rlt_bool_spec; [intros|discriminate]) end;
    try (apply Rlt_bool_true; lra).
Qed.

Lemma nn_total {p e} (x y : binary_float p e) : nn x -> nn y ->
  Bltb x y = false -> Bltb y x = false -> x = y.
Proof.
  intros (N1 & S1) (N2 & S2). rewrite !Bltb_spec.
  destruct x as [s1|s1| |s1 m1 e1 H1], y as [s2|s2| |s2 m2 e2 H2]; simpl in S1, S2; subst; try discriminate; auto;
    intros A B; apply B2R_Bsign_inj; auto;
    revert A B; case Rlt_bool_spec; try discriminate; case Rlt_bool_spec; try discriminate; intros; lra.
Qed.

Lemma Bltb_false_trans {p e} (x y z : binary_float p e) :
  is_nan y = false -> Bltb x y = false -> Bltb y z = false -> Bltb x z = false.
Proof.
  rewrite !Bltb_spec. intros Hy.
  destruct x as [[]|[]| |[] m1 e1 H1], y as [[]|[]| |[] m2 e2 H2], z as [[]|[]| |[] m3 e3 H3];
    try discriminate; try congruence; intros A B;
    repeat match goal with H : Rlt_bool _ _ = false |- _ => revert H; case Rlt_bool_spec; [discriminate|intros] end;
    try (apply Rlt_bool_false; lra).
Qed.

Lemma max64_nn a b : nn a -> nn b -> nn (max64 a b).
Proof. unfold max64. destruct (f64_gt b a); auto. Qed.
Lemma max64_nan_l a b : is_nan b = true -> max64 a b = a.
Proof. unfold max64, f64_gt. rewrite Bltb_spec. destruct a, b; try discriminate; try destruct s; auto. Qed.
(** max with anything that is not NaN stays a number *)
Lemma Bltb_nn {p e} (a b : binary_float p e) : nn a -> Bltb a b = true -> nn b.
Proof.
  unfold nn. intros (H1 & H2) H. rewrite Bltb_spec in H.
  destruct b as [sb|sb| |sb m' e' H']; try (now destruct a as [?|[]| |? ? ? ?]; try discriminate; auto).
  - split; auto. destruct sb; auto. exfalso.
    destruct a as [sa|sa| |sa m ex Ha]; simpl in H1, H2; subst; try discriminate.
    + revert H. simpl. case Rlt_bool_spec; [lra|discriminate].
    + revert H. case Rlt_bool_spec; [|discriminate]. intros Hlt _. revert Hlt.
      assert (0 < B2R (B754_finite false m ex Ha : binary_float p e)) by (simpl; now apply F2R_gt_0). simpl in *. lra.
  - split; auto. destruct sb; auto. exfalso.
    destruct a as [sa|sa| |sa m ex Ha]; simpl in H1, H2; subst; try discriminate.
  - split; auto. destruct sb; auto. exfalso.
    assert (B2R (B754_finite true m' e' H' : binary_float p e) < 0) by (simpl; now apply F2R_lt_0).
    destruct a as [sa|sa| |sa m ex Ha]; simpl in H1, H2; subst; try discriminate.
    + revert H. case Rlt_bool_spec; [|discriminate]. simpl in *. lra.
    + revert H. case Rlt_bool_spec; [|discriminate]. intros Hlt _. revert Hlt.
      assert (0 < B2R (B754_finite false m ex Ha : binary_float p e)) by (simpl; now apply F2R_gt_0). simpl in *. lra.
Qed.
Lemma max64_nn_l a b : nn a -> nn (max64 a b).
Proof. unfold max64, f64_gt. destruct (Bltb a b) eqn:E; auto. intros H. eapply Bltb_nn; eauto. Qed.
Lemma max64_assoc a b c : nn a -> nn b -> nn c -> max64 (max64 a b) c = max64 a (max64 b c).
Proof.
  intros Ha Hb Hc. unfold max64, f64_gt.
  destruct (Bltb a b) eqn:Eab, (Bltb b c) eqn:Ebc; rewrite ?Eab; auto.
  - now rewrite (Bltb_trans _ _ _ Eab Ebc).
  - destruct (Bltb a c) eqn:Eac; auto. exfalso.
    pose proof (Bltb_false_trans a b c (proj1 Hb) Eab Ebc). congruence.
Qed.

(** functions that preserve order on non-negative numbers *)
Definition mono64 (f : f64 -> f64) : Prop :=
  (forall a, nn a -> nn (f a)) /\ (forall a b, nn a -> nn b -> Bltb a b = true -> Bltb (f b) (f a) = false).
Lemma mono64_max f a b : mono64 f -> nn a -> nn b -> f (max64 a b) = max64 (f a) (f b).
Proof.
  intros (Hn & Hm) Ha Hb. unfold max64, f64_gt. destruct (Bltb a b) eqn:E.
  - destruct (Bltb (f a) (f b)) eqn:E2; auto. apply nn_total; auto.
  - destruct (Bltb (f a) (f b)) eqn:E2; auto.
    destruct (Bltb b a) eqn:E3.
    + rewrite (Hm _ _ Hb Ha E3) in E2. discriminate.
    + f_equal. now apply nn_total.
Qed.
Lemma mono64_comp f g : mono64 f -> mono64 g -> mono64 (fun x => f (g x)).
Proof.
  intros (F1 & F2) (G1 & G2). split; auto. intros a b Ha Hb H.
  destruct (Bltb (g a) (g b)) eqn:E.
  - apply F2; auto.
  - assert (g a = g b) as -> by (apply nn_total; auto). apply Bltb_irrefl.
Qed.

Lemma nn_B2R {p e} (x : binary_float p e) : nn x -> 0 <= B2R x.
Proof.
  intros (H1 & H2). destruct x as [s|s| |s m ex H]; simpl in *; subst; try lra. left. now apply F2R_gt_0.
Qed.

Lemma flush64_mono : mono64 flush64.
Proof.
  assert (nf : forall a, nn a -> nn (flush64 a)).
  { intros a (H1 & H2). destruct a as [s|s| |s m e H]; unfold flush64; try (split; auto; fail).
    destruct (Z.pos m <? 2 ^ 52)%Z; split; auto. }
  split; auto.
  intros a b Ha Hb Hab.
  destruct (Bltb (flush64 b) (flush64 a)) eqn:E; auto. exfalso.
  assert (Bltb b a = false) as Hba.
  { destruct (Bltb b a) eqn:E2; auto. pose proof (Bltb_trans _ _ _ Hab E2) as C. now rewrite Bltb_irrefl in C. }
  (* the flushed [b] is below: it is a zero, and [a] was not flushed *)
  destruct b as [sb|sb| |sb m' e' H'].
  - unfold flush64 at 1 in E. destruct a as [s|s| |s m e H]; unfold flush64 in E; try congruence.
    destruct (Z.pos m <? 2 ^ 52)%Z; try congruence.
    rewrite Bltb_spec in E. revert E. simpl. case Rlt_bool_spec; [lra|discriminate].
  - unfold flush64 at 1 in E. destruct a as [s|s| |s m e H]; unfold flush64 in E; try congruence.
    destruct sb; [destruct Hb as (_ & Hb); discriminate | rewrite Bltb_spec in E; destruct (Z.pos m <? 2 ^ 52)%Z; discriminate].
  - destruct Hb; discriminate.
  - destruct Hb as (_ & Hb). simpl in Hb. subst sb.
    destruct a as [s|s| |s m e H]; destruct Ha as (A1 & A2); simpl in A1, A2; try discriminate; subst.
    + unfold flush64 in E. destruct (Z.pos m' <? 2 ^ 52)%Z; [|congruence].
      rewrite Bltb_spec in E. revert E. simpl. case Rlt_bool_spec; [lra|discriminate].
    + rewrite Bltb_spec in Hab. discriminate.
    + unfold flush64 in E. destruct (Z.ltb_spec (Z.pos m) (2 ^ 52)).
      { assert (nn (B754_zero false : f64)) by (split; auto).
        destruct (Z.pos m' <? 2 ^ 52)%Z; rewrite Bltb_spec in E; revert E; case Rlt_bool_spec; try discriminate; intros Hlt _; revert Hlt.
        - simpl. lra.
        - assert (0 < B2R (B754_finite false m' e' H' : f64)) by (simpl; now apply F2R_gt_0). simpl in *. lra. }
      destruct (Z.ltb_spec (Z.pos m') (2 ^ 52)); [|congruence].
      rewrite Bltb_spec in Hab. revert Hab. case Rlt_bool_spec; [|discriminate]. intros Hlt _.
      pose proof H' as Hc'. unfold SpecFloat.bounded in Hc'. apply andb_prop in Hc'. destruct Hc' as (Hc' & _).
      unfold SpecFloat.canonical_mantissa in Hc'. apply Zeq_bool_eq in Hc'.
      pose proof H as Hc. unfold SpecFloat.bounded in Hc. apply andb_prop in Hc. destruct Hc as (Hc & _).
      unfold SpecFloat.canonical_mantissa in Hc. apply Zeq_bool_eq in Hc.
      assert (Zpos (SpecFloat.digits2_pos m') <= 52)%Z as D'.
      { rewrite Digits.Zpos_digits2_pos. apply Digits.Zdigits_le_Zpower. rewrite Z.abs_eq by lia. assumption. }
      assert (e' = -1074)%Z as -> by (unfold SpecFloat.fexp, SpecFloat.emin in Hc'; lia).
      assert (-1074 <= e)%Z as He by (unfold SpecFloat.fexp, SpecFloat.emin in Hc; lia).
      cbv [B2R cond_Zopp F2R Fnum Fexp] in Hlt.
      assert (bpow radix2 (-1074) <= bpow radix2 e) as B1 by now apply bpow_le.
      assert (IZR (Zpos m') <= IZR (Zpos m)) as B2 by (apply IZR_le; lia).
      assert (0 < bpow radix2 (-1074)) as B3 by apply bpow_gt_0.
      assert (IZR (Z.pos m') * bpow radix2 (-1074) <= IZR (Z.pos m) * bpow radix2 e).
      { apply Rmult_le_compat; try lra. apply IZR_le. lia. }
      lra.
Qed.
Lemma ftz64_mono P : mono64 (ftz64 P).
Proof.
  unfold ftz64. destruct (p_ftz P); [apply flush64_mono|]. split; auto. intros a b Ha Hb H.
  destruct (Bltb b a) eqn:E; auto. pose proof (Bltb_trans _ _ _ H E) as C. now rewrite Bltb_irrefl in C.
Qed.

Lemma B2R_pos_sign {p e} (x : binary_float p e) : 0 < B2R x -> Bsign x = false.
Proof.
  destruct x as [s|s| |s m ex H]; try (simpl; lra). destruct s; auto. intros Hp. exfalso.
  assert (B2R (B754_finite true m ex H : binary_float p e) < 0) by (simpl; now apply F2R_lt_0). lra.
Qed.
(** division by a positive constant *)
Lemma f64_div_nn_cases (c : f64) : is_finite c = true -> 0 < B2R c ->
  forall a, nn a -> is_finite a = true ->
   (B2R (f64_div a c) = rnd64 (B2R a / B2R c) /\ is_finite (f64_div a c) = true /\ nn (f64_div a c)
      /\ rnd64 (B2R a / B2R c) < bpow radix2 1024)
   \/ (f64_div a c = B754_infinity false /\ bpow radix2 1024 <= rnd64 (B2R a / B2R c)).
Proof.
  intros Fc Pc a Na Fa.
  pose proof (Bdiv_correct 53 1024 _ _ mode_NE a c ltac:(lra)) as H.
  change (round_mode mode_NE) with ZnearestE in H.
  pose proof (nn_B2R a Na) as Pa.
  assert (0 <= rnd64 (B2R a / B2R c)) as Pr.
  { apply round_ge_generic; [apply valid64|apply valid_rnd_N|apply generic_format_0|].
    apply Rmult_le_pos; auto. left. now apply Rinv_0_lt_compat. }
  assert (Bsign a = false) as Sa by apply Na.
  assert (Bsign c = false) as Sc.
  { now apply B2R_pos_sign. }
  revert H. rewrite Rabs_pos_eq by auto. case Rlt_bool_spec; intros Hl H.
  - left. destruct H as (H1 & H2 & H3). unfold f64_div.
    assert (is_finite (Bdiv mode_NE a c) = true) as Hf by congruence.
    assert (is_nan (Bdiv mode_NE a c) = false) as Hnan by (destruct (Bdiv mode_NE a c); auto; discriminate).
    repeat split; auto. rewrite H3; auto. now rewrite Sa, Sc.
  - right. split; auto. unfold f64_div. rewrite Sa, Sc in H. simpl in H. 
    destruct (Bdiv mode_NE a c); simpl in H; try discriminate. unfold binary_overflow in H. simpl in H. congruence.
Qed.
Lemma f64_div_mono (c : f64) : is_finite c = true -> 0 < B2R c -> mono64 (fun a => f64_div a c).
Proof.
  intros Fc Pc.
  assert (inf : f64_div (B754_infinity false) c = B754_infinity false).
  { pose proof (B2R_pos_sign c Pc).
    destruct c as [s|s| |s m e Hb]; simpl in *; try discriminate; try lra. now subst s. }
  assert (nninf : nn (B754_infinity false : f64)) by (split; auto).
  assert (fin : forall a : f64, nn a -> is_finite a = false -> a = B754_infinity false).
  { intros a (A1 & A2) A3. destruct a; simpl in *; congruence. }
  split.
  - intros a Na. destruct (is_finite a) eqn:Fa.
    + destruct (f64_div_nn_cases c Fc Pc a Na Fa) as [H|H]; [tauto|]. now rewrite (proj1 H).
    + rewrite (fin a Na Fa). now rewrite inf.
  - intros a b Na Nb Hab.
    assert (top : forall x : f64, Bltb (B754_infinity false) x = false) by (intros [?|[]| |[] ? ? ?]; reflexivity).
    destruct (is_finite b) eqn:Fb; [|rewrite (fin b Nb Fb), inf; apply top].
    assert (is_finite a = true) as Fa.
    { destruct (is_finite a) eqn:Fa; auto. rewrite (fin a Na Fa), top in Hab. discriminate. }
    rewrite Bltb_correct in Hab by auto.
    destruct (Rlt_bool_spec (B2R a) (B2R b)) as [Hlt|]; [|discriminate].
    assert (rnd64 (B2R a / B2R c) <= rnd64 (B2R b / B2R c)) as Hr.
    { apply round_le; [apply valid64|apply valid_rnd_N|]. apply Rmult_le_compat_r; [|lra].
      left. now apply Rinv_0_lt_compat. }
    destruct (f64_div_nn_cases c Fc Pc a Na Fa) as [(A1 & A2 & A3 & A4)|(A1 & A2)],
             (f64_div_nn_cases c Fc Pc b Nb Fb) as [(B1 & B2 & B3 & B4)|(B1 & B2)].
    + rewrite Bltb_correct by auto. rewrite A1, B1. now apply Rlt_bool_false.
    + rewrite B1. apply top.
    + lra.
    + rewrite B1. apply top.
Qed.
