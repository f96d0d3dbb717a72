(** Rounding to nearest even is symmetric: arithmetic on negated operands. *)
From Coq Require Import ZArith NArith List Bool Lia.
From Coq Require Import Floats.SpecFloat.
From Flocq Require Import Core.Core Calc.Operations IEEE754.BinarySingleNaN.
From Verif Require Import Prelude Float Env Utils Filter Spec.
Import ListNotations.
Local Open Scope Z_scope.

Section Opposite.
Variables prec emax : Z.
Context (Hp : FLX.Prec_gt_0 prec) (Hm : Prec_lt_emax prec emax).
Notation bf := (binary_float prec emax).

(** [y] is [-x], zeros of either sign being alike *)
Definition opp_rel (x y : bf) : Prop :=
  y = Bopp x \/ exists s s', x = B754_zero s /\ y = B754_zero s'.

Lemma round_aux_opp s m e l :
  binary_round_aux prec emax mode_NE (negb s) m e l =
  match binary_round_aux prec emax mode_NE s m e l with
  | S754_zero s => S754_zero (negb s)
  | S754_infinity s => S754_infinity (negb s)
  | S754_nan => S754_nan
  | S754_finite s m e => S754_finite (negb s) m e
  end.
Proof.
  unfold binary_round_aux. destruct (SpecFloat.shr_fexp prec emax m e l) as (r & e').
  cbn [choice_mode].
  destruct (SpecFloat.shr_fexp prec emax _ e' SpecFloat.loc_Exact) as (r' & e'').
  destruct (SpecFloat.shr_m r'); auto. unfold binary_fit_aux.
  destruct (Z.leb e'' (emax - prec)); auto.
Qed.
Lemma SF2B_opp x y Hx Hy :
  y = match x with
  | S754_zero s => S754_zero (negb s)
  | S754_infinity s => S754_infinity (negb s)
  | S754_nan => S754_nan
  | S754_finite s m e => S754_finite (negb s) m e
  end -> SF2B y Hy = Bopp (SF2B (prec := prec) (emax := emax) x Hx).
Proof.
  intros ->. apply B2SF_inj. rewrite B2SF_SF2B. destruct x; reflexivity.
Qed.
Lemma normalize_opp m e s s' : m <> 0 ->
  binary_normalize prec emax Hp Hm mode_NE (- m) e s' = Bopp (binary_normalize prec emax Hp Hm mode_NE m e s).
Proof.
  intros H. unfold binary_normalize. destruct m as [|m|m]; [lia| |]; cbn [Z.opp].
  - apply SF2B_opp. unfold binary_round. destruct (shl_align_fexp _ _ _ _). apply (round_aux_opp false).
  - apply SF2B_opp. unfold binary_round. destruct (shl_align_fexp _ _ _ _). apply (round_aux_opp true).
Qed.
Lemma normalize_rel m e s s' : opp_rel (binary_normalize prec emax Hp Hm mode_NE m e s)
  (binary_normalize prec emax Hp Hm mode_NE (- m) e s').
Proof.
  destruct (Z.eq_dec m 0) as [->|H].
  - right. cbn. eauto.
  - left. now apply normalize_opp.
Qed.
Lemma naive_opp sx mx ex sy my ey ez :
  Fplus_naive (negb sx) mx ex (negb sy) my ey ez = - Fplus_naive sx mx ex sy my ey ez.
Proof.
  unfold Fplus_naive. destruct sx, sy; cbn [negb SpecFloat.cond_Zopp]; lia.
Qed.
Ltac zz := right; do 2 eexists; split; reflexivity.

Lemma plus_rel x x' y y' : opp_rel x x' -> opp_rel y y' -> opp_rel (Bplus mode_NE x y) (Bplus mode_NE x' y').
Proof.
  intros [->|(s & s' & -> & ->)] [->|(t & t' & -> & ->)];
    try destruct x as [sx|sx| |sx mx ex Bx]; try destruct y as [sy|sy| |sy my ey By]; cbn [Bopp Bplus];
    try (left; reflexivity); try (left; rewrite Bopp_involutive; reflexivity);
    try (destruct sx, sy; cbn; (left; reflexivity) || zz);
    try (destruct sx, t, t'; cbn; (left; reflexivity) || zz);
    try (destruct s, s', sy; cbn; (left; reflexivity) || zz);
    try (destruct s, s', t, t'; cbn; (left; reflexivity) || zz).
  rewrite naive_opp. apply normalize_rel.
Qed.
Lemma Bminus_plus (x y : bf) : Bminus mode_NE x y = Bplus mode_NE x (Bopp y).
Proof. destruct x, y; reflexivity. Qed.
Lemma opp_rel_opp x y : opp_rel x y -> opp_rel (Bopp x) (Bopp y).
Proof. intros [->|(s & s' & -> & ->)]; [now left|cbn; zz]. Qed.
Lemma minus_rel x x' y y' : opp_rel x x' -> opp_rel y y' -> opp_rel (Bminus mode_NE x y) (Bminus mode_NE x' y').
Proof. intros. rewrite !Bminus_plus. auto using plus_rel, opp_rel_opp. Qed.
Lemma mult_rel c x x' : opp_rel x x' -> opp_rel (Bmult mode_NE c x) (Bmult mode_NE c x').
Proof.
  intros [->|(s & s' & -> & ->)]; destruct c as [sc|sc| |sc mc ec Bc]; try destruct x as [sx|sx| |sx mx ex Bx];
    cbn [Bopp Bmult]; try (left; reflexivity); try zz;
    try (left; cbn; destruct sc, sx; reflexivity).
  left. apply SF2B_opp. rewrite <- (round_aux_opp (xorb sc sx)). f_equal. destruct sc, sx; reflexivity.
Qed.
Lemma mult_comm (x y : bf) : Bmult mode_NE x y = Bmult mode_NE y x.
Proof.
  destruct x as [sx|sx| |sx mx ex Bx], y as [sy|sy| |sy my ey By]; cbn [Bmult]; rewrite 1?xorb_comm; auto.
  apply B2SF_inj. rewrite !B2SF_SF2B. now rewrite xorb_comm, Pos.mul_comm, Z.add_comm.
Qed.
Lemma mult_rel_l c x x' : opp_rel x x' -> opp_rel (Bmult mode_NE x c) (Bmult mode_NE x' c).
Proof. intros. rewrite (mult_comm x), (mult_comm x'). now apply mult_rel. Qed.
Lemma square_rel x x' : opp_rel x x' -> Bmult mode_NE x x = Bmult mode_NE x' x'.
Proof.
  intros [->|(s & s' & -> & ->)].
  - destruct x as [sx|sx| |sx mx ex Bx]; cbn [Bopp Bmult]; try (destruct sx; reflexivity); auto.
    apply B2SF_inj. rewrite !B2SF_SF2B. f_equal. destruct sx; reflexivity.
  - cbn. now rewrite !xorb_nilpotent.
Qed.
Lemma div_rel c x x' : opp_rel x x' -> opp_rel (Bdiv mode_NE x c) (Bdiv mode_NE x' c).
Proof.
  intros [->|(s & s' & -> & ->)]; destruct c as [sc|sc| |sc mc ec Bc]; try destruct x as [sx|sx| |sx mx ex Bx];
    cbn [Bopp Bdiv]; try (left; reflexivity); try zz;
    try (left; cbn; destruct sc, sx; reflexivity).
  left. apply SF2B_opp. destruct (SpecFloat.SFdiv_core_binary _ _ _ _ _ _) as ((mz & ez) & lz).
  rewrite <- (round_aux_opp (xorb sx sc)). f_equal. destruct sc, sx; reflexivity.
Qed.
Lemma Fplus_opp m e m' e' : let r := @Fplus radix2 (Float radix2 m e) (Float radix2 m' e') in
  @Fplus radix2 (Float radix2 (- m) e) (Float radix2 (- m') e') = Float radix2 (- Fnum r) (Fexp r).
Proof.
  cbv zeta. unfold Fplus, Falign. destruct (e <=? e')%Z; cbn [Fnum Fexp]; f_equal; ring.
Qed.
Lemma cond_negb s m : cond_Zopp (negb s) m = - cond_Zopp s m.
Proof. destruct s; cbn; lia. Qed.
Lemma Fmult_opp m e m' e' : @Fmult radix2 (Float radix2 (- m) e) (Float radix2 m' e') =
  Float radix2 (- (m * m')) (e + e').
Proof. unfold Fmult. f_equal. ring. Qed.
Lemma fma_rel c x x' z z' : opp_rel x x' -> opp_rel z z' -> opp_rel (Bfma mode_NE x c z) (Bfma mode_NE x' c z').
Proof.
  intros [->|(s & s' & -> & ->)] [->|(t & t' & -> & ->)];
    destruct c as [sc|sc| |sc mc ec Bc]; try destruct x as [sx|sx| |sx mx ex Bx]; try destruct z as [sz|sz| |sz mz ez Bz];
    cbn [Bopp Bfma]; try (left; reflexivity); try (left; rewrite Bopp_involutive; reflexivity); try zz;
    try (left; cbn; destruct sc, sx; reflexivity);
    try (left; cbn; destruct sc, sx, sz; reflexivity); rewrite ?cond_negb, ?Fmult_opp.
  - apply normalize_rel.
  - rewrite (Fplus_opp (cond_Zopp sx (Zpos mx) * cond_Zopp sc (Zpos mc))).
    unfold Fmult. destruct (Fplus _ _) as [mr er]. cbn [Fnum Fexp]. apply normalize_rel.
  - apply normalize_rel.
Qed.
Lemma abs_rel x x' : opp_rel x x' -> Babs x = Babs x'.
Proof. intros [->|(s & s' & -> & ->)]; [now rewrite Babs_Bopp|reflexivity]. Qed.
End Opposite.
