(** Order facts about floats with NaN and infinities. *)
From Coq Require Import ZArith NArith List Bool Arith Lia Reals Lra.
From Flocq Require Import Core.Core IEEE754.BinarySingleNaN.
From Verif Require Import Prelude Float Env Float_proofs.
Import ListNotations.
Local Open Scope R_scope.

Ltac rcases :=
  repeat match goal with
  | H : Rle_bool _ _ = true |- _ => revert H; case Rle_bool_spec; [intros|discriminate]
  | H : Rle_bool _ _ = false |- _ => revert H; case Rle_bool_spec; [discriminate|intros]
  | H : Rlt_bool _ _ = true |- _ => revert H; case Rlt_bool_spec; [intros|discriminate]
  | H : Rlt_bool _ _ = false |- _ => revert H; case Rlt_bool_spec; [discriminate|intros]
  end.
Ltac rgoal :=
  match goal with
  | |- Rle_bool _ _ = true => apply Rle_bool_true
  | |- Rle_bool _ _ = false => apply Rle_bool_false
  | |- Rlt_bool _ _ = true => apply Rlt_bool_true
  | |- Rlt_bool _ _ = false => apply Rlt_bool_false
  end; lra.
Ltac bcases x := destruct x as [[]|[]| |[] ? ? ?].

Lemma Bleb_trans {p e} (x y z : binary_float p e) : Bleb x y = true -> Bleb y z = true -> Bleb x z = true.
Proof.
  rewrite !Bleb_spec. bcases x; bcases y; bcases z; intros A B; try discriminate; rcases; try reflexivity; first [rgoal | exfalso; lra].
Qed.
Lemma Bleb_total {p e} (x y : binary_float p e) : is_nan x = false -> is_nan y = false ->
  Bleb x y = false -> Bleb y x = true.
Proof.
  rewrite !Bleb_spec. bcases x; bcases y; intros Hx Hy A; try discriminate; rcases; try reflexivity; first [rgoal | exfalso; lra].
Qed.
Lemma Bleb_refl {p e} (x : binary_float p e) : is_nan x = false -> Bleb x x = true.
Proof. rewrite Bleb_spec. bcases x; try discriminate; intros; try reflexivity; first [rgoal | exfalso; lra]. Qed.
Lemma Bleb_not_nan {p e} (x y : binary_float p e) : Bleb x y = true -> is_nan x = false /\ is_nan y = false.
Proof. bcases x; bcases y; try discriminate; auto. Qed.
Lemma Bltb_not_nan {p e} (x y : binary_float p e) : Bltb x y = true -> is_nan x = false /\ is_nan y = false.
Proof. bcases x; bcases y; try discriminate; auto. Qed.
Lemma Bltb_Bleb {p e} (x y : binary_float p e) : is_nan x = false -> is_nan y = false ->
  Bltb x y = negb (Bleb y x).
Proof.
  rewrite Bleb_spec, Bltb_spec. bcases x; bcases y; intros Hx Hy; try discriminate; try reflexivity;
    unfold Rlt_bool, Rle_bool; rewrite (Rcompare_sym (B2R _) (B2R _)) at 1;
    match goal with |- context [Rcompare ?a ?b] => case (Rcompare_spec a b); reflexivity end.
Qed.
Lemma Bltb_le {p e} (x y : binary_float p e) : Bltb x y = true -> Bleb x y = true.
Proof.
  rewrite Bleb_spec, Bltb_spec. bcases x; bcases y; intros A; try discriminate; rcases; try reflexivity; first [rgoal | exfalso; lra].
Qed.
Lemma Bltb_Bleb_trans {p e} (x y z : binary_float p e) : Bltb x y = true -> Bleb y z = true -> Bltb x z = true.
Proof.
  rewrite !Bleb_spec, !Bltb_spec. bcases x; bcases y; bcases z; intros A B; try discriminate; rcases; try reflexivity; first [rgoal | exfalso; lra].
Qed.
Lemma Bleb_Bltb_trans {p e} (x y z : binary_float p e) : Bleb x y = true -> Bltb y z = true -> Bltb x z = true.
Proof.
  rewrite !Bleb_spec, !Bltb_spec. bcases x; bcases y; bcases z; intros A B; try discriminate; rcases; try reflexivity; first [rgoal | exfalso; lra].
Qed.

Lemma cmp_le_total a b : cmp_le a b = false -> cmp_le b a = true.
Proof.
  unfold cmp_le, f64_le, f64_is_nan. rewrite !orb_false_iff, orb_true_iff. intros (H1 & H2).
  destruct (is_nan a) eqn:Ha; auto. left. now apply Bleb_total.
Qed.
Lemma cmp_le_trans a b c : cmp_le a b = true -> cmp_le b c = true -> cmp_le a c = true.
Proof.
  unfold cmp_le, f64_le, f64_is_nan. rewrite !orb_true_iff. intros [H1|H1] [H2|H2]; auto.
  - left. eapply Bleb_trans; eauto.
  - destruct (Bleb_not_nan _ _ H2). congruence.
Qed.
