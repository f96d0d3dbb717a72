(** An environment whose log10 is accurate to 2^-44, defined from the real logarithm. *)
From Coq Require Import List Arith NArith ZArith Bool Lia Reals Lra Psatz Sorted Permutation.
From Flocq Require Import Core IEEE754.BinarySingleNaN.
From Verif Require Import Prelude Float Env Tables Utils History Interp Filter Ebur128 Spec Spec_real Spec_history Spec_accuracy Instance Instance_history
  Float_proofs Order_proofs Accuracy_proofs Table_proofs Pass_proofs Value_proofs Lufs_proofs.
Import ListNotations.
Import Spec_history.
Local Open Scope R_scope.

(** log10 of a positive number rounded down to a multiple of 2^-44 *)
Definition exact_log10 (x : f64) : f64 :=
  match x with
  | B754_zero _ => f64_neg f64_inf
  | B754_infinity false => f64_inf
  | B754_finite false _ _ _ => f64_bin (Zfloor (ln (B2R x) / ln 10 * bpow radix2 44)) (-44)
  | _ => f64_nan
  end.
Definition env1 : ext := {|
  e_tan := e_tan env0; e_sin := e_sin env0; e_cos := e_cos env0; e_log10 := exact_log10; e_powf := e_powf env0;
  e_bsearch := e_bsearch env0; e_sort := e_sort env0
|}.

Lemma exact_value x : positive x -> exists n, is_finite (exact_log10 x) = true /\ real (exact_log10 x) = IZR n * bpow radix2 (-44) /\
  n = Zfloor (ln (B2R x) / ln 10 * bpow radix2 44).
Proof.
  intros Hx. pose proof (positive_log x Hx) as L. destruct Hx as (F & P). assert (exact_log10 x = f64_bin (Zfloor (ln (B2R x) / ln 10 * bpow radix2 44)) (-44)) as ->.
  { destruct x as [s|s| |[] m e B]; try discriminate F; unfold real in P; try (cbn in P; lra); [|reflexivity].
    exfalso. apply Rlt_not_le in P. apply P. cbn. apply F2R_le_0. cbn. lia. }
  set (y := ln (B2R x) / ln 10) in *. change (ln (real x) / ln 10) with y in L. set (n := Zfloor (y * bpow radix2 44)). exists n.
  pose proof (Zfloor_lb (y * bpow radix2 44)) as B1. pose proof (Zfloor_ub (y * bpow radix2 44)) as B2. fold n in B1, B2.
  pose proof (bpow_gt_0 radix2 44) as P44. assert (bpow radix2 (-44) * bpow radix2 44 = 1) as E1 by (rewrite <- bpow_plus; reflexivity).
  pose proof (bpow_gt_0 radix2 (-44)) as P44'. apply Rabs_le_inv in L.
  assert (Rabs (IZR n * bpow radix2 (-44)) <= 359) as BN.
  { apply Rabs_le. assert (1 <= bpow radix2 44) by (change 1 with (bpow radix2 0); apply bpow_le; lia). split; apply Rmult_le_reg_r with (bpow radix2 44); auto; rewrite Rmult_assoc, E1; nra. }
  pose proof big_1000. destruct (bin_round n (-44) ltac:(lra)) as (FB & EB). split; auto. split; auto. unfold real. rewrite EB. apply rnd64_generic.
  apply generic_format_FLT. exists (Float radix2 n (-44)); [reflexivity| |cbn; lia]. cbn [Fnum]. apply lt_IZR. rewrite abs_IZR.
  assert (Rabs (IZR n) <= 359 * bpow radix2 44).
  { rewrite Rabs_mult in BN. rewrite (Rabs_pos_eq (bpow _ _)) in BN by lra. apply Rmult_le_reg_r with (bpow radix2 (-44)); auto. rewrite Rmult_assoc. rewrite (Rmult_comm (bpow radix2 44)), E1. lra. }
  apply Rle_lt_trans with (1 := H0). change (IZR (radix2 ^ 53)) with (bpow radix2 53). replace (bpow radix2 53) with (512 * bpow radix2 44); [lra|].
  change 512 with (bpow radix2 9). rewrite <- bpow_plus. reflexivity.
Qed.
Lemma env1_accurate : log10_accurate env1.
Proof.
  repeat split; try reflexivity; change (e_log10 env1) with exact_log10; destruct (exact_value x H) as (n & F & EV & En); auto.
  rewrite EV. set (y := ln (B2R x) / ln 10) in *. change (ln (real x) / ln 10) with y. pose proof (Zfloor_lb (y * bpow radix2 44)) as B1. pose proof (Zfloor_ub (y * bpow radix2 44)) as B2.
  rewrite <- En in B1, B2. pose proof (bpow_gt_0 radix2 44) as P44. assert (bpow radix2 (-44) * bpow radix2 44 = 1) as E1 by (rewrite <- bpow_plus; reflexivity).
  replace (/ 2 ^ 42) with (4 * bpow radix2 (-44)) by (cbn; lra).
  set (p := bpow radix2 44) in *. set (q := bpow radix2 (-44)) in *. assert ((IZR n * q - y) * p = IZR n - y * p) as E2 by (replace ((IZR n * q - y) * p) with (IZR n * (q * p) - y * p) by ring; rewrite E1; ring).
  assert (4 * q * p = 4) as E3 by (rewrite Rmult_assoc, E1; ring). assert (- (4 * q) * p = -4) as E4 by (rewrite Ropp_mult_distr_l_reverse, E3; ring).
  apply Rabs_le. split; apply Rmult_le_reg_r with p; auto; rewrite E2, ?E3, ?E4; lra.
Qed.
Lemma env1_log10 : log10_contract env1.
Proof.
  split; change (e_log10 env1) with exact_log10.
  - intros x Hx. destruct (exact_value x Hx) as (n & F & EV & En). split; auto.
    destruct (proj1 env1_accurate x Hx) as (_ & B). change (e_log10 env1) with exact_log10 in B. pose proof (positive_log x Hx) as L.
    assert (/ 2 ^ 42 <= 1). { rewrite <- Rinv_1. apply Rinv_le_contravar; [lra|]. cbn. lra. } apply Rabs_le_inv in B, L. apply Rabs_le. lra.
  - intros x y Hx Hy L. destruct (exact_value x Hx) as (n & F & EV & En). destruct (exact_value y Hy) as (n' & F' & EV' & En').
    apply le_iff; auto. apply le_iff in L; [|apply Hx|apply Hy]. unfold real in *. rewrite EV, EV'. apply Rmult_le_compat_r; [apply bpow_ge_0|]. apply IZR_le. rewrite En, En'.
    apply Zfloor_le. apply Rmult_le_compat_r; [apply bpow_ge_0|]. apply Rmult_le_compat_r; [left; apply Rinv_0_lt_compat, ln10_pos|]. apply ln_le'; auto. apply Hx.
Qed.
Lemma env1_powf : powf_contract env1. Proof. exact env0_powf. Qed.
Lemma env1_sort : sort_contract env1. Proof. exact env0_sort. Qed.
Lemma env1_bsearch : bsearch_contract env1. Proof. exact env0_bsearch. Qed.

(** Only reports depend on log10: the analyzers are the same. *)
Lemma new_same P channels rate m : ebur128_new P env1 channels rate m = ebur128_new P env0 channels rate m.
Proof. reflexivity. Qed.
Lemma step_same P e o : step P env1 e o = step P env0 e o.
Proof. reflexivity. Qed.
Lemma reachable_same P e : reachable P env0 e -> reachable P env1 e.
Proof.
  induction 1 as [c r m e H S|e o r e' _ IH A H].
  - rewrite <- new_same in H. eapply reach_new; eauto.
  - rewrite <- step_same in H. eapply reach_step; eauto.
Qed.
Lemma pieces_same P e : forall ks t cols, tape_pieces P env1 e ks t cols = tape_pieces P env0 e ks t cols.
Proof. induction ks as [|k ks IH]; intros t cols; cbn [tape_pieces]; auto. Qed.
Lemma tape_same P e o t : tape_after P env1 e o t = tape_after P env0 e o t.
Proof.
  unfold tape_after. destruct o; try reflexivity. destruct (input _ _ _); auto. unfold tape_add. now rewrite pieces_same.
Qed.
Lemma taped_same P e t : taped P env0 e t -> taped P env1 e t.
Proof.
  induction 1 as [c r m e H S|e o r e' t _ IH A H].
  - rewrite <- new_same in H. eapply taped_new; eauto.
  - rewrite <- step_same in H. rewrite <- tape_same. eapply taped_step; eauto.
Qed.
