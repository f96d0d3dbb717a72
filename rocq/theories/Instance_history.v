(** The concrete environment meets the contracts of powf and log10, too. *)
From Coq Require Import List Arith NArith ZArith Bool Lia Reals Lra Sorted Permutation.
From Flocq Require Import Core IEEE754.BinarySingleNaN.
From Verif Require Import Prelude Float Env Spec_real Spec_history Instance Float_proofs Order_proofs Accuracy_proofs Table_proofs Pass_proofs Value_proofs.
Import ListNotations.
Local Open Scope R_scope.

Lemma env0_powf : powf_contract env0.
Proof.
  unfold powf_contract.
  assert (tenth env0 = f64_bin 7205759403792794 (-56)) as -> by (apply B2SF_inj; vm_compute; reflexivity).
  assert (hundredth env0 = f64_bin 5764607523034235 (-59)) as -> by (apply B2SF_inj; vm_compute; reflexivity).
  destruct (bin_real 7205759403792794 (-56) ltac:(lia) ltac:(lia)) as (F1 & E1). destruct (bin_real 5764607523034235 (-59) ltac:(lia) ltac:(lia)) as (F2 & E2).
  unfold real. rewrite E1, E2. repeat split; auto; apply Rabs_le; cbn; lra.
Qed.
Lemma env0_log10_nan : log10_nan env0. Proof. reflexivity. Qed.

Lemma canonical m e : SpecFloat.bounded 53 1024 m e = true -> (Zpos m < 2 ^ 53 /\ -1074 <= e <= 971 /\ (e = -1074 \/ 2 ^ 52 <= Zpos m))%Z.
Proof.
  intros H. unfold SpecFloat.bounded in H. apply andb_true_iff in H. destruct H as (H1 & H2). apply Zle_bool_imp_le in H2.
  unfold SpecFloat.canonical_mantissa in H1. apply Zeq_bool_eq in H1. rewrite Digits.Zpos_digits2_pos in H1.
  pose proof (Digits.Zdigits_correct radix2 (Zpos m)) as D. unfold SpecFloat.fexp, SpecFloat.emin in H1. set (d := Digits.Zdigits radix2 (Zpos m)) in *.
  assert (0 < d)%Z as Pd by (apply Digits.Zdigits_gt_0; lia). change (radix_val radix2) with 2%Z in D. rewrite Z.abs_eq in D by lia.
  assert (d <= 53)%Z as Hd by lia. split; [|split; [lia|]].
  - apply Z.lt_le_trans with (1 := proj2 D). apply Z.pow_le_mono_r; lia.
  - destruct (Z.eq_dec e (-1074)) as [|Ne]; auto. right. assert (d = 53)%Z as E by lia. rewrite E in D. apply D.
Qed.
Definition index (m : BinNums.positive) (e : Z) : Z := (Zpos m + (e + 51) * 2 ^ 52)%Z.
Lemma index_mono m e m' e' : SpecFloat.bounded 53 1024 m e = true -> SpecFloat.bounded 53 1024 m' e' = true ->
  F2R (Float radix2 (Zpos m) e) <= F2R (Float radix2 (Zpos m') e') -> (index m e <= index m' e')%Z.
Proof.
  intros H H' L. apply canonical in H, H'. unfold index. destruct (Z.lt_trichotomy e e') as [|[->|G]].
  - lia.
  - apply le_F2R in L. lia.
  - exfalso. apply Rle_not_lt in L. apply L. apply Rlt_le_trans with (F2R (Float radix2 (2 ^ 53) e')).
    + apply F2R_lt. lia.
    + apply Rle_trans with (F2R (Float radix2 (2 ^ 52) (e' + 1))).
      * unfold F2R. cbn [Fnum Fexp]. rewrite bpow_plus. change (IZR (2 ^ 53)) with (2 * IZR (2 ^ 52)) || replace (IZR (2 ^ 53)) with (2 * IZR (2 ^ 52)) by (rewrite <- mult_IZR; reflexivity).
        cbn [bpow]. change (IZR (Z.pow_pos radix2 1)) with 2. lra.
      * unfold F2R. cbn [Fnum Fexp]. apply Rmult_le_compat; [apply IZR_le; lia|apply bpow_ge_0|apply IZR_le; lia|apply bpow_le; lia].
Qed.
Lemma bin_round n e : Rabs (IZR n * bpow radix2 e) <= bpow radix2 1000 -> is_finite (f64_bin n e) = true /\ B2R (f64_bin n e) = rnd64 (IZR n * bpow radix2 e).
Proof.
  intros H. unfold f64_bin. pose proof (binary_normalize_correct 53 1024 Hprec64 Hmax64 mode_NE n e false) as X. cbv zeta in X.
  change (round radix2 (SpecFloat.fexp 53 1024) (round_mode mode_NE) ?z) with (rnd64 z) in X. unfold F2R in X. cbn [Fnum Fexp] in X.
  rewrite rnd_no_overflow in X by auto. destruct X as (X1 & X2 & _). auto.
Qed.
Lemma index_bound m e : SpecFloat.bounded 53 1024 m e = true -> Rabs (IZR (index m e) * bpow radix2 (-52)) <= 1100.
Proof.
  intros H. apply canonical in H. unfold index. assert (-1100 * 2 ^ 52 <= Zpos m + (e + 51) * 2 ^ 52 <= 1100 * 2 ^ 52)%Z as (A & B) by lia.
  apply IZR_le in A, B. rewrite mult_IZR in A, B. change (bpow radix2 (-52)) with (/ IZR (2 ^ 52)).
  assert (0 < IZR (2 ^ 52)) as P by (apply IZR_lt; lia). revert A B. generalize dependent (IZR (2 ^ 52)). generalize (IZR (Zpos m + (e + 51) * 2 ^ 52)). intros x p P A B.
  apply Rabs_le. assert (x * / p * p = x) as E by (field; lra). split; apply Rmult_le_reg_r with p; lra.
Qed.
Definition slope : f64 := f64_bin 5422837 (-24).
Lemma slope_real : is_finite slope = true /\ 0 <= B2R slope <= 33 / 100.
Proof.
  unfold slope. replace (f64_bin 5422837 (-24)) with (f64_bin (5422837 * 2 ^ 30) (-54)) by (apply B2SF_inj; vm_compute; reflexivity).
  destruct (bin_real (5422837 * 2 ^ 30) (-54) ltac:(lia) ltac:(lia)) as (F & E). split; auto. rewrite E. cbn. lra.
Qed.
Lemma env0_log10_real x : positive x -> exists m e, SpecFloat.bounded 53 1024 m e = true /\ B2R x = F2R (Float radix2 (Zpos m) e) /\
  is_finite (e_log10 env0 x) = true /\ B2R (e_log10 env0 x) = rnd64 (rnd64 (IZR (index m e) * bpow radix2 (-52)) * B2R slope) /\ Rabs (B2R (e_log10 env0 x)) <= 400.
Proof.
  intros (F & P). destruct x as [s|s| |[] m e B]; try discriminate F; unfold real in P; try (cbn in P; lra).
  - exfalso. apply Rlt_not_le in P. apply P. cbn. apply F2R_le_0. cbn. lia.
  - exists m, e. split; auto. split; [reflexivity|]. cbn [env0 e_log10]. fold slope. change (Z.pos m + (e + 51) * 2 ^ 52)%Z with (index m e).
    pose proof (index_bound m e B) as IB. pose proof big_1000. destruct (bin_round (index m e) (-52) ltac:(lra)) as (F1 & E1).
    destruct slope_real as (FS & BS). pose proof (rnd_le_const _ _ IB ltac:(lia)) as IB'. rewrite <- E1 in IB'. apply Rabs_le_inv in IB'.
    assert (Rabs (B2R (f64_bin (index m e) (-52)) * B2R slope) <= 400) as PB by (apply Rabs_le; split; nra).
    destruct (mul_small _ slope F1 FS ltac:(lra)) as (F2 & E2). split; auto. rewrite E2. split; [now rewrite E1|]. apply rnd_le_const; [auto|lia].
Qed.
Lemma env0_log10 : log10_contract env0.
Proof.
  split.
  - intros x Hx. destruct (env0_log10_real x Hx) as (m & e & _ & _ & F & _ & B). auto.
  - intros x y Hx Hy L. destruct (env0_log10_real x Hx) as (m & e & B & Ex & F & EL & _). destruct (env0_log10_real y Hy) as (m' & e' & B' & Ey & F' & EL' & _).
    apply le_iff; auto. apply le_iff in L; [|apply Hx|apply Hy]. rewrite Ex, Ey in L. apply index_mono in L; auto. rewrite EL, EL'. apply rnd_mono.
    destruct slope_real as (_ & S1 & _). apply Rmult_le_compat_r; auto. apply rnd_mono. apply Rmult_le_compat_r; [apply bpow_ge_0|]. now apply IZR_le.
Qed.
