(** A `powf` for the normalize example, from the real power, and concrete recordings (C79). *)
From Coq Require Import List Arith NArith ZArith Reals Lra Lia.
From Flocq Require Import Core IEEE754.BinarySingleNaN.
From Verif Require Import Prelude Float Env Utils Interp History TruePeak Filter Ebur128 Programs Spec Spec_real Spec_interp Spec_history Spec_accuracy Spec_programs Instance Instance_accuracy
  Float_proofs Oversample_proofs Programs_proofs Programs_examples Normalize_proofs.
Import ListNotations.
Local Open Scope R_scope.

(** 10 to the [y] rounded down to a multiple of 2^-130, then to a float *)
Definition exact_powf32 (x y : f32) : f32 :=
  match y with
  | B754_infinity false => B754_infinity false
  | _ => f32_bin (Zfloor (Rpower 10 (B2R y) * bpow radix2 130)) (-130)
  end.
Lemma exact_powf32_ok : powf32_contract exact_powf32.
Proof.
  split; [reflexivity|]. intros y F B. assert (exact_powf32 (f32_of_Z 10) y = f32_bin (Zfloor (Rpower 10 (B2R y) * bpow radix2 130)) (-130)) as -> by (destruct y; try discriminate F; reflexivity).
  unfold real32 in *. pose proof (power_size (B2R y) 30) as PS. replace (INR 30) with 30 in PS by (rewrite INR_IZR_INZ; reflexivity). specialize (PS B). set (p := Rpower 10 (B2R y)) in *.
  pose proof (Zfloor_lb (p * bpow radix2 130)) as L1. pose proof (Zfloor_ub (p * bpow radix2 130)) as L2. set (n := Zfloor (p * bpow radix2 130)) in *.
  assert (bpow radix2 130 * bpow radix2 (-130) = 1) as E1 by (rewrite <- bpow_plus; reflexivity). pose proof (bpow_gt_0 radix2 (-130)) as P1. set (c := bpow radix2 130) in *. set (d := bpow radix2 (-130)) in *.
  assert (p - d <= IZR n * d <= p) as BN. { assert (p * c * d = p) as E2 by (rewrite Rmult_assoc, E1; ring). split; [|rewrite <- E2; apply Rmult_le_compat_r; lra]. assert ((p * c - 1) * d <= IZR n * d) by (apply Rmult_le_compat_r; lra). lra. }
  assert (d <= / 10 ^ 8 * (/ 10 ^ 30)) as Hd. { unfold d. change (-130)%Z with (- (130))%Z. rewrite bpow_opp. rewrite <- Rinv_mult. apply Rinv_le_contravar; [apply Rmult_lt_0_compat; apply pow_lt; lra|]. rewrite (bpow_powerRZ radix2 130). change (powerRZ _ _) with (2 ^ 130). cbn. lra. }
  assert (/ 10 ^ 8 * / 10 ^ 30 <= / 10 ^ 8 * p) as Hp by (apply Rmult_le_compat_l; [cbn; lra|apply PS]).
  assert (0 < p) as P0 by apply exp_pos.
  assert (Rabs (IZR n * d) <= 2 ^ 110) as A. { rewrite Rabs_pos_eq by (assert (/ 10 ^ 8 * p <= p) by (cbn; lra); lra). apply Rle_trans with (10 ^ 30); [lra|]. apply Rle_trans with (2 ^ 100); [cbn; lra|apply Rle_pow; [lra|lia]]. }
  pose proof (binary_normalize_correct 24 128 Hprec32 Hmax32 mode_NE n (-130) false) as X. cbv zeta in X. change (round radix2 (SpecFloat.fexp 24 128) (round_mode mode_NE) ?z) with (rnd32 z) in X.
  unfold F2R in X. cbn [Fnum Fexp] in X. fold d in X. rewrite rnd32_fits in X by auto. destruct X as (X1 & X2 & _). unfold f32_bin. split; auto. rewrite X1.
  pose proof (rnd32_error (IZR n * d)) as R. set (w := / 2 ^ 150) in *. assert (w <= d) as W. { unfold w, d. change (-130)%Z with (- (130))%Z. rewrite bpow_opp, (bpow_powerRZ radix2 130). change (powerRZ _ _) with (2 ^ 130). apply Rinv_le_contravar; [apply pow_lt; lra|apply Rle_pow; [lra|lia]]. }
  clearbody w. rewrite (Rabs_pos_eq (IZR n * d)) in R by (assert (/ 10 ^ 8 * p <= p) by (cbn; lra); lra). assert (/ 2 ^ 24 * (IZR n * d) <= / 2 ^ 24 * p) as Q by (apply Rmult_le_compat_l; [cbn; lra|lra]).
  assert (d <= / 10 ^ 8 * p) as D by lra. clearbody d p. set (m := IZR n * d) in *. clearbody m. clear - R Q D W BN P0. apply Rabs_le_inv in R. apply Rabs_le. cbn in *. lra.
Qed.
Lemma tune_case : exists e l, analyzed x86_64 env1 (tune 1) e /\ ask x86_64 env1 e QGlobal = Ret (AValue (Ok l)) /\ is_finite l = true.
Proof.
  destruct (proper_tune 1) as (HW & _); [lia|]. destruct (track_full x86_64 env1 (tune 1) eq_refl env1_powf env1_bsearch HW) as (e & _ & He & [(_ & H & _)|(_ & t & _ & _ & Hg & HR)]).
  - destruct (proj2 tune_audible e He H).
  - exists e, (t_loudness t). split; auto. split; auto. apply (reported_size env1 (tune 1) t); auto. apply env1_accurate. vm_compute. reflexivity.
Qed.
Lemma normalize_case : powf32_contract exact_powf32 /\ proper_recording (tune 1) /\
  (exists e l, analyzed x86_64 env1 (tune 1) e /\ ask x86_64 env1 e QGlobal = Ret (AValue (Ok l)) /\ is_finite l = true) /\
  proper_recording (short_tune 1) /\ too_short (short_tune 1).
Proof.
  split; [exact exact_powf32_ok|]. destruct (proper_tune 1) as (H1 & H2); [lia|]. split; auto. split; [exact tune_case|]. split; auto. reflexivity.
Qed.
