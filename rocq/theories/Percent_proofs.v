(** The positions of the percentiles: floor((n-1) p + 1/2) as computed in f64. *)
From Coq Require Import List Arith NArith ZArith Bool Lia Reals Lra Psatz.
From Flocq Require Import Core IEEE754.BinarySingleNaN.
From Verif Require Import Prelude Float Env Tables Utils History Filter Ebur128 Spec Spec_real Spec_history
  Prelude_proofs Utils_proofs Float_proofs Order_proofs History_proofs Energy_proofs Accuracy_proofs Table_proofs Gate_proofs Gating_proofs Pass_proofs.
Import ListNotations.
Local Open Scope R_scope.

Lemma to_N_real max (x : f64) : is_finite x = true -> 0 <= B2R x -> f64_to_N max x = N.min (Z.to_N (Zfloor (B2R x))) max.
Proof.
  intros F H. assert (Btrunc x = Zfloor (B2R x)) as E.
  { apply eq_IZR. rewrite Btrunc_correct by exact Hmax64. rewrite round_FIX_IZR. f_equal. now apply Ztrunc_floor. }
  assert (0 <= Zfloor (B2R x))%Z as Z0 by (apply Zfloor_lub; exact H).
  unfold f64_to_N.
  assert ((if (Zfloor (B2R x) <? 0)%Z then 0%N else N.min (Z.to_N (Zfloor (B2R x))) max) = N.min (Z.to_N (Zfloor (B2R x))) max) as C.
  { destruct (Z.ltb_spec (Zfloor (B2R x)) 0); [lia|auto]. }
  rewrite <- C, <- E. destruct x; try discriminate F; reflexivity.
Qed.
Lemma to_N_le max (x : f64) : (f64_to_N max x <= max)%N.
Proof. unfold f64_to_N. destruct x as [s|[|]| |s m e b]; try lia; destruct (_ <? 0)%Z; lia. Qed.
Lemma pred_gap x : 0 < x -> pred radix2 fexp64 x <= x - bpow radix2 (-53) * x.
Proof.
  intros H. rewrite pred_eq_pos by lra. unfold pred_pos. assert (forall e, (e - 53 <= fexp64 e)%Z) as HF.
  { intros e. unfold fexp64, SpecFloat.fexp. lia. }
  destruct (Req_bool_spec x (bpow radix2 (mag radix2 x - 1))) as [E|E].
  - assert (bpow radix2 (-53) * x <= bpow radix2 (fexp64 (mag radix2 x - 1))); [|lra].
    rewrite E at 1. rewrite <- bpow_plus. apply bpow_le. specialize (HF (mag radix2 x - 1)%Z). lia.
  - rewrite ulp_neq_0 by lra. unfold cexp.
    assert (bpow radix2 (-53) * x <= bpow radix2 (fexp64 (mag radix2 x))); [|lra].
    apply Rle_trans with (bpow radix2 (-53) * bpow radix2 (mag radix2 x)).
    + apply Rmult_le_compat_l; [apply bpow_ge_0|]. left. eapply Rle_lt_trans; [apply Rle_abs|]. apply bpow_mag_gt.
    + rewrite <- bpow_plus. apply bpow_le. specialize (HF (mag radix2 x)). lia.
Qed.
Lemma rnd_catch x z : generic_format radix2 fexp64 x -> 0 < x -> x - bpow radix2 (-54) * x < z -> x <= rnd64 z.
Proof.
  intros Hx H0 Hz. unfold rnd64. apply round_N_ge_midp; auto; [apply fexp_correct; apply Hprec64|].
  pose proof (pred_gap x H0). change (-53)%Z with (1 + -54)%Z in H. rewrite bpow_plus in H. change (bpow radix2 1) with 2 in H. lra.
Qed.
Lemma half_generic k : (Z.abs k < 9007199254740992)%Z -> generic_format radix2 fexp64 (IZR k / 2).
Proof.
  intros H. replace (IZR k / 2) with (F2R (Float radix2 k (-1))) by (unfold F2R; cbn; lra).
  apply generic_format_F2R. intros Hk. unfold cexp, fexp64, SpecFloat.fexp, SpecFloat.emin. rewrite mag_F2R by auto.
  pose proof (mag_le_bpow radix2 (IZR k) 53). assert (mag radix2 (IZR k) <= 53)%Z; [|cbn [Fexp]; lia].
  apply H0; [now apply IZR_neq|]. rewrite <- abs_IZR. apply IZR_lt. exact H.
Qed.
Lemma add_half (x : f64) : is_finite x = true -> 0 <= B2R x <= bpow radix2 65 ->
  is_finite (f64_add x lit_0_5) = true /\ B2R (f64_add x lit_0_5) = rnd64 (B2R x + 1 / 2).
Proof.
  intros F H. destruct (bin_real 4503599627370496 (-53) ltac:(lia) ltac:(lia)) as (F5 & E5).
  replace (f64_bin 4503599627370496 (-53)) with lit_0_5 in F5, E5 by (apply B2SF_inj; vm_compute; reflexivity).
  assert (B2R lit_0_5 = / 2) as E5' by (rewrite E5; change (bpow radix2 (-53)) with (/ 9007199254740992); lra). clear E5. rename E5' into E5.
  pose proof (Bplus_correct 53 1024 Hprec64 Hmax64 mode_NE x lit_0_5 F F5) as X.
  change (round radix2 (SpecFloat.fexp 53 1024) (round_mode mode_NE) ?z) with (rnd64 z) in X.
  rewrite Rlt_bool_true in X.
  - destruct X as (X1 & X2 & _). unfold f64_add. split; auto. rewrite X1, E5. f_equal. lra.
  - rewrite E5. rewrite Rabs_pos_eq by (apply rnd_nonneg; lra). apply Rle_lt_trans with (bpow radix2 66).
    + assert (generic_format radix2 fexp64 (bpow radix2 66)) as G by (apply generic_format_bpow; vm_compute; discriminate).
      rewrite <- (rnd64_generic _ G). apply rnd_mono. change 66%Z with (1 + 65)%Z. rewrite bpow_plus.
      change (bpow radix2 1) with 2. assert (1 <= bpow radix2 65) by (change 1 with (bpow radix2 0); apply bpow_le; lia). lra.
    + apply bpow_lt. lia.
Qed.

(** the position of a percentile *)
Definition position (max : N) (p : f64) (n : N) : N := f64_to_N max (f64_add (f64_mul (f64_of_N n) p) lit_0_5).

Lemma position_real max p n : is_finite p = true -> 0 <= B2R p <= 1 -> (n < 18446744073709551616)%N ->
  position max p n = N.min (Z.to_N (Zfloor (rnd64 (rnd64 (B2R (f64_of_N n) * B2R p) + 1 / 2)))) max.
Proof.
  intros Fp Hp Hn. destruct (of_N_real n Hn) as (FN & EN & SN).
  assert (0 <= B2R (f64_of_N n)) as P0 by (rewrite EN; apply rnd_nonneg, IZR_le; lia).
  destruct (mul_down _ p FN Fp P0 Hp) as (FM & EM).
  assert (B2R (f64_of_N n) <= bpow radix2 64) as P1.
  { rewrite EN. assert (generic_format radix2 fexp64 (bpow radix2 64)) as G by (apply generic_format_bpow; vm_compute; discriminate).
    rewrite <- (rnd64_generic _ G). apply rnd_mono. change (bpow radix2 64) with (IZR 18446744073709551616). apply IZR_le. lia. }
  assert (0 <= B2R (f64_mul (f64_of_N n) p) <= bpow radix2 65) as PM.
  { rewrite EM. split; [apply rnd_nonneg; nra|].
    assert (generic_format radix2 fexp64 (bpow radix2 65)) as G by (apply generic_format_bpow; vm_compute; discriminate).
    rewrite <- (rnd64_generic _ G). apply rnd_mono. apply Rle_trans with (bpow radix2 64); [nra|apply bpow_le; lia]. }
  destruct (add_half _ FM PM) as (FA & EA). unfold position. rewrite to_N_real; auto.
  - now rewrite EA, EM.
  - rewrite EA. apply rnd_nonneg. lra.
Qed.
Lemma lit_95 : is_finite lit_0_95 = true /\ 95 / 100 - 4 / 5 * bpow radix2 (-54) <= B2R lit_0_95 <= 95 / 100.
Proof.
  destruct (bin_real 8556839292003942 (-53) ltac:(lia) ltac:(lia)) as (F & E). fold lit_0_95 in *. split; auto. rewrite E.
  replace (bpow radix2 (-54)) with (/ 18014398509481984) by reflexivity. replace (bpow radix2 (-53)) with (/ 9007199254740992) by reflexivity. lra.
Qed.
Lemma lit_10 : is_finite lit_0_1 = true /\ 1 / 10 <= B2R lit_0_1 <= 1 / 10 + bpow radix2 (-54).
Proof.
  destruct (bin_real 7205759403792794 (-56) ltac:(lia) ltac:(lia)) as (F & E). fold lit_0_1 in *. split; auto. rewrite E.
  replace (bpow radix2 (-54)) with (/ 18014398509481984) by reflexivity. replace (bpow radix2 (-56)) with (/ 72057594037927936) by reflexivity. lra.
Qed.

Lemma of_N_exact n : (n <= small_count)%N -> B2R (f64_of_N n) = IZR (Z.of_N n).
Proof.
  intros H. unfold small_count in H. destruct (of_N_real n ltac:(lia)) as (_ & -> & _). apply rnd64_generic.
  replace (IZR (Z.of_N n)) with (IZR (2 * Z.of_N n) / 2) by (rewrite mult_IZR; lra). apply half_generic. lia.
Qed.
Lemma rnd_err x : 0 <= x <= bpow radix2 47 -> Rabs (rnd64 x - x) <= / 64 + / 1024.
Proof.
  intros H. destruct (rnd_bounds x (proj1 H)) as (H1 & H2). pose proof u_pos. pose proof eta_pos.
  assert (u * x <= / 64).
  { rewrite <- u_bpow. apply Rle_trans with (/ 2 * bpow radix2 (Z.opp 53 + 1) * bpow radix2 47).
    - apply Rmult_le_compat_l; [|lra]. rewrite u_bpow. lra.
    - rewrite Rmult_assoc, <- bpow_plus. change (bpow radix2 (-(53) + 1 + 47)) with (/ 32). lra. }
  assert (eta <= / 1024).
  { pose proof eta_tiny. assert (tiny <= / 1024); [|pose proof tiny_pos; lra].
    unfold tiny. change (/ 1024) with (bpow radix2 (-10)). apply bpow_le. lia. }
  apply Rabs_le. lra.
Qed.
Lemma position_exact max p a n : is_finite p = true -> (0 <= a <= 19)%Z -> Rabs (B2R p - IZR a / 20) <= bpow radix2 (-54) -> 0 <= B2R p ->
  (n <= small_count)%N ->
  (((a * Z.of_N n + 10) mod 20 = 0)%Z -> IZR (a * Z.of_N n) / 20 <= rnd64 (IZR (Z.of_N n) * B2R p)) ->
  position max p n = N.min (Z.to_N ((a * Z.of_N n + 10) / 20)) max.
Proof.
  intros Fp Ha Hp P0 Hn Hc. change (bpow radix2 (-54)) with (/ 18014398509481984) in Hp. apply Rabs_le_inv in Hp.
  assert (0 <= IZR a <= 19) as Ra by (split; apply IZR_le; lia). unfold small_count in Hn.
  rewrite position_real by (auto; try lia; lra). rewrite of_N_exact by (unfold small_count; lia).
  set (N0 := Z.of_N n) in *. assert (0 <= N0 <= 70368744177664)%Z as BN by lia.
  assert (0 <= IZR N0 <= 70368744177664) as RN by (split; apply IZR_le; lia).
  f_equal. f_equal. set (v := IZR N0 * B2R p) in *. assert (Rabs (v - IZR (a * N0) / 20) <= / 256) as E1.
  { rewrite mult_IZR. replace (v - IZR a * IZR N0 / 20) with (IZR N0 * (B2R p - IZR a / 20)) by (unfold v; field).
    apply Rabs_le. assert (IZR N0 * / 18014398509481984 <= / 256) by lra. split; nra. }
  assert (IZR (a * N0) = IZR a * IZR N0) as EA by apply mult_IZR.
  assert (0 <= IZR (a * N0) / 20 <= 70368744177664) as BA by (rewrite EA; nra).
  assert (0 <= v) as V0 by (unfold v; nra). apply Rabs_le_inv in E1.
  change (bpow radix2 47) with (IZR 140737488355328) in *.
  assert (0 <= v <= bpow radix2 47) as BV by (change (bpow radix2 47) with 140737488355328; lra).
  pose proof (rnd_err v BV) as E2. apply Rabs_le_inv in E2. pose proof (rnd_nonneg v V0) as V1.
  assert (0 <= rnd64 v + 1 / 2 <= bpow radix2 47) as BW by (change (bpow radix2 47) with 140737488355328; lra).
  pose proof (rnd_err _ BW) as E3. apply Rabs_le_inv in E3.
  pose proof (Z.div_mod (a * N0 + 10) 20 ltac:(lia)) as DM. pose proof (Z.mod_pos_bound (a * N0 + 10) 20 ltac:(lia)) as MB.
  set (k := ((a * N0 + 10) / 20)%Z) in *. set (r := ((a * N0 + 10) mod 20)%Z) in *.
  assert (IZR (a * N0) / 20 + 1 / 2 = IZR k + IZR r / 20) as DR.
  { replace (a * N0)%Z with (20 * k + r - 10)%Z by lia. rewrite minus_IZR, plus_IZR, mult_IZR. field. }
  assert (IZR r <= 19) as R19 by (apply IZR_le; lia).
  apply Zfloor_imp. rewrite plus_IZR. split; [|lra].
  destruct (Z.eq_dec r 0) as [E0|E0].
  - specialize (Hc E0). rewrite E0 in DR.
    assert (generic_format radix2 fexp64 (IZR k)) as G.
    { replace (IZR k) with (IZR (2 * k) / 2) by (rewrite mult_IZR; lra). apply half_generic. nia. }
    rewrite <- (rnd64_generic _ G). apply rnd_mono. lra.
  - assert (1 <= IZR r) by (apply IZR_le; lia). lra.
Qed.
Lemma position_high max n : (n <= small_count)%N -> position max lit_0_95 n = N.min ((19 * n + 10) / 20) max.
Proof.
  intros Hn. destruct lit_95 as (F & L & H). pose proof (bpow_gt_0 radix2 (-54)) as B0.
  rewrite (position_exact max lit_0_95 19 n); auto; try lia.
  - apply Rabs_le. lra.
  - apply Rle_trans with (95 / 100 - 4 / 5 * bpow radix2 (-54)); auto. change (bpow radix2 (-54)) with (/ 18014398509481984). lra.
  - intros E0. unfold small_count in Hn. destruct (N.eq_dec n 0) as [->|H0]; [cbn in E0; lia|].
    assert (1 <= IZR (Z.of_N n)) by (apply IZR_le; lia). rewrite mult_IZR. apply rnd_catch.
    + pose proof (Z.div_mod (19 * Z.of_N n + 10) 20 ltac:(lia)) as DM. rewrite E0 in DM.
      replace (19 * IZR (Z.of_N n) / 20) with (IZR (2 * ((19 * Z.of_N n + 10) / 20) - 1) / 2).
      * apply half_generic. lia.
      * set (k := ((19 * Z.of_N n + 10) / 20)%Z) in *. rewrite minus_IZR, mult_IZR.
        assert (19 * IZR (Z.of_N n) + 10 = 20 * IZR k) as X; [|lra]. rewrite <- !mult_IZR, <- plus_IZR. f_equal. lia.
    + lra.
    + nra.
Qed.
Lemma position_low max n : (n <= small_count)%N -> position max lit_0_1 n = N.min ((n + 5) / 10) max.
Proof.
  intros Hn. destruct lit_10 as (F & L & H). pose proof (bpow_gt_0 radix2 (-54)) as B0.
  rewrite (position_exact max lit_0_1 2 n); auto; try lia.
  - apply Rabs_le. lra.
  - lra.
  - intros E0. unfold small_count in Hn. assert (0 <= IZR (Z.of_N n)) by (apply IZR_le; lia). rewrite mult_IZR.
    pose proof (Z.div_mod (2 * Z.of_N n + 10) 20 ltac:(lia)) as DM. rewrite E0 in DM.
    set (k := ((2 * Z.of_N n + 10) / 20)%Z) in *.
    assert (2 * IZR (Z.of_N n) / 20 = IZR (2 * k - 1) / 2) as E.
    { rewrite minus_IZR, mult_IZR. assert (2 * IZR (Z.of_N n) + 10 = 20 * IZR k) as X; [|lra]. rewrite <- !mult_IZR, <- plus_IZR. f_equal. lia. }
    assert (generic_format radix2 fexp64 (2 * IZR (Z.of_N n) / 20)) as G by (rewrite E; apply half_generic; lia).
    rewrite <- (rnd64_generic _ G). apply rnd_mono. nra.
Qed.
(** in any case the position exists *)
Lemma position_bound max p n : (p = lit_0_1 \/ p = lit_0_95) -> (n < 18446744073709551616 \/ max <= n)%N -> (position max p n <= n)%N.
Proof.
  intros Hp [Hn|Hn]; [|unfold position; pose proof (to_N_le max (f64_add (f64_mul (f64_of_N n) p) lit_0_5)); lia].
  destruct (N.le_gt_cases n small_count) as [Hs|Hs].
  - destruct Hp as [-> | ->]; [rewrite position_low by auto|rewrite position_high by auto].
    + enough ((n + 5) / 10 <= n)%N by lia. destruct (N.eq_dec n 0) as [->|]; [reflexivity|]. apply N.lt_succ_r, N.div_lt_upper_bound; lia.
    + enough ((19 * n + 10) / 20 <= n)%N by lia. destruct (N.le_gt_cases 10 n).
      * apply N.lt_succ_r, N.div_lt_upper_bound; lia.
      * assert (n = 0 \/ n = 1 \/ n = 2 \/ n = 3 \/ n = 4 \/ n = 5 \/ n = 6 \/ n = 7 \/ n = 8 \/ n = 9)%N as X by lia.
        repeat (destruct X as [->|X]; [vm_compute; discriminate|]). subst n. vm_compute. discriminate.
  - unfold small_count in Hs. assert (is_finite p = true /\ 0 <= B2R p <= 95 / 100) as (F & L & H).
    { pose proof lit_95 as X. pose proof lit_10 as Y. change (bpow radix2 (-54)) with (/ 18014398509481984) in *.
      destruct Hp as [-> | ->]; [destruct Y as (? & ? & ?)|destruct X as (? & ? & ?)]; split; auto; lra. }
    rewrite position_real by (auto; lra). destruct (of_N_real n Hn) as (_ & EN & _). rewrite EN.
    assert (70368744177664 <= IZR (Z.of_N n)) as RN by (apply IZR_le; lia). set (v := IZR (Z.of_N n)) in *.
    assert (forall x, 70368744177664 / 100 <= x -> rnd64 x <= 101 / 100 * x) as UP.
    { intros x Hx. apply rnd_up. right. assert (tiny <= 1); [change 1 with (bpow radix2 0); apply bpow_le; lia|lra]. }
    assert (rnd64 v <= (1 + / 1000) * v) as U1.
    { destruct (rnd_bounds v ltac:(lra)) as (_ & X). pose proof eta_tiny. pose proof u_pos.
      assert (tiny <= 1) by (change 1 with (bpow radix2 0); apply bpow_le; lia).
      assert (u <= / 2000) by (unfold roundoff; apply Rinv_le_contravar; [lra|]; rewrite pow_IZR; apply IZR_le; vm_compute; discriminate). nra. }
    assert (rnd64 (rnd64 v * B2R p) <= 96 / 100 * v) as U2.
    { apply Rle_trans with (rnd64 (9515 / 10000 * v)).
      - apply rnd_mono. pose proof (rnd_nonneg v ltac:(lra)). nra.
      - destruct (rnd_bounds (9515 / 10000 * v) ltac:(lra)) as (_ & X). pose proof eta_tiny. pose proof u_pos. pose proof u_1000.
        assert (tiny <= 1) by (change 1 with (bpow radix2 0); apply bpow_le; lia). nra. }
    assert (rnd64 (rnd64 (rnd64 v * B2R p) + 1 / 2) <= v) as U3.
    { apply Rle_trans with (rnd64 (97 / 100 * v)); [apply rnd_mono; lra|]. eapply Rle_trans; [apply UP; lra|]. lra. }
    enough (Zfloor (rnd64 (rnd64 (rnd64 v * B2R p) + 1 / 2)) <= Z.of_N n)%Z by lia.
    apply le_IZR. eapply Rle_trans; [apply Zfloor_lb|]. exact U3.
Qed.
