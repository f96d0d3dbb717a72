(** The sample formats read the same values. *)
From Coq Require Import List Arith NArith ZArith Bool Lia Reals Lra.
From Flocq Require Import Core.Core IEEE754.BinarySingleNaN.
From Verif Require Import Prelude Float Env Utils Spec Float_proofs Chunk_proofs Input_proofs.
Import ListNotations.
Local Open Scope R_scope.

Lemma fin_not_nan {p e} (x : binary_float p e) : is_finite x = true -> is_nan x = false.
Proof. destruct x; auto; discriminate. Qed.
Lemma mag_IZR_ge z : z <> 0%Z -> (1 <= mag radix2 (IZR z))%Z.
Proof.
  intros Hz. apply mag_ge_bpow. cbn [bpow Z.sub Z.add Z.opp Z.pos_sub]. rewrite <- abs_IZR.
  apply IZR_le. lia.
Qed.
Lemma rnd32_scale z k : (0 <= k <= 40)%Z -> rnd32 (IZR z * bpow radix2 (-k)) = rnd32 (IZR z) * bpow radix2 (-k).
Proof.
  intros Hk. destruct (Z.eq_dec z 0) as [->|Hz]; [rewrite Rmult_0_l, round_0; [lra|apply _]|].
  assert (IZR z <> 0) as Hr by now apply IZR_neq.
  pose proof (mag_IZR_ge z Hz) as Hm.
  unfold round, scaled_mantissa, cexp. rewrite mag_mult_bpow by auto.
  assert (fexp32 (mag radix2 (IZR z) + - k) = (fexp32 (mag radix2 (IZR z)) + - k)%Z) as ->.
  { unfold SpecFloat.fexp, SpecFloat.emin. lia. }
  unfold F2R. cbn [Fnum Fexp]. rewrite bpow_plus, <- Rmult_assoc. do 3 f_equal.
  rewrite Rmult_assoc, <- bpow_plus. do 3 f_equal. lia.
Qed.
Lemma rnd64_scale z k : (0 <= k <= 40)%Z -> (Z.abs z <= 2 ^ 53)%Z -> rnd64 (IZR z * bpow radix2 (-k)) = IZR z * bpow radix2 (-k).
Proof.
  intros Hk Hz53. destruct (Z.eq_dec z 0) as [->|Hz]; [rewrite Rmult_0_l, round_0; [lra|apply _]|].
  assert (IZR z <> 0) as Hr by now apply IZR_neq.
  pose proof (mag_IZR_ge z Hz) as Hm.
  rewrite <- (rnd64_generic (IZR z)) at 2 by (apply generic_IZR; lia).
  unfold round, scaled_mantissa, cexp. rewrite mag_mult_bpow by auto.
  assert (fexp64 (mag radix2 (IZR z) + - k) = (fexp64 (mag radix2 (IZR z)) + - k)%Z) as ->.
  { unfold SpecFloat.fexp, SpecFloat.emin. lia. }
  unfold F2R. cbn [Fnum Fexp]. rewrite bpow_plus, <- Rmult_assoc. do 3 f_equal.
  rewrite Rmult_assoc, <- bpow_plus. do 3 f_equal. lia.
Qed.

Lemma rnd32_IZR_bound z : (Z.abs z <= 2 ^ 31)%Z -> Rabs (rnd32 (IZR z)) <= bpow radix2 31.
Proof.
  intros Hz. apply abs_round_le_generic; try apply _.
  - apply generic_format_bpow. unfold SpecFloat.fexp, SpecFloat.emin. lia.
  - rewrite <- abs_IZR, <- (IZR_Zpower radix2) by lia. apply IZR_le. exact Hz.
Qed.
Lemma f32_of_Z_rounded z : (Z.abs z <= 2 ^ 31)%Z ->
  is_finite (f32_of_Z z) = true /\ B2R (f32_of_Z z) = rnd32 (IZR z) /\ Bsign (f32_of_Z z) = (z <? 0)%Z.
Proof.
  intros Hz. unfold f32_of_Z, f32_bin.
  pose proof (binary_normalize_correct 24 128 _ _ mode_NE z 0 false) as H.
  cbv zeta in H. rewrite F2R_Z0 in H. change (round_mode mode_NE) with ZnearestE in H.
  rewrite Rlt_bool_true in H.
  - destruct H as (H1 & H2 & H3). repeat split; auto. rewrite H3.
    destruct (Z.ltb_spec z 0).
    + rewrite Rcompare_Lt; auto. now apply IZR_lt.
    + destruct (Z.eq_dec z 0) as [->|].
      * rewrite Rcompare_Eq; auto.
      * rewrite Rcompare_Gt; auto. apply IZR_lt. lia.
  - eapply Rle_lt_trans; [now apply rnd32_IZR_bound|]. apply bpow_lt. lia.
Qed.
Lemma f32_of_f64_rounded (x : f64) : is_finite x = true -> Rabs (rnd32 (B2R x)) < bpow radix2 128 ->
  is_finite (f32_of_f64 x) = true /\ B2R (f32_of_f64 x) = rnd32 (B2R x) /\ Bsign (f32_of_f64 x) = Bsign x.
Proof.
  destruct x as [s|s| |s m e B]; intros Hf Hb; try discriminate.
  - cbn. rewrite round_0 by apply _. auto.
  - unfold f32_of_f64.
    pose proof (binary_normalize_correct 24 128 _ _ mode_NE (SpecFloat.cond_Zopp s (Zpos m)) e s) as H.
    cbv zeta in H. change (round_mode mode_NE) with ZnearestE in H.
    change (F2R {| Fnum := SpecFloat.cond_Zopp s (Zpos m); Fexp := e |}) with (B2R (B754_finite s m e B)) in H.
    rewrite Rlt_bool_true in H by auto. destruct H as (H1 & H2 & H3). repeat split; auto. rewrite H3.
    destruct s.
    + rewrite Rcompare_Lt; auto. apply (F2R_lt_0 radix2). reflexivity.
    + rewrite Rcompare_Gt; auto. apply (F2R_gt_0 radix2). reflexivity.
Qed.
Lemma f32_pow2 k : (0 <= k <= 31)%Z -> is_finite (f32_of_Z (2 ^ k)) = true /\ B2R (f32_of_Z (2 ^ k)) = bpow radix2 k /\
  Bsign (f32_of_Z (2 ^ k)) = false.
Proof.
  intros Hk. assert (2 ^ k <= 2 ^ 31)%Z by (apply Z.pow_le_mono_r; lia).
  pose proof (Z.pow_pos_nonneg 2 k). destruct (f32_of_Z_rounded (2 ^ k)) as (H1 & H2 & H3); [lia|].
  repeat split; auto.
  - rewrite H2, (IZR_Zpower radix2) by lia. apply rnd32_generic, generic_format_bpow.
    unfold SpecFloat.fexp, SpecFloat.emin. lia.
  - rewrite H3. apply Z.ltb_ge. lia.
Qed.
Lemma f64_pow2 k : (0 <= k <= 31)%Z -> is_finite (f64_of_Z (2 ^ k)) = true /\ B2R (f64_of_Z (2 ^ k)) = bpow radix2 k /\
  Bsign (f64_of_Z (2 ^ k)) = false.
Proof.
  intros Hk. assert (2 ^ k <= 2 ^ 31)%Z by (apply Z.pow_le_mono_r; lia).
  pose proof (Z.pow_pos_nonneg 2 k). destruct (f64_of_Z_exact (2 ^ k)) as (H1 & H2 & H3); [lia|].
  repeat split; auto.
  - now rewrite H2, (IZR_Zpower radix2) by lia.
  - rewrite H3. apply Z.ltb_ge. lia.
Qed.

Lemma scale64 z k : (0 <= k <= 31)%Z -> (Z.abs z <= 2 ^ 31)%Z ->
  let y := f64_div (f64_of_Z z) (f64_of_Z (2 ^ k)) in
  is_finite y = true /\ B2R y = IZR z * bpow radix2 (-k) /\ Bsign y = (z <? 0)%Z.
Proof.
  intros Hk Hz y. destruct (f64_pow2 k Hk) as (P1 & P2 & P3).
  destruct (f64_of_Z_exact z) as (Z1 & Z2 & Z3); [lia|].
  assert (B2R (f64_of_Z (2 ^ k)) <> 0) as Hne by (rewrite P2; pose proof (bpow_gt_0 radix2 k); lra).
  pose proof (Bdiv_correct 53 1024 _ _ mode_NE (f64_of_Z z) _ Hne) as H.
  change (round_mode mode_NE) with ZnearestE in H. rewrite Z2, P2 in H.
  assert (IZR z / bpow radix2 k = IZR z * bpow radix2 (-k)) as Hd by (unfold Rdiv; now rewrite bpow_opp).
  rewrite Hd, rnd64_scale in H by lia. rewrite Rlt_bool_true in H.
  - destruct H as (H1 & H2 & H3). unfold y, f64_div. split; [congruence|]. split; auto.
    rewrite H3, Z3, P3; [now destruct (z <? 0)%Z|].
    apply fin_not_nan. now rewrite H2.
  - rewrite Rabs_mult, (Rabs_pos_eq (bpow radix2 (-k))) by apply bpow_ge_0. rewrite <- abs_IZR.
    apply Rle_lt_trans with (bpow radix2 31 * bpow radix2 (-k)).
    + apply Rmult_le_compat_r; [apply bpow_ge_0|]. rewrite <- (IZR_Zpower radix2) by lia. now apply IZR_le.
    + rewrite <- bpow_plus. apply bpow_lt. lia.
Qed.
Lemma scale32 z k : (0 <= k <= 31)%Z -> (Z.abs z <= 2 ^ 31)%Z ->
  let y := f32_div (f32_of_Z z) (f32_of_Z (2 ^ k)) in
  is_finite y = true /\ B2R y = rnd32 (IZR z) * bpow radix2 (-k) /\ Bsign y = (z <? 0)%Z.
Proof.
  intros Hk Hz y. destruct (f32_pow2 k Hk) as (P1 & P2 & P3).
  destruct (f32_of_Z_rounded z) as (Z1 & Z2 & Z3); [lia|].
  assert (B2R (f32_of_Z (2 ^ k)) <> 0) as Hne by (rewrite P2; pose proof (bpow_gt_0 radix2 k); lra).
  pose proof (Bdiv_correct 24 128 _ _ mode_NE (f32_of_Z z) _ Hne) as H.
  change (round_mode mode_NE) with ZnearestE in H. rewrite Z2, P2 in H.
  assert (rnd32 (IZR z) / bpow radix2 k = rnd32 (IZR z) * bpow radix2 (-k)) as Hd by (unfold Rdiv; now rewrite bpow_opp).
  rewrite Hd in H. rewrite <- rnd32_scale, (rnd32_generic (rnd32 _)), rnd32_scale in H.
  2,4: lia. 2: apply generic_format_round; apply _.
  rewrite Rlt_bool_true in H.
  - destruct H as (H1 & H2 & H3). unfold y, f32_div. split; [congruence|]. split; auto.
    rewrite H3, Z3, P3; [now destruct (z <? 0)%Z|].
    apply fin_not_nan. now rewrite H2.
  - rewrite Rabs_mult, (Rabs_pos_eq (bpow radix2 (-k))) by apply bpow_ge_0.
    apply Rle_lt_trans with (bpow radix2 31 * bpow radix2 (-k)).
    + apply Rmult_le_compat_r; [apply bpow_ge_0|]. now apply rnd32_IZR_bound.
    + rewrite <- bpow_plus. apply bpow_lt. lia.
Qed.
Lemma scale_f32 z k : (0 <= k <= 31)%Z -> (Z.abs z <= 2 ^ 31)%Z ->
  f32_of_f64 (f64_div (f64_of_Z z) (f64_of_Z (2 ^ k))) = f32_div (f32_of_Z z) (f32_of_Z (2 ^ k)).
Proof.
  intros Hk Hz. destruct (scale64 z k Hk Hz) as (A1 & A2 & A3). destruct (scale32 z k Hk Hz) as (B1 & B2 & B3).
  destruct (f32_of_f64_rounded _ A1) as (C1 & C2 & C3).
  { rewrite A2, rnd32_scale by lia. rewrite Rabs_mult, (Rabs_pos_eq (bpow radix2 (-k))) by apply bpow_ge_0.
    apply Rle_lt_trans with (bpow radix2 31 * bpow radix2 (-k)).
    + apply Rmult_le_compat_r; [apply bpow_ge_0|]. now apply rnd32_IZR_bound.
    + rewrite <- bpow_plus. apply bpow_lt. lia. }
  apply B2R_Bsign_inj; auto.
  - rewrite C2, A2, B2. apply rnd32_scale. lia.
  - congruence.
Qed.
Lemma scale_level z k : (0 <= k <= 31)%Z -> (Z.abs z <= 2 ^ 31)%Z ->
  f64_div (f64_abs (f64_of_Z z)) (f64_of_Z (2 ^ k)) = f64_abs (f64_div (f64_of_Z z) (f64_of_Z (2 ^ k))).
Proof.
  intros Hk Hz. destruct (scale64 z k Hk Hz) as (A1 & A2 & A3).
  destruct (scale64 (Z.abs z) k Hk) as (B1 & B2 & B3); [lia|].
  assert (f64_abs (f64_of_Z z) = f64_of_Z (Z.abs z)) as ->.
  { destruct (f64_of_Z_exact z) as (Z1 & Z2 & Z3); [lia|].
    destruct (f64_of_Z_exact (Z.abs z)) as (Y1 & Y2 & Y3); [lia|]. apply B2R_Bsign_inj; auto.
    - unfold f64_abs. now rewrite is_finite_Babs.
    - unfold f64_abs. rewrite B2R_Babs, Z2, Y2. symmetry. apply abs_IZR.
    - unfold f64_abs. rewrite Bsign_Babs by now apply fin_not_nan.
      rewrite Y3. symmetry. apply Z.ltb_ge. lia. }
  apply B2R_Bsign_inj; auto.
  - unfold f64_abs. now rewrite is_finite_Babs.
  - unfold f64_abs. rewrite B2R_Babs, A2, B2, Rabs_mult, (Rabs_pos_eq (bpow radix2 (-k))) by apply bpow_ge_0.
    now rewrite <- abs_IZR.
  - unfold f64_abs. rewrite Bsign_Babs by now apply fin_not_nan.
    rewrite B3. apply Z.ltb_ge. lia.
Qed.
Lemma f64_div_one_abs (x : f64) : f64_div (f64_abs x) f64_one = f64_abs x.
Proof.
  destruct (abs_nn_or_nan x) as [H|H]; [now apply f64_div_one|].
  unfold f64_abs in *. destruct x; try discriminate. reflexivity.
Qed.

Lemma read_scaled P z k (S : sample Z) : (0 <= k <= 31)%Z -> (Z.abs z <= 2 ^ 31)%Z ->
  s_raw S = f64_of_Z -> s_max S = f64_neg (f64_of_Z (- 2 ^ k)) ->
  s_f64 S = (fun z => f64_div (f64_of_Z z) (f64_of_Z (2 ^ k))) ->
  s_f32 S P = (fun z => ftz32 P (f32_div (f32_of_Z z) (f32_of_Z (2 ^ k)))) ->
  read P S z = read P smp_f64 (f64_div (f64_of_Z z) (f64_of_Z (2 ^ k))).
Proof.
  intros Hk Hz H1 H2 H3 H4. unfold read. rewrite H1, H2, H3, H4.
  cbn [smp_f64 s_raw s_max s_f64 s_f32]. rewrite scale_f32, f64_div_one_abs by auto.
  assert (f64_neg (f64_of_Z (- 2 ^ k)) = f64_of_Z (2 ^ k)) as ->.
  { assert (2 ^ k <= 2 ^ 31)%Z by (apply Z.pow_le_mono_r; lia). pose proof (Z.pow_pos_nonneg 2 k).
    destruct (f64_pow2 k Hk) as (P1 & P2 & P3). destruct (f64_of_Z_exact (- 2 ^ k)) as (Z1 & Z2 & Z3); [lia|].
    unfold f64_neg. apply B2R_Bsign_inj; auto.
    - now rewrite is_finite_Bopp.
    - rewrite B2R_Bopp, Z2, P2, opp_IZR, (IZR_Zpower radix2) by lia. lra.
    - rewrite Bsign_Bopp by now apply fin_not_nan.
      rewrite Z3, P3. assert (- 2 ^ k <? 0 = true)%Z as -> by (apply Z.ltb_lt; lia). reflexivity. }
  now rewrite scale_level by auto.
Qed.
Lemma read_i16 P z : in_i16 z -> read P smp_i16 z = read P smp_f64 (f64_of_i16 z).
Proof. intros Hz. apply (read_scaled P z 15 smp_i16); auto; unfold in_i16 in *; lia. Qed.
Lemma read_i32 P z : in_i32 z -> read P smp_i32 z = read P smp_f64 (f64_of_i32 z).
Proof. intros Hz. apply (read_scaled P z 31 smp_i32); auto; unfold in_i32 in *; lia. Qed.
Lemma subnormal_stable P x : (p_ftz P = true -> subnormal32 x = false) -> ftz32 P x = x.
Proof.
  intros H. unfold ftz32. destruct (p_ftz P); auto. specialize (H eq_refl). destruct x; auto. unfold flush32.
  cbn [subnormal32] in H. now rewrite H.
Qed.
Lemma read_f32 P x : (p_ftz P = true -> subnormal32 x = false) -> read P smp_f32 x = read P smp_f64 (f64_of_f32 x).
Proof.
  intros H. unfold read. cbn [smp_f32 smp_f64 s_raw s_max s_f64 s_f32].
  now rewrite f32_of_f64_of_f32, (subnormal_stable P x H).
Qed.
Lemma i16_exact z : in_i16 z -> is_finite (f64_of_i16 z) = true /\ B2R (f64_of_i16 z) = IZR z / 32768.
Proof.
  intros Hz. destruct (scale64 z 15) as (A & B & _); try (unfold in_i16 in *; lia). split; auto.
Qed.
Lemma i32_exact z : in_i32 z -> is_finite (f64_of_i32 z) = true /\ B2R (f64_of_i32 z) = IZR z / 2147483648.
Proof.
  intros Hz. destruct (scale64 z 31) as (A & B & _); try (unfold in_i32 in *; lia). split; auto.
Qed.

(** * whole buffers *)
Lemma interleaved_input_map {A B} P (S : sample A) (S' : sample B) (f : A -> B) C l :
  Forall (fun x => read P S x = read P S' (f x)) l ->
  interleaved_input P S C l = interleaved_input P S' C (map f l).
Proof.
  intros H. unfold interleaved_input. rewrite map_length, map_map.
  assert (map (read P S) l = map (fun x => read P S' (f x)) l) as ->; auto.
  apply map_ext_in. rewrite Forall_forall in H. auto.
Qed.
Lemma planar_input_map {A B} P (S : sample A) (S' : sample B) (f : A -> B) l :
  Forall (Forall (fun x => read P S x = read P S' (f x))) l ->
  planar_input P S l = planar_input P S' (map (map f) l).
Proof.
  intros H. destruct l as [|p l]; auto. unfold planar_input.
  assert (forallb (fun q => length q =? length p)%nat (p :: l) =
    forallb (fun q => length q =? length (map f p))%nat (map (map f) (p :: l))) as Hb.
  { rewrite map_length. generalize (p :: l). intros l'. induction l'; simpl; auto. now rewrite map_length, IHl'. }
  cbn [map] in *. rewrite Hb. match goal with |- (if ?b then _ else _) = _ => destruct b; auto end.
  enough (map (map (read P S)) (p :: l) = map (map (read P S')) (map (map f) (p :: l))) as Hx by exact (f_equal Some Hx).
  rewrite map_map. apply map_ext_in. intros q Hq. rewrite map_map. apply map_ext_in. intros x Hx.
  rewrite Forall_forall in H. specialize (H q Hq). rewrite Forall_forall in H. auto.
Qed.
Lemma input_to_f64 P C a : samples_ok P a -> input P C a = input P C (to_f64 a).
Proof.
  destruct a as [l|l|l|l|l|l|l|l]; cbn [samples_ok to_f64 input]; intros H; auto.
  - apply interleaved_input_map. eapply Forall_impl; [|apply H]. intros; now apply read_i16.
  - apply interleaved_input_map. eapply Forall_impl; [|apply H]. intros; now apply read_i32.
  - apply interleaved_input_map. eapply Forall_impl; [|apply H]. intros; now apply read_f32.
  - apply planar_input_map. eapply Forall_impl; [|apply H]. intros l' Hl. eapply Forall_impl; [|apply Hl]. intros; now apply read_i16.
  - apply planar_input_map. eapply Forall_impl; [|apply H]. intros l' Hl. eapply Forall_impl; [|apply Hl]. intros; now apply read_i32.
  - apply planar_input_map. eapply Forall_impl; [|apply H]. intros l' Hl. eapply Forall_impl; [|apply Hl]. intros; now apply read_f32.
Qed.

(** * layouts *)
Lemma input_deinterleave {T} P (S : sample T) C l : (0 < C)%nat -> length l mod C = 0%nat ->
  interleaved_input P S C l = planar_input P S (deinterleave C l).
Proof.
  intros HC H. unfold interleaved_input. rewrite H. cbn [Nat.eqb].
  rewrite deinterleave_map.
  assert (Forall (fun c => length c = length l / C)%nat (deinterleave C l)) as HF.
  { rewrite (deinterleave_cols C (length l / C)).
    - destruct (Prelude_proofs.chunks_split C l (length l / C)) as (K1 & K2 & K3); auto.
      { rewrite (Nat.div_mod_eq (length l) C) at 1. lia. }
      eapply Forall_impl; [|apply Utils_proofs.cols_of_lengths, K2]. cbn. intros c Hc. now rewrite Hc.
    - rewrite (Nat.div_mod_eq (length l) C) at 1. lia. }
  pose proof (deinterleave_length C l) as HL. destruct (deinterleave C l) as [|p d]; [cbn in HL; lia|].
  unfold planar_input. replace (forallb _ _) with true; auto.
  symmetry. apply forallb_forall. intros q Hq. rewrite Forall_forall in HF. apply Nat.eqb_eq.
  rewrite (HF q Hq). symmetry. apply HF. now left.
Qed.
Lemma input_interleave {T} P (S : sample T) C l : (0 < C)%nat -> rectangular l -> length l = C ->
  planar_input P S l = interleaved_input P S C (interleave (length (hd [] l)) l).
Proof.
  intros HC (Hne & n & HF) HL.
  assert (length (hd [] l) = n) as -> by (destruct HF; [congruence|auto]).
  rewrite input_deinterleave.
  - now rewrite <- HL, deinterleave_interleave.
  - auto.
  - rewrite interleave_length, HL by auto. apply Nat.mod_mul. lia.
Qed.
