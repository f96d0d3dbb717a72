(** Proofs about the normalize example (C79). *)
From Coq Require Import List Arith NArith ZArith Bool Lia Reals Lra.
From Flocq Require Import Core IEEE754.BinarySingleNaN.
From Verif Require Import Prelude Float Env Utils Interp History TruePeak Filter Ebur128 Programs Prelude_proofs Utils_proofs
  Float_proofs Ebur128_proofs Spec Reach_proofs Config_proofs Stream_proofs Loud_proofs Format_proofs Answers_proofs Silence_proofs
  Spec_real Spec_interp Spec_history Spec_accuracy Spec_programs Oversample_proofs Accuracy_proofs Order_proofs Lufs_proofs Value_proofs Report_proofs Programs_proofs.
Import ListNotations.
Local Open Scope R_scope.

(** * Samples *)
Lemma rnd32_small z : (Z.abs z <= 2 ^ 24)%Z -> rnd32 (IZR z) = IZR z.
Proof.
  intros Hz. apply rnd32_generic. destruct (Z.eq_dec (Z.abs z) (2 ^ 24)) as [E|E].
  - assert (z = 2 ^ 24 \/ z = - 2 ^ 24)%Z as [-> | ->] by lia.
    + change (IZR (2 ^ 24)) with (bpow radix2 24). apply generic_format_bpow. unfold SpecFloat.fexp, SpecFloat.emin. lia.
    + rewrite opp_IZR. apply generic_format_opp. change (IZR (2 ^ 24)) with (bpow radix2 24). apply generic_format_bpow. unfold SpecFloat.fexp, SpecFloat.emin. lia.
  - replace (IZR z) with (F2R (Float radix2 z 0)) by (unfold F2R; cbn; ring). apply generic_format_FLT. exists (Float radix2 z 0); auto; cbn; lia.
Qed.
Lemma of_Z_exact z : (Z.abs z <= 2 ^ 24)%Z -> is_finite (f32_of_Z z) = true /\ B2R (f32_of_Z z) = IZR z.
Proof. intros Hz. destruct (f32_of_Z_rounded z) as (H1 & H2 & _); [lia|]. rewrite rnd32_small in H2 by auto. auto. Qed.
Lemma sample_real s : (-32768 <= s <= 32767)%Z -> is_finite (wav_sample s) = true /\ B2R (wav_sample s) = rnd32 (IZR s / 32767) /\ Rabs (B2R (wav_sample s)) <= 2.
Proof.
  intros Hs. destruct (of_Z_exact 32767) as (F1 & E1); [lia|]. destruct (of_Z_exact s) as (F2 & E2); [lia|].
  assert (B2R (f32_of_Z 32767) <> 0) as Hne by (rewrite E1; lra).
  pose proof (Bdiv_correct 24 128 _ _ mode_NE (f32_of_Z s) _ Hne) as H. change (round_mode mode_NE) with ZnearestE in H. rewrite E1, E2 in H.
  assert (Rabs (IZR s / 32767) <= 2) as B. { apply Rabs_le. destruct Hs as (A1 & A2). apply IZR_le in A1, A2. lra. }
  assert (Rabs (rnd32 (IZR s / 32767)) <= 2) as B2. { apply abs_round_le_generic; try apply _; auto. change 2 with (bpow radix2 1). apply generic_format_bpow. unfold SpecFloat.fexp, SpecFloat.emin. lia. }
  rewrite Rlt_bool_true in H.
  - destruct H as (H1 & H2 & _). unfold wav_sample, f32_div. rewrite H1, H2. auto.
  - eapply Rle_lt_trans; [exact B2|]. change 2 with (bpow radix2 1). apply bpow_lt. lia.
Qed.
Definition unit_clip (x : R) : R := Rmax (-1) (Rmin 1 x).
Lemma clamp_real x : is_finite x = true -> is_finite (f32_clamp x (f32_of_Z (-1)) (f32_of_Z 1)) = true /\ B2R (f32_clamp x (f32_of_Z (-1)) (f32_of_Z 1)) = unit_clip (B2R x).
Proof.
  intros F. destruct (of_Z_exact 1) as (F1 & E1); [lia|]. destruct (of_Z_exact (-1)) as (F2 & E2); [lia|]. unfold f32_clamp, f32_gt, unit_clip.
  rewrite (Bltb_correct 24 128 x (f32_of_Z (-1))) by auto. rewrite E2. destruct (Rlt_bool_spec (B2R x) (-1)) as [L|L].
  - rewrite (Bltb_correct 24 128 (f32_of_Z 1) (f32_of_Z (-1))) by auto. rewrite E1, E2. rewrite Rlt_bool_false by lra. split; auto. rewrite Rmin_right by lra. rewrite Rmax_left by lra. auto.
  - rewrite (Bltb_correct 24 128 (f32_of_Z 1) x) by auto. rewrite E1. destruct (Rlt_bool_spec 1 (B2R x)) as [L'|L'].
    + split; auto. rewrite Rmin_left by lra. rewrite Rmax_right by lra. auto.
    + split; auto. rewrite Rmin_right by lra. rewrite Rmax_right by lra. auto.
Qed.
(** the last steps for a finite sample *)
Definition finish (x : R) : Z := Ztrunc (rnd32 (unit_clip x * 32767)).
Lemma rnd32_le x y : x <= y -> rnd32 x <= rnd32 y.
Proof. intros H. apply round_le; auto; apply _. Qed.
Lemma finish_range x : (-32767 <= finish x <= 32767)%Z.
Proof.
  unfold finish. assert (-1 <= unit_clip x <= 1) as B. { unfold unit_clip. split; [apply Rmax_l|]. apply Rmax_lub; [lra|apply Rmin_l]. }
  assert (-32767 <= rnd32 (unit_clip x * 32767) <= 32767) as (B1 & B2).
  { pose proof (rnd32_small (-32767) ltac:(lia)) as X1. pose proof (rnd32_small 32767 ltac:(lia)) as X2.
    pose proof (rnd32_le (-32767) (unit_clip x * 32767) ltac:(lra)). pose proof (rnd32_le (unit_clip x * 32767) 32767 ltac:(lra)). lra. }
  apply Ztrunc_le in B1, B2. rewrite Ztrunc_IZR in B1, B2. lia.
Qed.
Lemma finish_le x y : x <= y -> (finish x <= finish y)%Z.
Proof.
  intros H. unfold finish. apply Ztrunc_le, rnd32_le. apply Rmult_le_compat_r; [lra|]. unfold unit_clip. apply Rle_max_compat_l. apply Rle_min_compat_l; auto.
Qed.
Lemma to_i16_finite x : is_finite x = true -> (-32768 <= Ztrunc (B2R x) <= 32767)%Z -> f32_to_i16 x = Ztrunc (B2R x).
Proof.
  intros F B. assert (Btrunc x = Ztrunc (B2R x)) as E. { apply eq_IZR. rewrite Btrunc_correct by exact Hmax32. now rewrite round_FIX_IZR. }
  destruct x; try discriminate F; unfold f32_to_i16; rewrite E; lia.
Qed.
Lemma finish_ok x : is_finite x = true -> f32_to_i16 (f32_mul (f32_clamp x (f32_of_Z (-1)) (f32_of_Z 1)) (f32_of_Z 32767)) = finish (B2R x).
Proof.
  intros F. destruct (clamp_real x F) as (F1 & E1). destruct (of_Z_exact 32767) as (F2 & E2); [lia|].
  assert (-1 <= unit_clip (B2R x) <= 1) as B. { unfold unit_clip. split; [apply Rmax_l|]. apply Rmax_lub; [lra|apply Rmin_l]. }
  destruct (mul32 _ _ F1 F2) as (F3 & E3).
  { unfold real32. rewrite E1, E2. apply Rle_trans with 32768; [apply Rabs_le; lra|]. replace 32768 with (2 ^ 15) by (cbn; lra). apply Rle_pow; [lra|lia]. }
  unfold real32 in E3. rewrite E1, E2 in E3. rewrite to_i16_finite; auto. { now rewrite E3. } rewrite E3. pose proof (finish_range (B2R x)). unfold finish in H. lia.
Qed.
Lemma infinite_sample s : f32_to_i16 (f32_mul (f32_clamp (B754_infinity s) (f32_of_Z (-1)) (f32_of_Z 1)) (f32_of_Z 32767)) = (if s then -32767 else 32767)%Z.
Proof. destruct s; vm_compute; reflexivity. Qed.
(** any gain at all: the output fits *)
Lemma any_gain g s : (-32767 <= normal_sample g s <= 32767)%Z.
Proof.
  unfold normal_sample. destruct (is_finite (f32_mul s g)) eqn:F; [rewrite finish_ok by auto; apply finish_range|]. destruct (f32_mul s g) as [| s' | |]; try discriminate F.
  - rewrite infinite_sample. destruct s'; lia.
  - vm_compute. split; discriminate.
Qed.
(** an infinite gain *)
Lemma full_scale s : (-32768 <= s <= 32767)%Z -> normal_sample (B754_infinity false) (wav_sample s) = (Z.sgn s * 32767)%Z.
Proof.
  intros Hs. destruct (Z.eq_dec s 0) as [->|N]; [vm_compute; reflexivity|]. destruct (sample_real s Hs) as (F & E & _).
  assert (B2R (wav_sample s) <> 0 /\ (Bsign (wav_sample s) = (s <? 0)%Z)) as (NZ & SG).
  { pose proof (f32_of_Z_rounded s ltac:(lia)) as (F1 & E1 & S1). destruct (f32_of_Z_rounded 32767 ltac:(lia)) as (F2 & E2 & S2). rewrite rnd32_small in E1, E2 by lia.
    split.
    - rewrite E. intros X. assert (/ 2 ^ 16 <= Rabs (rnd32 (IZR s / 32767))) as L; [|rewrite X, Rabs_R0 in L; assert (0 < / 2 ^ 16) by (apply Rinv_0_lt_compat, pow_lt; lra); lra].
      change (/ 2 ^ 16) with (/ IZR (2 ^ 16)) || idtac. apply abs_round_ge_generic; try apply _.
      + replace (/ 2 ^ 16) with (bpow radix2 (-16)) by (cbn; lra). apply generic_format_bpow. unfold SpecFloat.fexp, SpecFloat.emin. lia.
      + unfold Rdiv. rewrite Rabs_mult, <- abs_IZR, (Rabs_pos_eq (/ 32767)) by lra. assert (1 <= IZR (Z.abs s)) by (apply IZR_le; lia). cbn. lra.
    - assert (B2R (f32_of_Z 32767) <> 0) as Hne by (rewrite E2; lra).
      pose proof (Bdiv_correct 24 128 _ _ mode_NE (f32_of_Z s) _ Hne) as H. destruct (Rlt_bool _ _) eqn:RB in H.
      + destruct H as (_ & _ & H). fold (f32_div (f32_of_Z s) (f32_of_Z 32767)) in H. change (f32_div (f32_of_Z s) (f32_of_Z 32767)) with (wav_sample s) in H.
        rewrite H by now apply fin_not_nan. rewrite S1, S2. now destruct (s <? 0)%Z.
      + fold (f32_div (f32_of_Z s) (f32_of_Z 32767)) in H. change (f32_div (f32_of_Z s) (f32_of_Z 32767)) with (wav_sample s) in H. destruct (wav_sample s); cbn in F, H; try discriminate. }
  destruct (wav_sample s) as [s'|s'| |s' m e B]; try discriminate F; [cbn in NZ; lra|]. cbn in SG. unfold normal_sample.
  change (f32_mul (B754_finite s' m e B) (B754_infinity false)) with (B754_infinity (prec := 24) (emax := 128) (xorb s' false)). rewrite infinite_sample, SG.
  destruct (Z.ltb_spec s 0); cbn [xorb]; destruct s; try lia; reflexivity.
Qed.
(** a finite gain *)
Lemma finite_gain g s : is_finite g = true -> 0 <= B2R g <= 2 ^ 100 -> (-32768 <= s <= 32767)%Z -> normal_sample g (wav_sample s) = finish (rnd32 (rnd32 (IZR s / 32767) * B2R g)).
Proof.
  intros F B Hs. destruct (sample_real s Hs) as (F1 & E1 & B1). unfold normal_sample.
  destruct (mul32 _ _ F1 F) as (F2 & E2).
  { unfold real32. rewrite Rabs_mult, (Rabs_pos_eq (B2R g)) by lra. apply Rle_trans with (2 * 2 ^ 100); [apply Rmult_le_compat; try lra; apply Rabs_pos|]. change (2 * 2 ^ 100) with (2 ^ 101). apply Rle_pow; [lra|lia]. }
  rewrite finish_ok by auto. unfold real32 in E2. now rewrite E2, E1.
Qed.

(** * The gain *)
Lemma minus_23 : is_finite TARGET_LOUDNESS = true /\ B2R TARGET_LOUDNESS = -23.
Proof. split; [reflexivity|]. unfold TARGET_LOUDNESS. rewrite <- SF2R_B2SF. change (SF2R radix2 _) with (F2R (Float radix2 (-6473924464345088) (-48))). unfold F2R. cbn. lra. Qed.
Lemma plus_20 : is_finite (f64_of_Z 20) = true /\ B2R (f64_of_Z 20) = 20.
Proof. split; [reflexivity|]. rewrite <- SF2R_B2SF. change (SF2R radix2 _) with (F2R (Float radix2 5629499534213120 (-48))). unfold F2R. cbn. lra. Qed.
Lemma small_1000 x : Rabs x <= 1000 -> Rabs x <= bpow radix2 1000.
Proof.
  intros H. eapply Rle_trans; [exact H|]. replace (bpow radix2 1000) with (bpow radix2 10 * bpow radix2 990) by (rewrite <- bpow_plus; reflexivity). pose proof (bpow_le radix2 0 990 ltac:(lia)) as X. change (bpow radix2 0) with 1 in X. change (bpow radix2 10) with 1024. lra.
Qed.
Lemma rnd64_abs x : Rabs x <= 1000 -> Rabs (rnd64 x - x) <= / 10 ^ 12.
Proof.
  intros H. eapply Rle_trans; [apply Lufs_proofs.rnd_error|]. pose proof u_pos. assert (u <= 2 / 10 ^ 16) as U by (unfold u, roundoff; cbn; lra).
  assert (u * Rabs x <= 2 / 10 ^ 16 * 1000) by (apply Rmult_le_compat; try lra; apply Rabs_pos). assert (eta <= / 10 ^ 15) as T.
  { unfold eta. apply Rle_trans with (/ 2 ^ 60); [|cbn; lra]. apply Rinv_le_contravar; [apply pow_lt; lra|apply Rle_pow; [lra|lia]]. } cbn in *. lra.
Qed.

Lemma exponent_near l : is_finite l = true -> Rabs (real l) <= 335 ->
  let y := f32_of_f64 (f64_div (f64_sub TARGET_LOUDNESS l) (f64_of_Z 20)) in
  is_finite y = true /\ Rabs (real32 y - (-23 - real l) / 20) <= 1.08 / 10 ^ 6.
Proof.
  intros F B y. unfold real in *. set (z := B2R l) in *. destruct minus_23 as (F1 & E1). destruct plus_20 as (F2 & E2). apply Rabs_le_inv in B.
  destruct (sub_small TARGET_LOUDNESS l F1 F) as (F3 & E3); [rewrite E1; fold z; apply small_1000, Rabs_le; lra|]. rewrite E1 in E3. fold z in E3.
  pose proof (rnd64_abs (-23 - z) ltac:(apply Rabs_le; lra)) as R1. rewrite <- E3 in R1. set (a := B2R (f64_sub TARGET_LOUDNESS l)) in *. apply Rabs_le_inv in R1. assert (/ 10 ^ 12 <= / 1000) as S1 by (cbn; lra).
  pose proof (Bdiv_correct 53 1024 Hprec64 Hmax64 mode_NE (f64_sub TARGET_LOUDNESS l) (f64_of_Z 20)) as C. rewrite E2 in C. specialize (C ltac:(lra)). fold a in C.
  change (round radix2 (SpecFloat.fexp 53 1024) (round_mode mode_NE) ?z) with (rnd64 z) in C. pose proof (rnd64_abs (a / 20) ltac:(apply Rabs_le; lra)) as R2. apply Rabs_le_inv in R2.
  rewrite Rlt_bool_true in C.
  2: { apply Rle_lt_trans with 1000; [apply Rabs_le; lra|]. apply Rlt_le_trans with (bpow radix2 10); [cbn; lra|]. apply bpow_le. lia. }
  destruct C as (E4 & F4 & _). rewrite F3 in F4. fold (f64_div (f64_sub TARGET_LOUDNESS l) (f64_of_Z 20)) in E4, F4. set (d := f64_div (f64_sub TARGET_LOUDNESS l) (f64_of_Z 20)) in *. rewrite <- E4 in R2.
  assert (Rabs (B2R d) <= 17.95) as B3 by (apply Rabs_le; lra).
  pose proof (rnd32_error (B2R d)) as R3. assert (/ 2 ^ 150 <= / 10 ^ 12) as S2. { apply Rle_trans with (/ 2 ^ 60); [|cbn; lra]. apply Rinv_le_contravar; [apply pow_lt; lra|apply Rle_pow; [lra|lia]]. }
  assert (Rabs (rnd32 (B2R d) - B2R d) <= 1.07 / 10 ^ 6) as R4. { eapply Rle_trans; [exact R3|]. assert (/ 2 ^ 24 * Rabs (B2R d) <= / 2 ^ 24 * 17.95) by (apply Rmult_le_compat_l; [cbn; lra|auto]). cbn in *. lra. }
  clear R3. apply Rabs_le_inv in R4. apply Rabs_le_inv in B3.
  destruct (f32_of_f64_rounded d F4) as (F5 & E5 & _). { apply Rle_lt_trans with 1000; [apply Rabs_le; cbn in *; lra|]. apply Rlt_le_trans with (bpow radix2 10); [cbn; lra|]. apply bpow_le. lia. }
  split; auto. unfold y, real32. rewrite E5. apply Rabs_le. cbn in *. lra.
Qed.
Lemma power_near a b : Rabs (a - b) <= 1.08 / 10 ^ 6 -> Rabs (Rpower 10 a - Rpower 10 b) <= 5.4 / 10 ^ 6 * Rpower 10 b.
Proof.
  intros H. pose proof Calibration_proofs.ln10_upper as U. pose proof Calibration_proofs.ln10_pos as L. unfold Rpower.
  replace (a * ln 10) with ((a - b) * ln 10 + b * ln 10) by ring. rewrite exp_plus. set (q := exp (b * ln 10)). assert (0 < q) by apply exp_pos. set (t := (a - b) * ln 10).
  assert (Rabs t <= 2.7 / 10 ^ 6) as T. { unfold t. rewrite Rabs_mult, (Rabs_pos_eq (ln 10)) by lra. apply Rle_trans with (1.08 / 10 ^ 6 * 2.5); [|cbn; lra]. apply Rmult_le_compat; auto; try lra; apply Rabs_pos. }
  pose proof (Coeff_proofs.exp_step t ltac:(cbn in *; lra)) as X. replace (exp t * q - q) with ((exp t - 1) * q) by ring. rewrite Rabs_mult, (Rabs_pos_eq q) by lra. apply Rmult_le_compat_r; [lra|]. cbn in *. lra.
Qed.
Lemma power_size a n : Rabs a <= INR n -> / 10 ^ n <= Rpower 10 a <= 10 ^ n.
Proof.
  intros H. apply Rabs_le_inv in H. rewrite <- Rpower_pow by lra. rewrite <- Rpower_Ropp. split; apply Rle_Rpower; lra.
Qed.
Lemma gain_near pw l : powf32_contract pw -> is_finite l = true -> Rabs (real l) <= 335 -> let g := normal_gain pw l in let G := target_gain (real l) in
  is_finite g = true /\ 0 < G <= 10 ^ 18 /\ Rabs (real32 g - G) <= 6 / 10 ^ 6 * G.
Proof.
  intros (_ & HC) F B g G. destruct (exponent_near l F B) as (Fy & By). cbv zeta in By. unfold g, normal_gain. set (y := f32_of_f64 _) in *.
  unfold G, target_gain. set (a := (-23 - real l) / 20) in *. assert (Rabs a <= 18) as Ba. { unfold a. apply Rabs_le_inv in B. apply Rabs_le. lra. }
  assert (Rabs (real32 y) <= 30) as B3. { apply Rabs_le_inv in By, Ba. apply Rabs_le. cbn in *. lra. }
  destruct (HC y Fy B3) as (Fg & Bg). split; auto. set (p := real32 (pw _ y)) in *. pose proof (power_near _ _ By) as PN. pose proof (power_size a 18) as PS. replace (INR 18) with 18 in PS by (rewrite INR_IZR_INZ; reflexivity). specialize (PS Ba).
  assert (0 < Rpower 10 a) as PA by apply exp_pos. split; [split; [auto|apply PS]|]. clear PS. set (A := Rpower 10 a) in *. set (Y := Rpower 10 (real32 y)) in *.
  assert (Y <= 1.1 * A) as YA by (apply Rabs_le_inv in PN; cbn in *; lra).
  assert (/ 2 ^ 21 * Y <= 0.55 / 10 ^ 6 * A) by (cbn in *; lra). apply Rabs_le_inv in PN, Bg. apply Rabs_le. cbn in *. lra.
Qed.

(** * The output *)
Lemma unit_clip_near V w : Rabs (w - V) <= 6.3 / 10 ^ 6 * Rabs V + / 10 ^ 19 -> Rabs (unit_clip w - unit_clip V) <= 1.3 / 10 ^ 5.
Proof.
  intros H. assert (Rabs V <= 2 \/ 2 < V \/ V < -2) as C. { destruct (Rle_or_lt (Rabs V) 2) as [|C]; auto. right. unfold Rabs in C. destruct (Rcase_abs V); lra. }
  destruct C as [C|C].
  - assert (Rabs (w - V) <= 1.3 / 10 ^ 5) as D by (cbn in *; lra). clear H. apply Rabs_le_inv in D. apply Rabs_le. unfold unit_clip. assert (0 <= 1.3 / 10 ^ 5) by (cbn; lra). set (d := 1.3 / 10 ^ 5) in *.
    unfold Rmax, Rmin. destruct (Rle_dec 1 w), (Rle_dec 1 V); repeat destruct (Rle_dec (-1) _); lra.
  - assert ((1 <= w /\ 1 <= V) \/ (w <= -1 /\ V <= -1)) as D.
    { destruct C as [C|C]; [rewrite (Rabs_pos_eq V) in H by lra|rewrite (Rabs_left V) in H by lra]; apply Rabs_le_inv in H; [left|right]; cbn in *; lra. }
    clear H. replace (unit_clip w - unit_clip V) with 0; [rewrite Rabs_R0; cbn; lra|]. unfold unit_clip. destruct D as [(D1 & D2)|(D1 & D2)].
    + rewrite !Rmin_left by lra. lra.
    + rewrite !Rmin_right, !Rmax_left by lra. lra.
Qed.
Lemma clip_unit x : clip (x * 32767) = unit_clip x * 32767.
Proof.
  unfold clip, unit_clip, Rmax, Rmin. repeat destruct (Rle_dec _ _); lra.
Qed.
Lemma trunc_near x : Rabs (IZR (Ztrunc x) - x) <= 1.
Proof.
  unfold Ztrunc. destruct (Rlt_bool_spec x 0).
  - pose proof (Zceil_ub x). pose proof (Zceil_lb x). apply Rabs_le. lra.
  - pose proof (Zfloor_lb x). pose proof (Zfloor_ub x). apply Rabs_le. lra.
Qed.
Lemma sample_near (g : f32) G s : 0 < G -> Rabs (B2R g - G) <= 6 / 10 ^ 6 * G -> (-32768 <= s <= 32767)%Z ->
  Rabs (rnd32 (rnd32 (IZR s / 32767) * B2R g) - G * (IZR s / 32767)) <= 6.3 / 10 ^ 6 * Rabs (G * (IZR s / 32767)) + / 10 ^ 20 * (1 + G / 10 ^ 20).
Proof.
  intros HG Hg Hs. set (x := IZR s / 32767) in *. set (a := B2R g) in *. assert (/ 2 ^ 150 <= / 10 ^ 42) as T. { apply Rle_trans with (/ 2 ^ 144); [apply Rinv_le_contravar; [apply pow_lt; lra|apply Rle_pow; [lra|lia]]|cbn; lra]. }
  pose proof (rnd32_error x) as R1. set (x' := rnd32 x) in *. pose proof (rnd32_error (x' * a)) as R2. set (w := / 2 ^ 150) in *. assert (0 < w) as W by (apply Rinv_0_lt_compat, pow_lt; lra). clearbody w.
  set (v := / 2 ^ 24) in *. assert (0 < v <= 6 / 10 ^ 8) as Hv by (unfold v; cbn; lra). clearbody v. set (b := 6 / 10 ^ 6) in *. assert (0 < b <= 6 / 10 ^ 6) as Hb by (unfold b; cbn; lra). clearbody b.
  assert (Rabs a <= (1 + b) * G) as A. { replace a with ((a - G) + G) by ring. eapply Rle_trans; [apply Rabs_triang|]. rewrite (Rabs_pos_eq G) by lra. lra. }
  assert (Rabs (x' * a - G * x) <= (v * Rabs x + w) * ((1 + b) * G) + Rabs x * (b * G)) as D.
  { replace (x' * a - G * x) with ((x' - x) * a + x * (a - G)) by ring. eapply Rle_trans; [apply Rabs_triang|]. rewrite !Rabs_mult. apply Rplus_le_compat.
    - apply Rmult_le_compat; auto using Rabs_pos.
    - apply Rmult_le_compat_l; auto using Rabs_pos. }
  rewrite Rabs_mult, (Rabs_pos_eq G) by lra. set (r := Rabs x) in *. assert (0 <= r) as Hr by apply Rabs_pos.
  assert (Rabs (x' * a) <= G * r + ((v * r + w) * ((1 + b) * G) + r * (b * G))) as M. { replace (x' * a) with ((x' * a - G * x) + G * x) by ring. eapply Rle_trans; [apply Rabs_triang|]. rewrite Rabs_mult, (Rabs_pos_eq G) by lra. fold r. lra. }
  replace (rnd32 (x' * a) - G * x) with ((rnd32 (x' * a) - x' * a) + (x' * a - G * x)) by ring. eapply Rle_trans; [apply Rabs_triang|].
  apply Rle_trans with (v * (G * r + ((v * r + w) * ((1 + b) * G) + r * (b * G))) + w + ((v * r + w) * ((1 + b) * G) + r * (b * G))).
  { apply Rplus_le_compat; auto. eapply Rle_trans; [exact R2|]. apply Rplus_le_compat_r. apply Rmult_le_compat_l; [lra|auto]. }
  clear R1 R2 D M A. set (q := G * r). assert (0 <= q) as Hq by (apply Rmult_le_pos; lra).
  replace (v * (q + ((v * r + w) * ((1 + b) * G) + r * (b * G))) + w + ((v * r + w) * ((1 + b) * G) + r * (b * G)))
    with ((v + (1 + v) * (v * (1 + b) + b)) * q + w + (1 + v) * (1 + b) * (w * G)) by (unfold q; ring).
  assert (v + (1 + v) * (v * (1 + b) + b) <= 6.3 / 10 ^ 6) as K1.
  { assert (v * (1 + b) + b <= 6.1 / 10 ^ 6) as K by (assert (v * b <= 6 / 10 ^ 8 * (6 / 10 ^ 6)) by (apply Rmult_le_compat; lra); cbn in *; lra).
    assert (0 <= v * (1 + b) + b) by (assert (0 <= v * b) by (apply Rmult_le_pos; lra); lra).
    assert (v * (v * (1 + b) + b) <= 6 / 10 ^ 8 * (6.1 / 10 ^ 6)) by (apply Rmult_le_compat; lra). cbn in *. lra. }
  assert ((1 + v) * (1 + b) * (w * G) <= / 10 ^ 40 * G) as K2.
  { assert ((1 + v) * (1 + b) <= 2) as K by (assert (v * b <= 6 / 10 ^ 8 * 1) by (apply Rmult_le_compat; cbn in *; lra); cbn in *; lra). assert (0 <= w * G) by (apply Rmult_le_pos; lra).
    apply Rle_trans with (2 * (w * G)); [apply Rmult_le_compat_r; auto|]. replace (2 * (w * G)) with (2 * w * G) by ring. apply Rmult_le_compat_r; [lra|]. cbn in *. lra. }
  assert ((v + (1 + v) * (v * (1 + b) + b)) * q <= 6.3 / 10 ^ 6 * q) as K3 by (apply Rmult_le_compat_r; auto).
  replace (/ 10 ^ 20 * (1 + G / 10 ^ 20)) with (/ 10 ^ 20 + / 10 ^ 40 * G) by (field; split; apply pow_nonzero; lra). assert (w <= / 10 ^ 20) as K4 by (cbn in *; lra).
  rewrite Rplus_assoc. apply Rplus_le_compat; [exact K3|]. apply Rplus_le_compat; [exact K4|exact K2].
Qed.
Lemma output_near (g : f32) G s : is_finite g = true -> 0 < G <= 10 ^ 18 -> Rabs (B2R g - G) <= 6 / 10 ^ 6 * G -> (-32768 <= s <= 32767)%Z ->
  Rabs (IZR (finish (rnd32 (rnd32 (IZR s / 32767) * B2R g))) - clip (G * IZR s)) <= 3 / 2.
Proof.
  intros F HG Hg Hs. pose proof (sample_near g G s (proj1 HG) Hg Hs) as N. set (V := G * (IZR s / 32767)) in *. set (w := rnd32 (rnd32 (IZR s / 32767) * B2R g)) in *.
  assert (Rabs (unit_clip w - unit_clip V) <= 1.3 / 10 ^ 5) as U.
  { apply unit_clip_near. eapply Rle_trans; [exact N|]. apply Rplus_le_compat_l. apply Rle_trans with (/ 10 ^ 20 * 2); [|cbn; lra]. apply Rmult_le_compat_l; [cbn; lra|]. cbn in *. lra. }
  replace (G * IZR s) with (V * 32767) by (unfold V; field). rewrite clip_unit. clearbody V w. clear - U. unfold finish.
  pose proof (trunc_near (rnd32 (unit_clip w * 32767))) as T. pose proof (rnd32_error (unit_clip w * 32767)) as R.
  assert (Rabs (unit_clip w * 32767) <= 32767) as B. { unfold unit_clip. assert (-1 <= Rmax (-1) (Rmin 1 w) <= 1) by (split; [apply Rmax_l|apply Rmax_lub; [lra|apply Rmin_l]]). apply Rabs_le. lra. }
  assert (/ 2 ^ 150 <= / 1000) as S2. { apply Rle_trans with (/ 2 ^ 10); [|cbn; lra]. apply Rinv_le_contravar; [apply pow_lt; lra|apply Rle_pow; [lra|lia]]. }
  assert (/ 2 ^ 24 * Rabs (unit_clip w * 32767) <= / 2 ^ 24 * 32767) as Q by (apply Rmult_le_compat_l; [cbn; lra|auto]).
  set (e := rnd32 (unit_clip w * 32767)) in *. assert (Rabs (e - unit_clip w * 32767) <= 3 / 1000) as R' by (cbn in *; lra). clear R. apply Rabs_le_inv in T, R', U. apply Rabs_le. cbn in *. lra.
Qed.
Lemma rising (g : f32) : is_finite g = true -> 0 <= B2R g -> forall s s', (s <= s')%Z -> (finish (rnd32 (rnd32 (IZR s / 32767) * B2R g)) <= finish (rnd32 (rnd32 (IZR s' / 32767) * B2R g)))%Z.
Proof.
  intros F H s s' L. apply IZR_le in L. apply finish_le, rnd32_le. apply Rmult_le_compat_r; auto. apply rnd32_le. lra.
Qed.
Lemma odd (g : f32) s : finish (rnd32 (rnd32 (IZR (- s) / 32767) * B2R g)) = (- finish (rnd32 (rnd32 (IZR s / 32767) * B2R g)))%Z.
Proof.
  assert (forall x, rnd32 (- x) = - rnd32 x) as O by (intros; apply round_NE_opp). rewrite opp_IZR. replace (- IZR s / 32767) with (- (IZR s / 32767)) by field. rewrite O.
  replace (- rnd32 (IZR s / 32767) * B2R g) with (- (rnd32 (IZR s / 32767) * B2R g)) by ring. rewrite O. unfold finish.
  set (x := rnd32 (rnd32 (IZR s / 32767) * B2R g)). assert (unit_clip (- x) = - unit_clip x) as ->. { unfold unit_clip, Rmax, Rmin. repeat destruct (Rle_dec _ _); lra. }
  replace (- unit_clip x * 32767) with (- (unit_clip x * 32767)) by ring. rewrite O. apply Ztrunc_opp.
Qed.

(** * The program *)
Lemma ln_mono x y : 0 < x -> x <= y -> ln x <= ln y.
Proof. intros H [L| ->]; [left; now apply ln_increasing|lra]. Qed.
Lemma reported_size E w t : log10_accurate E -> (N.of_nat (length (w_samples w)) < 18446744073709551616)%N -> report E w t ->
  is_finite (t_loudness t) = true /\ Rabs (real (t_loudness t)) <= 335.
Proof.
  intros HL Hw HR. destruct (reported_close E w t HL Hw HR) as (F & B). split; auto. destruct HR as (Hn & _ & Bx & _).
  assert (tolerance 4 <= / 1000) as T. { unfold tolerance. unfold roundoff. cbn. lra. }
  set (X := real (t_energy t)) in *. set (N0 := amount (t_count t)) in *. assert (1 <= N0 <= bpow radix2 64) as BN. { unfold N0, amount. change (bpow radix2 64) with (IZR 18446744073709551616). split; apply IZR_le; lia. }
  unfold Pass_proofs.tiny in Bx. pose proof (bpow_gt_0 radix2 (-40)) as P40. assert (bpow radix2 (-104) <= X / N0 <= bpow radix2 78) as BX.
  { split.
    - apply Rmult_le_reg_r with N0; [lra|]. unfold Rdiv. rewrite Rmult_assoc, Rinv_l, Rmult_1_r by lra. apply Rle_trans with (bpow radix2 (-104) * bpow radix2 64); [apply Rmult_le_compat_l; [apply bpow_ge_0|lra]|]. rewrite <- bpow_plus. apply Bx.
    - apply Rmult_le_reg_r with N0; [lra|]. unfold Rdiv. rewrite Rmult_assoc, Rinv_l, Rmult_1_r by lra. apply Rle_trans with (bpow radix2 78 * 1); [lra|]. apply Rmult_le_compat_l; [apply bpow_ge_0|lra]. }
  assert (Rabs (ln (X / N0)) <= 104 * ln 2) as LN.
  { pose proof (bpow_gt_0 radix2 (-104)) as P. assert (0 < ln 2) as L2 by (rewrite <- ln_1; apply ln_increasing; lra).
    assert (forall k, ln (bpow radix2 k) = IZR k * ln 2) as LB. { intros k. rewrite bpow_exp. cbn [radix_val radix2 IZR]. rewrite ln_exp. reflexivity. }
    apply Rabs_le. split.
    - pose proof (ln_mono (bpow radix2 (-104)) (X / N0) P (proj1 BX)) as Q. rewrite LB in Q. lra.
    - pose proof (ln_mono (X / N0) (bpow radix2 78) ltac:(lra) (proj2 BX)) as Q. rewrite LB in Q. lra. }
  pose proof (Calibration_proofs.ln_pow_upper 2 104 32 ltac:(lra) ltac:(cbn; lra)) as L2. rewrite !INR_IZR_INZ in L2. change (Z.of_nat 104) with 104%Z in L2. change (Z.of_nat 32) with 32%Z in L2.
  pose proof Calibration_proofs.ln10_pos as L10. unfold lufs in B.
  assert (Rabs (ln (X / N0) / ln 10) <= 33) as K. { unfold Rdiv at 1. rewrite Rabs_mult, (Rabs_pos_eq (/ ln 10)) by (left; apply Rinv_0_lt_compat; lra). apply Rmult_le_reg_r with (ln 10); [lra|]. rewrite Rmult_assoc, Rinv_l, Rmult_1_r by lra. lra. }
  apply Rabs_le_inv in B, K. apply Rabs_le. lra.
Qed.
Lemma program P E pw w : is_64bit P -> powf_contract E -> bsearch_contract E -> proper_recording w ->
  exists e l, analyzed P E w e /\ ask P E e QGlobal = Ret (AValue (Ok l)) /\
    normalize P E pw w = Ret (map (fun s => normal_sample (normal_gain pw l) (wav_sample s)) (w_samples w)) /\
    ((population (blocks e) = 0%N /\ l = f64_neg f64_inf) \/ exists t, l = t_loudness t /\ report E w t /\ analyze_file P E w = Ret t).
Proof.
  intros HP HE HB HW. destruct (track_full P E w HP HE HB HW) as (e & Hm & He & H).
  assert (exists l, ask P E e QGlobal = Ret (AValue (Ok l)) /\ ((population (blocks e) = 0%N /\ l = f64_neg f64_inf) \/ exists t, l = t_loudness t /\ report E w t /\ analyze_file P E w = Ret t)) as (l & Hl & HH).
  { destruct H as [(H0 & _ & _ & Hg)|(_ & t & HA & _ & Hg & HR)]; [eauto 6|]. exists (t_loudness t). split; auto. right. eauto. }
  exists e, l. split; auto. split; auto. split; auto. unfold normalize. rewrite Hm. cbn [obind]. cbn [ask] in Hl. destruct (loudness_global P E e) as [r| | |]; cbn [obind] in Hl; try discriminate Hl. injection Hl as ->. reflexivity.
Qed.
Lemma output_fits P E pw w : is_64bit P -> powf_contract E -> bsearch_contract E -> proper_recording w ->
  exists out, normalize P E pw w = Ret out /\ length out = length (w_samples w) /\ Forall (fun z => -32767 <= z <= 32767)%Z out.
Proof.
  intros HP HE HB HW. destruct (program P E pw w HP HE HB HW) as (e & l & _ & _ & Hn & _). eexists. split; [exact Hn|]. split; [apply map_length|].
  apply Forall_forall. intros z Hz. apply in_map_iff in Hz. destruct Hz as (s & <- & _). apply any_gain.
Qed.
Lemma infinite_gain pw : powf32_contract pw -> normal_gain pw (f64_neg f64_inf) = B754_infinity false.
Proof. intros (H & _). exact H. Qed.
Lemma outputs P E pw w : is_64bit P -> powf_contract E -> bsearch_contract E -> log10_accurate E -> powf32_contract pw -> proper_recording w ->
  exists e l f, analyzed P E w e /\ ask P E e QGlobal = Ret (AValue (Ok l)) /\ normalize P E pw w = Ret (map f (w_samples w)) /\
    (forall s s', (s <= s' -> f s <= f s')%Z) /\ (forall s, f (- s) = - f s)%Z /\
    (is_finite l = true -> forall s, (-32768 <= s <= 32767)%Z -> Rabs (IZR (f s) - clip (target_gain (real l) * IZR s)) <= 3 / 2) /\
    (is_finite l = false -> forall s, f s = (Z.sgn s * 32767)%Z).
Proof.
  intros HP HE HB HL HC HW. destruct (program P E pw w HP HE HB HW) as (e & l & He & Hl & Hn & H). pose proof HW as (_ & _ & _ & _ & Hlen & Hrange). rewrite Forall_forall in Hrange.
  destruct H as [(H0 & ->)|(t & -> & HR & _)].
  - exists e, (f64_neg f64_inf), (fun s => Z.sgn s * 32767)%Z. split; auto. split; auto. split.
    { rewrite Hn, (infinite_gain pw HC). f_equal. apply map_ext_in. intros s Hs. now apply full_scale, Hrange. }
    split; [intros s s' L; destruct (Z.sgn_spec s) as [(A & ->)|[(A & ->)|(A & ->)]], (Z.sgn_spec s') as [(B & ->)|[(B & ->)|(B & ->)]]; lia|].
    split; [intros s; rewrite Z.sgn_opp; lia|]. split; [discriminate|auto].
  - destruct (reported_size E w t HL Hlen HR) as (F & B). destruct (gain_near pw _ HC F B) as (Fg & HG & Bg). set (g := normal_gain pw (t_loudness t)) in *. set (G := target_gain (real (t_loudness t))) in *. unfold real32 in Bg.
    assert (0 <= B2R g <= 2 ^ 100) as Rg. { assert (10 ^ 18 * 2 <= 2 ^ 100) as X. { apply Rle_trans with (2 ^ 70); [cbn; lra|apply Rle_pow; [lra|lia]]. } apply Rabs_le_inv in Bg. set (T := 2 ^ 100) in *. clearbody T. set (q := 10 ^ 18) in *. clearbody q. cbn in *. lra. }
    exists e, (t_loudness t), (fun s => finish (rnd32 (rnd32 (IZR s / 32767) * B2R g))). split; auto. split; auto. split.
    { rewrite Hn. f_equal. apply map_ext_in. intros s Hs. apply finite_gain; auto. }
    split; [apply rising; tauto|]. split; [intros; apply odd|]. split; [intros _ s Hs; now apply output_near|]. intros X. congruence.
Qed.
Lemma short_output P E pw w : is_64bit P -> powf_contract E -> bsearch_contract E -> powf32_contract pw -> proper_recording w -> too_short w ->
  normalize P E pw w = Ret (map (fun s => Z.sgn s * 32767)%Z (w_samples w)).
Proof.
  intros HP HE HB HC HW HS. destruct (program P E pw w HP HE HB HW) as (e & l & He & _ & Hn & H). pose proof HW as (_ & _ & _ & _ & Hlen & Hrange). rewrite Forall_forall in Hrange.
  assert (l = f64_neg f64_inf) as ->.
  { destruct H as [(_ & ->)|(t & _ & _ & HA)]; auto. pose proof (short_panics P E w HP HE HB HW HS). congruence. }
  rewrite Hn, (infinite_gain pw HC). f_equal. apply map_ext_in. intros s Hs. now apply full_scale, Hrange.
Qed.
