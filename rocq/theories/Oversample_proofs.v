(** The interpolator in f32 against exact arithmetic. *)
From Coq Require Import List Arith NArith ZArith Bool Lia Reals Lra Psatz.
From Flocq Require Import Core IEEE754.BinarySingleNaN.
From Verif Require Import Prelude Float Env Utils Interp Spec Spec_real Spec_interp Float_proofs Table_proofs Format_proofs Accuracy_proofs Lufs_proofs Coeff_proofs Taps_proofs Ripple_proofs.
Import ListNotations.
Local Open Scope R_scope.

(** * The taps in f64 *)
Lemma off_div_abs k l B x X y Y A A' m : off k A x X -> off l A' y Y -> / 2 <= m <= Rabs Y -> small k -> small l -> small ((k + B * l) * (2 / m)) -> small B -> Rabs (X / Y) <= B ->
  off ((k + B * l) * (2 / m) + B + 1) B (f64_div x y) (X / Y).
Proof.
  intros (Fx & Hx & HX) (Fy & Hy & HY) (Hm & HmY) (Sk & Sk') (Sl & Sl') Hk HB HZ. pose proof u_value. pose proof u_pos.
  assert (m / 2 <= Rabs (real y)) as Yl.
  { assert (l * u <= / 4) by nra. replace (real y) with (Y - (Y - real y)) by ring. eapply Rle_trans; [|apply Rabs_triang_inv]. rewrite <- (Rabs_Ropp (Y - real y)).
    replace (- (Y - real y)) with (real y - Y) by ring. lra. }
  assert (Y <> 0) as NY. { intros E. rewrite E, Rabs_R0 in HmY. lra. } assert (real y <> 0) as Ny. { intros E. rewrite E, Rabs_R0 in Yl. lra. }
  assert (Rabs (B2R x / B2R y - X / Y) <= ((k + B * l) * (2 / m)) * u) as H'.
  { replace (B2R x / B2R y - X / Y) with (((real x - X) + - (X / Y) * (real y - Y)) * / real y) by (unfold real in *; field; split; auto).
    rewrite Rabs_mult, (Rabs_inv (real y)).
    assert (/ Rabs (real y) <= 2 / m) by (replace (2 / m) with (/ (m / 2)) by (field; lra); apply Rinv_le_contravar; lra).
    assert (Rabs ((real x - X) + - (X / Y) * (real y - Y)) <= (k + B * l) * u).
    { eapply Rle_trans; [apply Rabs_triang|]. rewrite Rabs_mult, Rabs_Ropp.
      assert (Rabs (X / Y) * Rabs (real y - Y) <= B * (l * u)) by (apply Rmult_le_compat; auto using Rabs_pos). lra. }
    replace ((k + B * l) * (2 / m) * u) with (((k + B * l) * u) * (2 / m)) by ring. apply Rmult_le_compat; auto using Rabs_pos. apply Rlt_le, Rinv_0_lt_compat; lra. }
  destruct (rnd_off _ _ _ _ Hk HB H' HZ) as (G1 & G2).
  pose proof (Bdiv_correct 53 1024 Hprec64 Hmax64 mode_NE x y Ny) as C. change (round radix2 _ _ (B2R x / B2R y)) with (rnd64 (B2R x / B2R y)) in C.
  rewrite G2, Fx in C. destruct C as (C1 & C2 & _). unfold off, real, f64_div. rewrite C1. auto.
Qed.
Lemma off_oracle (g : f64 -> f64) (h : R -> R) k B x X c : off k B x X -> (forall a b, Rabs (h a - h b) <= Rabs (a - b)) -> (forall a, Rabs (h a) <= 1) -> B + k * u <= c ->
  (forall z, is_finite z = true -> Rabs (real z) <= c -> is_finite (g z) = true /\ Rabs (real (g z) - h (real z)) <= / 2 ^ 50) -> off (k + 8) 1 (g x) (h X).
Proof.
  intros (F & H & HB) HL H1 Hc Hg. pose proof u_value. destruct (Hg x F) as (G1 & G2).
  { replace (real x) with (X + (real x - X)) by ring. eapply Rle_trans; [apply Rabs_triang|]. lra. }
  repeat split; auto. specialize (HL (real x) X). replace (real (g x) - h X) with ((real (g x) - h (real x)) + (h (real x) - h X)) by ring.
  eapply Rle_trans; [apply Rabs_triang|]. assert (/ 2 ^ 50 = 8 * u) by (unfold roundoff; lra). lra.
Qed.
Lemma sin_lipschitz x y : Rabs (sin x - sin y) <= Rabs (x - y).
Proof.
  rewrite <- !cos_shift. eapply Rle_trans; [apply cos_lipschitz|]. replace (PI / 2 - x - (PI / 2 - y)) with (- (x - y)) by ring. rewrite Rabs_Ropp. lra.
Qed.
Lemma cos_unit a : Rabs (cos a) <= 1. Proof. pose proof (COS_bound a). apply Rabs_le. lra. Qed.
Lemma sin_unit a : Rabs (sin a) <= 1. Proof. pose proof (SIN_bound a). apply Rabs_le. lra. Qed.
Lemma hann_unit j : 0 <= hannR j <= 1.
Proof. unfold hannR. pose proof (COS_bound (2 * PI * INR j / 48)). lra. Qed.
Ltac smalls := unfold small; lra.
Lemma off_nat n : (n <= 1000)%nat -> off 0 (INR n) (f64_of_nat n) (INR n).
Proof.
  intros H. rewrite INR_IZR_INZ. unfold f64_of_nat. pose proof (off_int (Z.of_nat n) ltac:(lia)) as O. rewrite Rabs_pos_eq in O by (apply IZR_le; lia). exact O.
Qed.
Lemma hann_close E j : cos_accurate E -> (j <= 48)%nat -> off 32 1 (hann E j) (hannR j).
Proof.
  intros HE Hj. pose proof PI_digits. pose proof u_value. unfold hann, hannR.
  assert (0 <= INR j <= 48) as HJ. { split; [apply pos_INR|]. replace 48 with (INR 48) by (rewrite INR_IZR_INZ; reflexivity). apply le_INR. lia. }
  assert (off 0 2 f64_two 2) as O2 by (unfold f64_two; pose proof (off_int 2 ltac:(lia)) as O; rewrite Rabs_pos_eq in O by lra; exact O).
  assert (off 13 7 (f64_mul f64_two PI64) (2 * PI)) as A1.
  { eapply off_weaken; [apply (off_mul 0 2 7 _ _ _ _ 2 4 O2 off_pi)|lra|lra]; try smalls. apply Rabs_le. lra. }
  assert (off 930 302 (f64_mul (f64_mul f64_two PI64) (f64_of_nat j)) (2 * PI * INR j)) as A2.
  { eapply off_weaken; [apply (off_mul 13 0 302 _ _ _ _ 7 48 A1 (off_weaken _ _ _ _ _ _ (off_nat j ltac:(lia)) (Rle_refl 0) (proj2 HJ)))|lra|lra]; try smalls. apply Rabs_le. nra. }
  assert (off 47 6.3 (f64_div (f64_mul (f64_mul f64_two PI64) (f64_of_nat j)) (f64_of_nat 48)) (2 * PI * INR j / 48)) as A3.
  { pose proof (off_nat 48 ltac:(lia)) as O48. replace (INR 48) with 48 in O48 by (rewrite INR_IZR_INZ; reflexivity).
    eapply off_weaken; [apply (off_div 930 0 6.3 _ _ _ _ _ _ 48 A2 O48)|lra|lra]; try smalls; try lra. apply Rabs_le. nra. }
  pose proof (off_oracle (e_cos E) cos _ _ _ _ 7 A3 cos_lipschitz cos_unit ltac:(lra) HE) as A4.
  set (a := e_cos E _) in *. set (c := cos _) in *. pose proof (COS_bound (2 * PI * INR j / 48)) as CB. fold c in CB. clearbody a c.
  assert (off 0 1 f64_one 1) as O1 by (unfold f64_one; pose proof (off_int 1 ltac:(lia)) as O; rewrite Rabs_pos_eq in O by lra; exact O).
  assert (off 58 2 (f64_sub f64_one a) (1 - c)) as A5.
  { eapply off_weaken; [apply (off_sub 0 55 2 _ _ _ _ 1 1 O1)|lra|lra]; try smalls; [|apply Rabs_le; lra]. eapply off_weaken; [exact A4|lra|lra]. }
  assert (off 0 (/ 2) (f64_bin 1 (-1)) (/ 2)) as OH.
  { assert (f64_bin 1 (-1) = f64_bin 4503599627370496 (-53)) as -> by (apply B2SF_inj; vm_compute; reflexivity).
    destruct (bin_real 4503599627370496 (-53) ltac:(lia) ltac:(lia)) as (F & EQ). split; [exact F|]. unfold real. rewrite EQ. change (bpow radix2 (-53)) with (/ 9007199254740992). replace (4503599627370496 * / 9007199254740992 - / 2) with 0 by lra. rewrite Rabs_R0, (Rabs_pos_eq (/ 2)) by lra. lra. }
  replace ((1 - c) / 2) with (/ 2 * (1 - c)) by field.
  eapply off_weaken; [apply (off_mul 0 58 1 _ _ _ _ (/ 2) 2 OH A5)|lra|lra]; try smalls. apply Rabs_le. lra.
Qed.
Lemma hann_near E j : cos_accurate E -> (j < 48)%nat -> off 32 1 (hann E j) (hannR j).
Proof. intros H Hj. apply hann_close; auto. lia. Qed.
(** the tap before it is rounded to f32 *)
Definition tap64 (E : ext) (factor j : nat) : f64 :=
  if (j =? 24)%nat then hann E 24 else
  let x := f64_div (f64_mul (f64_of_Z (Z.of_nat j - 24)) PI64) (f64_of_nat factor) in f64_div (f64_mul (hann E j) (e_sin E x)) x.
Lemma hann_sinc_tap64 E factor j : hann_sinc E factor j = f32_of_f64 (tap64 E factor j).
Proof. unfold hann_sinc, tap64. destruct (j =? 24)%nat; reflexivity. Qed.
Lemma sinc_unit x : Rabs (sincR x) <= 1.
Proof.
  unfold sincR. destruct (Req_EM_T x 0); [rewrite Rabs_R1; lra|]. pose proof PI_RGT_0. assert (PI * x <> 0) as N by (apply Rmult_integral_contrapositive; split; lra).
  unfold Rdiv. rewrite Rabs_mult, Rabs_inv. pose proof (sin_abs_all (PI * x)). pose proof (Rabs_pos_lt _ N). apply Rmult_le_reg_r with (Rabs (PI * x)); auto. rewrite Rmult_assoc, Rinv_l by lra. lra.
Qed.
Lemma tap_unit factor j : Rabs (tapR factor j) <= 1.
Proof.
  unfold tapR. rewrite Rabs_mult. pose proof (hann_unit j). rewrite Rabs_pos_eq by lra. pose proof (sinc_unit ((INR j - 24) / INR factor)). pose proof (Rabs_pos (sincR ((INR j - 24) / INR factor))). nra.
Qed.
Lemma tap64_near E factor j : sin_accurate E -> cos_accurate E -> factor = 4%nat \/ factor = 2%nat -> (j < 48)%nat -> off 1600 1 (tap64 E factor j) (tapR factor j).
Proof.
  intros HS HC HF Hj. pose proof PI_digits as HP. pose proof u_value. unfold tap64. destruct (Nat.eqb_spec j 24) as [->|Nj].
  - assert (tapR factor 24 = hannR 24) as ->. { unfold tapR, sincR. rewrite INR_24. destruct (Req_EM_T ((24 - 24) / INR factor) 0) as [_|n]; [ring|]. exfalso. apply n. unfold Rdiv. ring. }
    eapply off_weaken; [apply hann_near; auto; lia|lra|lra].
  - assert (2 <= INR factor <= 4) as FB by (destruct HF as [->| ->]; rewrite INR_IZR_INZ; cbn [Z.of_nat Pos.of_succ_nat Pos.succ]; lra).
    set (m := INR j - 24). assert (IZR (Z.of_nat j - 24) = m) as Em by (unfold m; rewrite minus_IZR, INR_IZR_INZ; reflexivity).
    assert (1 <= Rabs m <= 24) as HM. { rewrite <- Em, <- abs_IZR. split; apply IZR_le; lia. }
    assert (off 0 24 (f64_of_Z (Z.of_nat j - 24)) m) as OM. { rewrite <- Em. eapply off_weaken; [apply off_int; lia|lra|]. rewrite Em. lra. }
    assert (Rabs (m * PI) <= 76) as B1 by (rewrite Rabs_mult, (Rabs_pos_eq PI) by lra; nra).
    pose proof (off_mul 0 2 76 _ _ _ _ 24 4 OM off_pi ltac:(smalls) ltac:(smalls) ltac:(smalls) ltac:(smalls) B1) as A1.
    assert (off 0 4 (f64_of_nat factor) (INR factor)) as OF. { eapply off_weaken; [apply off_nat; lia|lra|lra]. }
    assert (Rabs (m * PI / INR factor) <= 37.8) as B2.
    { unfold Rdiv. rewrite Rabs_mult, Rabs_mult, (Rabs_pos_eq PI), (Rabs_pos_eq (/ INR factor)) by (try apply Rlt_le, Rinv_0_lt_compat; lra).
      assert (0 < / INR factor <= / 2) by (split; [apply Rinv_0_lt_compat; lra|apply Rinv_le_contravar; lra]). assert (Rabs m * PI <= 24 * 3.1416) by nra. nra. }
    assert (off 170 37.8 (f64_div (f64_mul (f64_of_Z (Z.of_nat j - 24)) PI64) (f64_of_nat factor)) (m * PI / INR factor)) as A2.
    { eapply off_weaken; [apply (off_div _ 0 37.8 _ _ _ _ _ _ 2 A1 OF)|lra|lra]; try smalls; lra. }
    cbv zeta. set (x := f64_div (f64_mul (f64_of_Z (Z.of_nat j - 24)) PI64) (f64_of_nat factor)) in *. clearbody x.
    pose proof (off_oracle (e_sin E) sin _ _ _ _ 38 A2 sin_lipschitz sin_unit ltac:(lra) HS) as A3.
    pose proof (hann_near E j HC Hj) as AH. pose proof (hann_unit j) as HU. set (h := hannR j) in *. set (X := m * PI / INR factor) in *.
    assert (Rabs (h * sin X) <= 1) as B3. { rewrite Rabs_mult, (Rabs_pos_eq h) by lra. pose proof (sin_unit X). pose proof (Rabs_pos (sin X)). nra. }
    pose proof (off_mul _ _ 1 _ _ _ _ 1 1 AH A3 ltac:(smalls) ltac:(smalls) ltac:(smalls) ltac:(smalls) B3) as A4.
    assert (/ 2 <= Rabs X) as BX.
    { unfold X, Rdiv. rewrite Rabs_mult, Rabs_mult, (Rabs_pos_eq PI), (Rabs_pos_eq (/ INR factor)) by (try apply Rlt_le, Rinv_0_lt_compat; lra).
      assert (/ 4 <= / INR factor) by (apply Rinv_le_contravar; lra). assert (3.14 <= Rabs m * PI) by nra. nra. }
    assert (tapR factor j = h * sin X / X) as ET.
    { unfold tapR. fold h. fold m. unfold sincR. destruct (Req_EM_T (m / INR factor) 0) as [e|_].
      - exfalso. assert (X = 0) as Z by (unfold X; replace (m * PI / INR factor) with (m / INR factor * PI) by (field; lra); rewrite e; ring). rewrite Z, Rabs_R0 in BX. lra.
      - replace (PI * (m / INR factor)) with X by (unfold X; field; lra). field. intros Z. rewrite Z, Rabs_R0 in BX. lra. }
    pose proof (tap_unit factor j) as TU. rewrite ET in *.
    eapply off_weaken; [apply (off_div_abs _ _ 1 _ _ _ _ _ _ (/ 2) A4 A2)|lra|lra]; try smalls; try lra; auto.
Qed.

(** * Sums of the magnitudes of the taps *)
Definition magnitude_sum (factor : nat) (l : list nat) : R := total (map (fun j => Rabs (tapR factor j)) l).
Lemma magnitude_sum_table factor l : factor = 4%nat \/ factor = 2%nat -> Forall (fun j => j < 48)%nat l ->
  Rabs (magnitude_sum factor l - IZR (fold_right Z.add 0%Z (map (fun j => Z.abs (nth (gap j) (tapT factor) 0%Z)) l)) / 10 ^ 6) <= INR (length l) * (2 * / 10 ^ 6).
Proof.
  intros HF L. unfold magnitude_sum.
  assert (IZR (fold_right Z.add 0%Z (map (fun j => Z.abs (nth (gap j) (tapT factor) 0%Z)) l)) / 10 ^ 6 = total (map (fun j => Rabs (IZR (nth (gap j) (tapT factor) 0%Z) / 10 ^ 6)) l)) as ->.
  { clear L. induction l as [|j l IH]; cbn [map fold_right total]; [lra|]. unfold total in IH. rewrite <- IH, plus_IZR, abs_IZR. unfold Rdiv. rewrite Rabs_mult, (Rabs_pos_eq (/ 10 ^ 6)) by lra. lra. }
  apply total_diff. eapply Forall_impl; [|exact L]. intros j Hj. cbv beta in *. eapply Rle_trans; [apply Rabs_triang_inv2|]. apply tap_near; auto. lia.
Qed.
Lemma magnitude_sum_4 f : (f < 4)%nat -> magnitude_sum 4 (phase 4 f) <= 1.865.
Proof.
  intros Hf. pose proof (magnitude_sum_table 4 (phase 4 f) ltac:(tauto) (phase_48 4 f ltac:(tauto) Hf)) as M. rewrite phase_length, INR_12 in M.
  set (z := fold_right _ _ _) in M. assert (z <= 1864300)%Z as Z. { unfold z. clear M z. cases f 4%nat; [..|lia]; vm_compute; discriminate. }
  apply IZR_le in Z. apply Rabs_le_inv in M. lra.
Qed.
Lemma magnitude_sum_2 f : (f < 2)%nat -> magnitude_sum 2 (phase 2 f) <= 2.307.
Proof.
  intros Hf. pose proof (magnitude_sum_table 2 (phase 2 f) ltac:(tauto) (phase_48 2 f ltac:(tauto) Hf)) as M. rewrite phase_length, INR_24' in M.
  set (z := fold_right _ _ _) in M. assert (z <= 2306900)%Z as Z. { unfold z. clear M z. cases f 2%nat; [..|lia]; vm_compute; discriminate. }
  apply IZR_le in Z. apply Rabs_le_inv in M. lra.
Qed.
Definition worst (factor : nat) : R := if (factor =? 4)%nat then 1.865 else 2.307.
Lemma magnitude_worst factor f : factor = 4%nat \/ factor = 2%nat -> (f < factor)%nat -> magnitude_sum factor (phase factor f) <= worst factor.
Proof. intros [->| ->] Hf; [now apply magnitude_sum_4|now apply magnitude_sum_2]. Qed.
Lemma worst_bounds factor : 1.865 <= worst factor <= 2.307.
Proof. unfold worst. destruct (factor =? 4)%nat; lra. Qed.

(** * Operations in f32 *)
Notation v := (/ 2 ^ 24).
Notation w := (/ 2 ^ 125).
Lemma pow2_bpow (n : nat) : bpow radix2 (Z.of_nat n) = 2 ^ n.
Proof. rewrite bpow_powerRZ, <- pow_powerRZ. reflexivity. Qed.
Lemma pow2_bpow_inv (n : nat) : bpow radix2 (- Z.of_nat n) = / 2 ^ n.
Proof. rewrite bpow_opp, pow2_bpow. reflexivity. Qed.
Lemma rnd32_error x : Rabs (rnd32 x - x) <= v * Rabs x + / 2 ^ 150.
Proof.
  destruct (Relative.error_N_FLT radix2 (-149) 24 ltac:(lia) (fun n => negb (Z.even n)) x) as (a & b & Ha & Hb & _ & E).
  change (rnd32 x) with (round radix2 (FLT_exp (-149) 24) ZnearestE x). rewrite E.
  assert (/ 2 * bpow radix2 (- 24 + 1) = v) as Ev. { change (bpow radix2 (- 24 + 1)) with (bpow radix2 (- Z.of_nat 23)). rewrite pow2_bpow_inv. lra. }
  assert (/ 2 * bpow radix2 (-149) = / 2 ^ 150) as Ew. { change (bpow radix2 (-149)) with (bpow radix2 (- Z.of_nat 149)). rewrite pow2_bpow_inv. replace 150%nat with (1 + 149)%nat by lia. rewrite pow_add, Rinv_mult. lra. }
  change (Rabs a <= / 2 * bpow radix2 (- 24 + 1)) in Ha. rewrite Ev in Ha. rewrite Ew in Hb.
  replace (x * (1 + a) + b - x) with (a * x + b) by ring. eapply Rle_trans; [apply Rabs_triang|]. rewrite Rabs_mult.
  pose proof (Rabs_pos x). assert (Rabs a * Rabs x <= v * Rabs x) by (apply Rmult_le_compat_r; lra). lra.
Qed.
Lemma w_small : 0 < w <= / 2 ^ 30 /\ / 2 ^ 150 + / 2 ^ 126 <= w.
Proof.
  split; [split; [apply Rinv_0_lt_compat, pow_lt; lra|apply Rinv_le_contravar; [apply pow_lt; lra|apply Rle_pow; [lra|lia]]]|].
  replace 150%nat with (125 + 25)%nat by lia. replace 126%nat with (125 + 1)%nat by lia. rewrite !pow_add, !Rinv_mult. assert (0 < / 2 ^ 125) by (apply Rinv_0_lt_compat, pow_lt; lra). set (z := / 2 ^ 125) in *. clearbody z. lra.
Qed.
Lemma rnd32_fits x : Rabs x <= 2 ^ 110 -> Rlt_bool (Rabs (rnd32 x)) (bpow radix2 128) = true.
Proof.
  intros H. apply Rlt_bool_true. apply Rle_lt_trans with (bpow radix2 110); [|apply bpow_lt; lia].
  apply abs_round_le_generic; [typeclasses eauto|apply valid_rnd_N|apply generic_format_bpow; unfold SpecFloat.fexp, SpecFloat.emin; lia|].
  change 110%Z with (Z.of_nat 110). rewrite pow2_bpow. exact H.
Qed.
Lemma flush32_near P x : is_finite (ftz32 P x) = is_finite x /\ Rabs (real32 (ftz32 P x) - real32 x) <= / 2 ^ 126.
Proof.
  assert (0 < / 2 ^ 126) as H0 by (apply Rinv_0_lt_compat, pow_lt; lra).
  assert (Rabs (real32 x - real32 x) <= / 2 ^ 126) as HX by (replace (real32 x - real32 x) with 0 by ring; rewrite Rabs_R0; lra).
  unfold ftz32. destruct (p_ftz P); [|auto]. destruct x as [s|s| |s m e B]; try (split; [reflexivity|exact HX]).
  unfold flush32. destruct (Z.pos m <? 2 ^ 23)%Z eqn:L; [|split; [reflexivity|exact HX]]. split; [reflexivity|].
  unfold real32. cbn [B2R]. rewrite Rminus_0_l, Rabs_Ropp. unfold F2R. cbn [Fnum Fexp]. rewrite Rabs_mult, (Rabs_pos_eq (bpow _ _)) by apply bpow_ge_0.
  apply Z.ltb_lt in L. pose proof B as B'. unfold SpecFloat.bounded in B'. apply andb_true_iff in B'. destruct B' as (CM & _). unfold SpecFloat.canonical_mantissa in CM. apply Zeq_bool_eq in CM.
  rewrite Digits.Zpos_digits2_pos in CM. unfold SpecFloat.fexp, SpecFloat.emin in CM.
  assert (Digits.Zdigits radix2 (Z.pos m) <= 23)%Z as D. { apply Digits.Zdigits_le_Zpower. rewrite Z.abs_eq by lia. exact L. }
  assert (e = -149)%Z as -> by lia.
  rewrite <- abs_IZR. assert (Z.abs (SpecFloat.cond_Zopp s (Z.pos m)) = Z.pos m) as -> by (destruct s; reflexivity).
  apply Rle_trans with (IZR (2 ^ 23) * bpow radix2 (-149)).
  - apply Rmult_le_compat_r; [apply bpow_ge_0|]. apply IZR_le. lia.
  - change (IZR (2 ^ 23)) with (bpow radix2 23). rewrite <- bpow_plus. change (23 + -149)%Z with (- Z.of_nat 126)%Z. rewrite pow2_bpow_inv. lra.
Qed.
Definition near32 (x : f32) (X d : R) : Prop := is_finite x = true /\ Rabs (real32 x - X) <= d.
(** after rounding and flushing *)
Lemma settle P (r : f32) X : (is_finite r = true /\ B2R r = rnd32 X) -> near32 (ftz32 P r) X (v * Rabs X + w).
Proof.
  intros (F & E). destruct (flush32_near P r) as (F' & N). split; [congruence|]. pose proof (rnd32_error X) as R. pose proof (proj2 w_small). unfold real32 in *. rewrite E in N.
  replace (B2R (ftz32 P r) - X) with ((B2R (ftz32 P r) - rnd32 X) + (rnd32 X - X)) by ring. eapply Rle_trans; [apply Rabs_triang|]. lra.
Qed.
Lemma mul32 x y : is_finite x = true -> is_finite y = true -> Rabs (real32 x * real32 y) <= 2 ^ 110 -> is_finite (f32_mul x y) = true /\ B2R (f32_mul x y) = rnd32 (real32 x * real32 y).
Proof.
  intros Fx Fy H. pose proof (Bmult_correct 24 128 Hprec32 Hmax32 mode_NE x y) as C. change (round radix2 (SpecFloat.fexp 24 128) (round_mode mode_NE) ?z) with (rnd32 z) in C.
  unfold real32 in *. rewrite rnd32_fits in C by auto. destruct C as (C1 & C2 & _). unfold f32_mul. rewrite C1, C2, Fx, Fy. auto.
Qed.
Lemma add32 x y : is_finite x = true -> is_finite y = true -> Rabs (real32 x + real32 y) <= 2 ^ 110 -> is_finite (f32_add x y) = true /\ B2R (f32_add x y) = rnd32 (real32 x + real32 y).
Proof.
  intros Fx Fy H. pose proof (Bplus_correct 24 128 Hprec32 Hmax32 mode_NE x y Fx Fy) as C. change (round radix2 (SpecFloat.fexp 24 128) (round_mode mode_NE) ?z) with (rnd32 z) in C.
  unfold real32 in *. rewrite rnd32_fits in C by auto. destruct C as (C1 & C2 & _). unfold f32_add. rewrite C1, C2. auto.
Qed.
Lemma fma32 x y z : is_finite x = true -> is_finite y = true -> is_finite z = true -> Rabs (real32 x * real32 y + real32 z) <= 2 ^ 110 ->
  is_finite (f32_fma x y z) = true /\ B2R (f32_fma x y z) = rnd32 (real32 x * real32 y + real32 z).
Proof.
  intros Fx Fy Fz H. pose proof (Bfma_correct 24 128 Hprec32 Hmax32 mode_NE x y z Fx Fy Fz) as C. cbv zeta in C. change (round radix2 (SpecFloat.fexp 24 128) (round_mode mode_NE) ?z) with (rnd32 z) in C.
  unfold real32 in *. rewrite rnd32_fits in C by auto. destruct C as (C1 & C2 & _). unfold f32_fma. rewrite C1, C2. auto.
Qed.
Lemma pow_105 : 1 <= 2 ^ 105 /\ 16 * 2 ^ 105 <= 2 ^ 110.
Proof. split; [apply pow_R1_Rle; lra|]. replace 110%nat with (105 + 5)%nat by lia. rewrite pow_add. assert (0 < 2 ^ 105) by (apply pow_lt; lra). set (z := 2 ^ 105) in *. clearbody z. lra. Qed.
Lemma scale_add_near P t o c T M : is_finite t = true -> is_finite o = true -> is_finite c = true -> Rabs (real32 t) <= T -> Rabs (real32 o) <= M -> Rabs (real32 c) <= 1.01 ->
  T + 2 * M <= 2 ^ 105 -> near32 (f32_scale_add P t o c) (real32 t + real32 o * real32 c) (v * (T + 2.03 * M) + 3 * w).
Proof.
  intros Ft Fo Fc HT HM Hc HB. pose proof pow_105 as (B1 & B2). pose proof w_small as (W & _). pose proof (Rabs_pos (real32 t)). pose proof (Rabs_pos (real32 o)).
  set (Z := 2 ^ 105) in *. set (Y := 2 ^ 110) in *. clearbody Z.
  assert (Rabs (real32 o * real32 c) <= 1.01 * M) as Hp. { rewrite Rabs_mult, Rmult_comm. apply Rmult_le_compat; auto using Rabs_pos. }
  set (p := real32 o * real32 c) in *. unfold f32_scale_add. destruct (p_fma P).
  - destruct (settle P _ _ (fma32 o c t Fo Fc Ft ltac:(fold p Y; eapply Rle_trans; [apply Rabs_triang|]; lra))) as (F & N). fold p in N. split; auto.
    rewrite (Rplus_comm (real32 t) p). eapply Rle_trans; [exact N|]. assert (Rabs (p + real32 t) <= 1.01 * M + T) by (eapply Rle_trans; [apply Rabs_triang|]; lra). nra.
  - destruct (settle P _ _ (mul32 o c Fo Fc ltac:(fold p Y; lra))) as (F & N). fold p in N. set (q := ftz32 P (f32_mul o c)) in *. clearbody q.
    assert (Rabs (real32 q) <= 1.015 * M + w) as Hq.
    { replace (real32 q) with (p + (real32 q - p)) by ring. eapply Rle_trans; [apply Rabs_triang|]. nra. }
    assert (Rabs (real32 t + real32 q) <= T + 1.015 * M + w) as Hs by (eapply Rle_trans; [apply Rabs_triang|]; lra).
    destruct (settle P _ _ (add32 t q Ft F ltac:(fold Y; lra))) as (F' & N'). split; auto.
    replace (real32 (ftz32 P (f32_add t q)) - (real32 t + p)) with ((real32 (ftz32 P (f32_add t q)) - (real32 t + real32 q)) + (real32 q - p)) by ring.
    eapply Rle_trans; [apply Rabs_triang|]. nra.
Qed.
Lemma tap32_near E factor j : sin_accurate E -> cos_accurate E -> factor = 4%nat \/ factor = 2%nat -> (j < 48)%nat -> near32 (hann_sinc E factor j) (tapR factor j) (/ 2 ^ 23).
Proof.
  intros HS HC HF Hj. destruct (tap64_near E factor j HS HC HF Hj) as (F & N & B). rewrite hann_sinc_tap64. set (x := tap64 E factor j) in *. pose proof u_value. unfold real in N.
  assert (Rabs (B2R x) <= 1.001) as A by (replace (B2R x) with (tapR factor j + (B2R x - tapR factor j)) by ring; eapply Rle_trans; [apply Rabs_triang|]; lra).
  assert (Rabs (B2R x) <= 2 ^ 110) as A' by (pose proof pow_105; lra). pose proof (rnd32_fits _ A') as O.
  destruct (f32_of_f64_rounded x F) as (F' & E' & _); [apply Rnot_le_lt; intros G; apply Rlt_bool_false in G; congruence|]. split; auto. unfold real32. rewrite E'.
  pose proof (rnd32_error (B2R x)) as R. assert (/ 2 ^ 150 <= / 2 ^ 30) by (apply Rinv_le_contravar; [apply pow_lt; lra|apply Rle_pow; [lra|lia]]).
  replace (rnd32 (B2R x) - tapR factor j) with ((rnd32 (B2R x) - B2R x) + (B2R x - tapR factor j)) by ring. eapply Rle_trans; [apply Rabs_triang|]. lra.
Qed.

(** * One output sample *)
Lemma fir_noise_pos M : 0 <= M -> 0 <= fir_noise M.
Proof. intros H. unfold fir_noise. assert (0 < / 2 ^ 118) by (apply Rinv_0_lt_compat, pow_lt; lra). lra. Qed.
Lemma w_118 : 24 * (4 * w) <= / 2 ^ 118.
Proof. replace 125%nat with (118 + 7)%nat by lia. rewrite pow_add, Rinv_mult. assert (0 < / 2 ^ 118) by (apply Rinv_0_lt_compat, pow_lt; lra). set (z := / 2 ^ 118) in *. clearbody z. lra. Qed.
Lemma pow_100 : 8 * 2 ^ 100 <= 2 ^ 105 - 1.
Proof. replace 105%nat with (100 + 5)%nat by lia. rewrite pow_add. assert (1 <= 2 ^ 100) by (apply pow_R1_Rle; lra). set (z := 2 ^ 100) in *. clearbody z. lra. Qed.
Lemma fold_near P E factor (x : nat -> f32) (tap : nat -> nat) M : sin_accurate E -> cos_accurate E -> factor = 4%nat \/ factor = 2%nat -> 0 <= M <= 2 ^ 100 -> forall l (j : nat) acc A,
  Forall (fun k => is_finite (x k) = true /\ Rabs (real32 (x k)) <= M /\ (tap k < 48)%nat) l -> (j + length l <= 24)%nat ->
  Rabs A + M * magnitude_sum factor (map tap l) <= 2.4 * M -> near32 acc A (INR j * (7.1 * v * M + 4 * w)) ->
  near32 (fold_left (fun acc k => f32_scale_add P acc (x k) (hann_sinc E factor (tap k))) l acc)
    (A + total (map (fun k => real32 (x k) * tapR factor (tap k)) l)) (INR (j + length l) * (7.1 * v * M + 4 * w)).
Proof.
  intros HS HC HF (M0 & M1). pose proof w_small as (W & _). pose proof w_118 as W8. pose proof pow_100 as B.
  induction l as [|k l IH]; intros j acc A L Hj HA HN.
  { cbn [fold_left map total fold_right length]. rewrite Nat.add_0_r, Rplus_0_r. exact HN. }
  apply Forall_cons_iff in L. destruct L as ((Fx & Mx & Tk) & L). cbn [fold_left]. cbn [length] in Hj.
  assert (total (map (fun k => real32 (x k) * tapR factor (tap k)) (k :: l)) = real32 (x k) * tapR factor (tap k) + total (map (fun k => real32 (x k) * tapR factor (tap k)) l)) as -> by reflexivity.
  assert (magnitude_sum factor (map tap (k :: l)) = Rabs (tapR factor (tap k)) + magnitude_sum factor (map tap l)) as EM by reflexivity. rewrite EM in HA. clear EM.
  assert (0 <= magnitude_sum factor (map tap l)) as P0.
  { unfold magnitude_sum. clear. induction (map tap l) as [|a r IH]; cbn [map total fold_right]; [lra|]. unfold total in IH. pose proof (Rabs_pos (tapR factor a)). lra. }
  replace (j + length (k :: l))%nat with (S j + length l)%nat by (cbn; lia).
  rewrite <- Rplus_assoc. apply IH; auto; try lia; clear IH L.
  - assert (Rabs (real32 (x k) * tapR factor (tap k)) <= M * Rabs (tapR factor (tap k))) by (rewrite Rabs_mult; apply Rmult_le_compat_r; auto using Rabs_pos).
    pose proof (Rabs_triang A (real32 (x k) * tapR factor (tap k))). lra.
  - destruct (tap32_near E factor (tap k) HS HC HF Tk) as (Fc & Nc). pose proof (tap_unit factor (tap k)) as Tu. set (c := hann_sinc E factor (tap k)) in *. set (C := tapR factor (tap k)) in *. clearbody c C.
    destruct HN as (Fa & Na). set (Z := 2 ^ 105) in *. set (Y := 2 ^ 100) in *. set (V8 := / 2 ^ 118) in *. assert (w <= / 2 ^ 30) as W1 by apply W. set (ww := / 2 ^ 125) in *. clearbody Y V8.
    assert (INR j <= 23) as J. { apply le_INR in Hj. rewrite plus_INR, S_INR in Hj. pose proof (pos_INR (length l)). rewrite INR_24 in Hj. lra. } assert (0 <= INR j) as J0 by apply pos_INR.
    assert (0 <= M * magnitude_sum factor (map tap l)) by (apply Rmult_le_pos; auto). assert (0 <= M * Rabs C) by (apply Rmult_le_pos; auto using Rabs_pos).
    assert (INR j * (7.1 * v * M + 4 * ww) <= 23 * (7.1 * v * M + 4 * ww)) as JE by (apply Rmult_le_compat_r; [nra|exact J]).
    assert (Rabs (real32 acc) <= 2.5 * M + 92 * ww) as Ta.
    { replace (real32 acc) with (A + (real32 acc - A)) by ring. eapply Rle_trans; [apply Rabs_triang|]. lra. }
    assert (Rabs (real32 c) <= 1.01) as Cb. { replace (real32 c) with (C + (real32 c - C)) by ring. eapply Rle_trans; [apply Rabs_triang|]. lra. }
    destruct (scale_add_near P acc (x k) c (2.5 * M + 92 * ww) M Fa Fx Fc Ta Mx Cb) as (F & N).
    { fold Z. clearbody Z ww. lra. }
    split; auto. fold ww in N. set (s := real32 (f32_scale_add P acc (x k) c)) in *.
    assert (Rabs (real32 (x k) * real32 c - real32 (x k) * C) <= M * / 2 ^ 23).
    { rewrite <- Rmult_minus_distr_l, Rabs_mult. apply Rmult_le_compat; auto using Rabs_pos. }
    replace (s - (A + real32 (x k) * C)) with ((s - (real32 acc + real32 (x k) * real32 c)) + ((real32 acc - A) + (real32 (x k) * real32 c - real32 (x k) * C))) by ring. clearbody ww.
    eapply Rle_trans; [apply Rabs_triang|]. eapply Rle_trans; [apply Rplus_le_compat_l, Rabs_triang|]. rewrite S_INR. lra.
Qed.
Lemma phase_taps factor f : phase factor f = map (fun k => (k * factor + f)%nat) (seq 0 (48 / factor)).
Proof. reflexivity. Qed.
Lemma total_bound {A} (g h : A -> R) M l : 0 <= M -> Forall (fun k => Rabs (g k) <= M) l -> Rabs (total (map (fun k => g k * h k) l)) <= M * total (map (fun k => Rabs (h k)) l).
Proof.
  intros HM. induction 1 as [|k l Hk _ IH]; cbn [map total fold_right]; [rewrite Rabs_R0; lra|]. unfold total in IH.
  eapply Rle_trans; [apply Rabs_triang|]. rewrite Rabs_mult, Rmult_plus_distr_l. apply Rplus_le_compat; auto. apply Rmult_le_compat_r; auto using Rabs_pos.
Qed.
Lemma sample_before_all (Q : f32 -> Prop) xs n k : Q f32_zero -> Forall Q xs -> Q (sample_before xs n k).
Proof.
  intros Q0 H. unfold sample_before. destruct (k <=? n)%nat; auto. destruct (Nat.lt_ge_cases (n - k) (length xs)) as [L|G].
  - rewrite Forall_forall in H. apply H. now apply nth_In.
  - now rewrite nth_overflow.
Qed.
Lemma moderate_zero M : 0 <= M -> moderate M f32_zero.
Proof. intros H. split; [reflexivity|]. unfold real32, f32_zero. cbn [B2R]. rewrite Rabs_R0. exact H. Qed.
Lemma interpolated_near P E taps factor M xs n f : sin_accurate E -> cos_accurate E -> (taps = 12 /\ factor = 4 \/ taps = 24 /\ factor = 2)%nat -> (f < factor)%nat -> 0 <= M <= 2 ^ 100 -> Forall (moderate M) xs ->
  near32 (interpolated P E taps factor xs n f) (interpolatedR taps factor xs n f) (fir_noise M) /\ Rabs (interpolatedR taps factor xs n f) <= worst factor * M.
Proof.
  intros HS HC HT Hf HM HX. assert (factor = 4 \/ factor = 2)%nat as HF by (clear - HT; lia).
  assert (seq 0 taps = seq 0 (48 / factor)) as ES by (destruct HT as [(-> & ->)|(-> & ->)]; reflexivity).
  assert (forall k, moderate M (sample_before xs n k)) as HB by (intros k; apply sample_before_all; auto; apply moderate_zero; lra).
  pose proof (magnitude_worst factor f HF Hf) as MW. rewrite phase_taps, <- ES in MW. pose proof (worst_bounds factor) as WB. pose proof w_118 as W8. pose proof w_small as (W & _).
  split.
  - unfold interpolated, interpolatedR.
    pose proof (fold_near P E factor (sample_before xs n) (fun k => (k * factor + f)%nat) M HS HC HF HM (seq 0 taps) 0 f32_zero 0) as G.
    rewrite Rplus_0_l in G. destruct G as (F & N).
    + apply Forall_forall. intros k Hk. apply in_seq in Hk. destruct (HB k). repeat split; auto. destruct HT as [(-> & ->)|(-> & ->)]; lia.
    + rewrite seq_length. lia.
    + rewrite Rabs_R0. assert (M * magnitude_sum factor (map (fun k => (k * factor + f)%nat) (seq 0 taps)) <= M * 2.4) by (apply Rmult_le_compat_l; lra). lra.
    + split; [reflexivity|]. unfold real32, f32_zero. cbn [B2R]. rewrite Rminus_0_r, Rabs_R0. cbn [INR]. lra.
    + split; auto. eapply Rle_trans; [exact N|]. unfold fir_noise. rewrite seq_length. cbn [Nat.add].
      assert (INR taps <= 24) as T. { destruct HT as [(-> & _)|(-> & _)]; rewrite <- INR_24; apply le_INR; lia. }
      assert (0 <= 7.1 * v * M + 4 * w) as P0 by (destruct HM; set (ww := / 2 ^ 125) in *; clearbody ww; lra).
      eapply Rle_trans; [apply Rmult_le_compat_r; [exact P0|exact T]|]. destruct HM. set (ww := / 2 ^ 125) in *. set (V8 := / 2 ^ 118) in *. clearbody ww V8. lra.
  - unfold interpolatedR. eapply Rle_trans.
    + apply (total_bound (fun k => real32 (sample_before xs n k)) (fun k => tapR factor (k * factor + f)) M); [lra|]. apply Forall_forall. intros k _. apply HB.
    + unfold magnitude_sum in MW. rewrite map_map in MW. rewrite Rmult_comm. apply Rmult_le_compat_r; [lra|exact MW].
Qed.
