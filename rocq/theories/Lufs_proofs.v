(** Accuracy of reported loudness. *)
From Coq Require Import List Arith NArith ZArith Bool Lia Reals Lra Psatz Sorted Permutation.
From Flocq Require Import Core IEEE754.BinarySingleNaN.
From Verif Require Import Prelude Float Env Tables Utils History Interp Filter Ebur128 Spec Spec_real Spec_history Spec_accuracy
  Prelude_proofs Utils_proofs Float_proofs Order_proofs History_proofs Ebur128_proofs Ops_proofs Feed_proofs Reach_proofs Trace_proofs
  Stream_proofs Loud_proofs Energy_proofs Accuracy_proofs Window_proofs Table_proofs Gate_proofs Gating_proofs Pass_proofs Percent_proofs
  Range_proofs Blocks_proofs Answers_proofs Value_proofs Report_proofs.
Import ListNotations.
Import Spec_history.
Local Open Scope R_scope.

(** * Logarithms *)
Lemma ln_le' x y : 0 < x -> x <= y -> ln x <= ln y.
Proof. intros Hx [H| ->]; [left; now apply ln_increasing|lra]. Qed.
Lemma ln10_2 : 2 <= ln 10.
Proof.
  rewrite <- (ln_exp 2). apply ln_le'; [apply exp_pos|]. pose proof exp_le_3. pose proof (exp_pos 1).
  replace 2 with (1 + 1) by lra. rewrite exp_plus. nra.
Qed.
Lemma ln10_pos : 0 < ln 10. Proof. pose proof ln10_2. lra. Qed.
Lemma ln_below y : 0 < y -> ln y <= y - 1.
Proof.
  intros H. apply Rnot_lt_le. intros L. assert (y < exp (y - 1)).
  { pose proof (exp_increasing _ _ L) as X. rewrite exp_ln in X by auto. pose proof (exp_ineq1_le (y - 1)).
    lra. }
  pose proof (exp_increasing _ _ L) as X. rewrite exp_ln in X by auto. lra.
Qed.
Lemma ln_above y : 0 < y -> 1 - / y <= ln y.
Proof.
  intros H. pose proof (Rinv_0_lt_compat y H) as P. pose proof (ln_below (/ y) P) as X. rewrite ln_Rinv in X by auto. lra.
Qed.
Lemma ln_close x X y : 0 < X -> 0 <= y <= / 2 -> X * (1 - y) <= x <= X * (1 + y) -> 0 < x /\ Rabs (ln x - ln X) <= 2 * y.
Proof.
  intros HX Hy H. assert (0 < x) by nra. split; auto.
  assert (ln x - ln X = ln (x / X)) as ->.
  { unfold Rdiv. rewrite ln_mult by (auto using Rinv_0_lt_compat). rewrite ln_Rinv by auto. ring. }
  assert (1 - y <= x / X <= 1 + y) as (B1 & B2).
  { assert (0 < / X) by now apply Rinv_0_lt_compat. unfold Rdiv. split.
    - replace (1 - y) with (X * (1 - y) * / X) by (field; lra). apply Rmult_le_compat_r; lra.
    - replace (1 + y) with (X * (1 + y) * / X) by (field; lra). apply Rmult_le_compat_r; lra. }
  set (r := x / X) in *. assert (0 < r) as Pr by lra. pose proof (ln_below r Pr). pose proof (ln_above r Pr).
  assert (/ r <= 1 + 2 * y).
  { apply Rmult_le_reg_r with r; auto. rewrite Rinv_l by lra. nra. }
  apply Rabs_le. lra.
Qed.
Lemma pow_upper n : INR n * u <= / 2 -> (1 + u) ^ n <= 1 + 2 * (INR n * u).
Proof.
  induction n as [|n IH]; intros H; cbn [pow].
  - cbn. lra.
  - rewrite S_INR in *. pose proof u_pos. pose proof u_small. pose proof (pos_INR n).
    assert (INR n * u <= / 2) as H' by nra. specialize (IH H'). set (p := (1 + u) ^ n) in *. clearbody p. nra.
Qed.
Lemma pow_lower n : 1 - INR n * u <= (1 - u) ^ n.
Proof.
  induction n as [|n IH]; cbn [pow].
  - cbn. lra.
  - rewrite S_INR. pose proof u_pos. pose proof u_small. pose proof (pos_INR n). set (p := (1 - u) ^ n) in *.
    assert (0 <= p) by apply pow_down. clearbody p. nra.
Qed.
Definition few (n : nat) : Prop := INR n <= 2 ^ 50.
Lemma few_u n : few n -> 0 <= INR n * u <= / 8.
Proof.
  intros H. unfold few in H. pose proof (pos_INR n). pose proof u_pos. split; [nra|].
  replace (/ 8) with (2 ^ 50 * u). { apply Rmult_le_compat_r; lra. } unfold roundoff. replace 53%nat with (50 + 3)%nat by lia. rewrite pow_add. field.
Qed.
Definition faint : R := / 2 ^ 200.
Lemma faint_pos : 0 < faint. Proof. apply Rinv_0_lt_compat, pow_lt. lra. Qed.
Lemma eta_faint d : 0 <= d <= 2 ^ 60 -> d * eta <= faint * / 2 ^ 100.
Proof.
  intros (H0 & H). unfold faint, underflow. replace 1075%nat with (60 + (200 + (100 + 715)))%nat by lia. rewrite !pow_add, !Rinv_mult.
  assert (0 < / 2 ^ 60) as P60 by (apply Rinv_0_lt_compat, pow_lt; lra).
  assert (0 < / 2 ^ 200) as P200 by (apply Rinv_0_lt_compat, pow_lt; lra).
  assert (0 < / 2 ^ 100) as P100 by (apply Rinv_0_lt_compat, pow_lt; lra).
  assert (0 < / 2 ^ 715 <= 1) as P715. { split; [apply Rinv_0_lt_compat, pow_lt; lra|]. rewrite <- Rinv_1. apply Rinv_le_contravar; [lra|]. apply pow_R1_Rle. lra. }
  assert (d * / 2 ^ 60 <= 1) as D. { apply Rmult_le_reg_r with (2 ^ 60); [apply pow_lt; lra|]. rewrite Rmult_assoc, Rinv_l by (apply pow_nonzero; lra). lra. }
  revert P60 P200 P100 P715 D. generalize (/ 2 ^ 60) (/ 2 ^ 200) (/ 2 ^ 100) (/ 2 ^ 715). intros a b c f Pa Pb Pc Pf D.
  replace (d * (a * (b * (c * f)))) with ((d * a) * f * (b * c)) by ring. rewrite <- (Rmult_1_l (b * c)) at 2.
  apply Rmult_le_compat_r; [nra|]. assert (0 <= d * a) by nra. nra.
Qed.
(** relative errors in LU *)
Lemma nearly_lufs n d x X : few n -> 0 <= d <= 2 ^ 60 -> 0 <= X -> nearly n d x X -> (faint <= x \/ faint <= X) ->
  0 < x /\ 0 < X /\ Rabs (lufs x - lufs X) <= 10 * INR n * u + / 2 ^ 90.
Proof.
  intros Hn Hd HX (H1 & H2) Hf. pose proof (few_u n Hn) as (U0 & U1). pose proof (eta_faint d Hd) as He. pose proof eta_pos. pose proof faint_pos as Pf.
  pose proof (pow_upper n ltac:(lra)) as PU. pose proof (pow_lower n) as PL. pose proof (pow_up n) as PU1. pose proof (pow_down n) as PD.
  set (p := (1 + u) ^ n) in *. set (q := (1 - u) ^ n) in *. set (k := INR n * u) in *.
  assert (0 < / 2 ^ 100 <= / 2 ^ 95) as P100. { split; [apply Rinv_0_lt_compat, pow_lt; lra|]. apply Rinv_le_contravar; [apply pow_lt; lra|apply Rle_pow; [lra|lia]]. }
  assert (0 < / 2 ^ 95 <= / 8) as P95. { split; [apply Rinv_0_lt_compat, pow_lt; lra|]. replace 8 with (2 ^ 3) by lra. apply Rinv_le_contravar; [lra|]. apply Rle_pow; [lra|lia]. }
  assert (0 <= d * eta) as D0 by nra. set (D := d * eta) in *.
  assert (faint <= 4 * X) as HX4.
  { destruct Hf as [Hf|Hf]; [|lra]. assert (p <= 5 / 4) by lra. nra. }
  assert (D <= X * (4 * / 2 ^ 100)) as HD by nra. set (z := 4 * / 2 ^ 100) in *.
  assert (z <= 4 * / 2 ^ 100) as Hz by (unfold z; lra). assert (0 < z) by (unfold z; lra).
  assert (0 < X) as PX by lra.
  assert (Rabs (ln x - ln X) <= 2 * (k * 2 + 2 * z) /\ 0 < x) as (_ & Px).
  { destruct (ln_close x X (k * 2 + 2 * z) PX) as (A & B); auto; [lra|]. split; [nra|]. apply Rle_trans with (p * (X + D)); auto. nra. }
  split; auto. split; auto.
  (* a sharper bound, one side at a time *)
  assert (Rabs (ln x - ln X) <= 2 * k + 4 * z) as HL.
  { apply Rabs_le. split.
    - destruct (ln_close (X * (1 - (k + z))) X (k + z) PX ltac:(lra) ltac:(split; nra)) as (A & B).
      assert (X * (1 - (k + z)) <= x) as C by nra. apply ln_le' in C; auto. apply Rabs_le_inv in B. lra.
    - assert (ln x <= ln (p * (X + D))) as C by (apply ln_le'; auto).
      assert (0 < p) as Pp by lra. assert (0 < X + D) as PXD by lra. rewrite ln_mult in C by auto.
      assert (ln p <= INR n * u) as Lp.
      { pose proof u_pos. unfold p. rewrite ln_pow by lra. apply Rmult_le_compat_l; [apply pos_INR|]. pose proof (ln_below (1 + u) ltac:(lra)). lra. }
      destruct (ln_close (X + D) X z PX ltac:(lra) ltac:(split; nra)) as (A & B). apply Rabs_le_inv in B. fold k in Lp. lra. }
  unfold lufs. replace (10 * (ln x / ln 10) - 691 / 1000 - (10 * (ln X / ln 10) - 691 / 1000)) with ((ln x - ln X) * (10 / ln 10)) by (field; pose proof ln10_pos; lra).
  rewrite Rabs_mult. assert (0 < 10 / ln 10 <= 5) as L10.
  { pose proof ln10_2. split; [apply Rmult_lt_0_compat; [lra|]; apply Rinv_0_lt_compat; lra|]. apply Rmult_le_reg_r with (ln 10); [lra|]. unfold Rdiv. rewrite Rmult_assoc, Rinv_l by lra. lra. }
  rewrite (Rabs_pos_eq (10 / ln 10)) by lra. replace (10 * INR n * u) with (5 * (2 * k)) by (unfold k; ring).
  assert (20 * z <= / 2 ^ 90). { unfold z. replace 100%nat with (90 + 10)%nat by lia. rewrite pow_add, Rinv_mult. assert (0 < / 2 ^ 90) by (apply Rinv_0_lt_compat, pow_lt; lra). replace (/ 2 ^ 10) with (/ 1024) by (f_equal; lra). lra. }
  pose proof (Rabs_pos (ln x - ln X)). nra.
Qed.

(** * The loudness of an energy *)
Lemma rnd_error x : Rabs (rnd64 x - x) <= u * Rabs x + eta.
Proof.
  destruct (Relative.error_N_FLT radix2 (-1074) 53 ltac:(lia) (fun n => negb (Z.even n)) x) as (a & b & Ha & Hb & _ & E).
  rewrite u_bpow in Ha. rewrite eta_bpow in Hb. change (rnd64 x) with (round radix2 (FLT_exp (-1074) 53) ZnearestE x). rewrite E.
  replace (x * (1 + a) + b - x) with (a * x + b) by ring. eapply Rle_trans; [apply Rabs_triang|]. rewrite Rabs_mult.
  pose proof (Rabs_pos x). nra.
Qed.
Lemma positive_log x : positive x -> Rabs (ln (real x) / ln 10) <= 358.
Proof.
  intros (F & P). pose proof ln10_pos as L. unfold real in *.
  assert (B2R x <= 10 ^ 342) as H1.
  { apply Rle_trans with (bpow radix2 1024).
    - left. eapply Rle_lt_trans; [apply Rle_abs|]. apply abs_B2R_lt_emax.
    - rewrite pow_IZR. change (bpow radix2 1024) with (IZR (2 ^ 1024)). apply IZR_le. vm_compute. discriminate. }
  assert (/ 10 ^ 358 <= B2R x) as H2.
  { apply Rle_trans with (bpow radix2 (-1074)).
    - change (bpow radix2 (-1074)) with (/ IZR (2 ^ 1074)). apply Rinv_le_contravar; [apply IZR_lt; reflexivity|]. rewrite pow_IZR. apply IZR_le. vm_compute. discriminate.
    - rewrite <- (Rabs_pos_eq (B2R x)) by lra. apply (abs_B2R_ge_emin 53 1024). destruct x; try discriminate; auto. cbn in P. lra. }
  apply ln_le' in H1; auto. apply ln_le' in H2; [|apply Rinv_0_lt_compat, pow_lt; lra]. rewrite ln_Rinv in H2 by (apply pow_lt; lra).
  rewrite !ln_pow in * by lra. replace (INR 342) with 342 in H1 by (rewrite INR_IZR_INZ; reflexivity).
  replace (INR 358) with 358 in H2 by (rewrite INR_IZR_INZ; reflexivity).
  apply Rabs_le. unfold Rdiv. split; apply Rmult_le_reg_r with (ln 10); auto; rewrite Rmult_assoc, Rinv_l by lra; lra.
Qed.
Lemma lit_691_near : Rabs (B2R lit_0_691 - 691 / 1000) <= / 2 ^ 53.
Proof.
  destruct (bin_real 6223974685026025 (-53) ltac:(lia) ltac:(lia)) as (F & E). unfold lit_0_691. rewrite E.
  change (bpow radix2 (-53)) with (/ IZR (2 ^ 53)). apply Rabs_le. cbn. lra.
Qed.
Lemma loudness_close E x : log10_accurate E -> positive x -> is_finite (loudness E x) = true /\ Rabs (real (loudness E x) - lufs (real x)) <= / 2 ^ 37.
Proof.
  intros (HL & _) Hx. destruct (HL x Hx) as (FL & BL). pose proof (positive_log x Hx) as BX. unfold real, lufs in *.
  destruct ten_real as (F10 & E10). destruct lit_691_real as (F6 & B6). pose proof lit_691_near as N6. pose proof big_1000.
  set (g := ln (B2R x) / ln 10) in *. set (f := B2R (e_log10 E x)) in *.
  assert (/ 2 ^ 42 <= / 1000) as S42. { apply Rinv_le_contravar; [lra|]. cbn. lra. }
  assert (Rabs f <= 360) as Bf. { replace f with ((f - g) + g) by ring. eapply Rle_trans; [apply Rabs_triang|]. lra. }
  apply Rabs_le_inv in Bf.
  assert (Rabs (10 * f) <= 3600) as B1 by (apply Rabs_le; lra).
  destruct (mul_small (f64_of_Z 10) (e_log10 E x) F10 FL ltac:(rewrite E10; fold f; lra)) as (FM & EM). rewrite E10 in EM. fold f in EM.
  pose proof (rnd_le_const _ _ B1 ltac:(lia)) as B2. pose proof (rnd_error (10 * f)) as R1.
  set (a := B2R (f64_mul (f64_of_Z 10) (e_log10 E x))) in *. rewrite <- EM in *. apply Rabs_le_inv in B2.
  assert (Rabs (a - B2R lit_0_691) <= 3601) as B3 by (apply Rabs_le; lra).
  destruct (sub_small _ lit_0_691 FM F6 ltac:(fold a; lra)) as (FS & ES). unfold loudness. split; auto. rewrite ES. fold a.
  pose proof (rnd_error (a - B2R lit_0_691)) as R2. set (b := B2R lit_0_691) in *. set (r := rnd64 (a - b)) in *. clearbody r b a f g.
  pose proof u_pos. pose proof eta_pos.
  assert (u * Rabs (10 * f) <= u * 3600) as U1 by (apply Rmult_le_compat_l; lra).
  assert (u * Rabs (a - b) <= u * 3601) as U2 by (apply Rmult_le_compat_l; lra).
  assert (eta <= u) as EU. { unfold underflow, roundoff. apply Rinv_le_contravar; [apply pow_lt; lra|]. apply Rle_pow; [lra|lia]. }
  assert (/ 2 ^ 42 = 2048 * u) as E42. { unfold roundoff. replace 53%nat with (42 + 11)%nat by lia. rewrite pow_add. field. }
  assert (/ 2 ^ 37 = 65536 * u) as E37. { unfold roundoff. replace 53%nat with (37 + 16)%nat by lia. rewrite pow_add. field. }
  assert (/ 2 ^ 53 = u) as E53 by reflexivity. rewrite E42, E53 in *. rewrite E37. clear E42 E37 E53.
  apply Rabs_le_inv in BL, N6, R1, R2. apply Rabs_le. lra.
Qed.
Lemma loudness_near E n d x X : log10_accurate E -> few n -> 0 <= d <= 2 ^ 60 -> 0 <= X -> positive x -> nearly n d (real x) X ->
  (faint <= real x \/ faint <= X) -> 0 < X /\ close n (loudness E x) (lufs X).
Proof.
  intros HL Hn Hd HX Hx HN Hf. destruct (nearly_lufs n d (real x) X Hn Hd HX HN Hf) as (_ & PX & B).
  destruct (loudness_close E x HL Hx) as (F & B'). split; auto. split; auto. unfold tolerance.
  replace (real (loudness E x) - lufs X) with ((real (loudness E x) - lufs (real x)) + (lufs (real x) - lufs X)) by ring.
  eapply Rle_trans; [apply Rabs_triang|]. assert (/ 2 ^ 37 + / 2 ^ 90 <= / 10 ^ 11); [|lra].
  apply Rle_trans with (/ 2 ^ 37 + / 2 ^ 40).
  - apply Rplus_le_compat_l. apply Rinv_le_contravar; [apply pow_lt; lra|]. apply Rle_pow; [lra|lia].
  - cbn. lra.
Qed.

(** a finite value above -300 LUFS comes from an energy that is not too small *)
Lemma loudness_inf E : log10_accurate E -> loudness E f64_inf = f64_inf.
Proof. intros (_ & H & _). unfold loudness. rewrite H. apply B2SF_inj. vm_compute. reflexivity. Qed.
Lemma loudness_nan E : log10_accurate E -> loudness E f64_nan = f64_nan.
Proof. intros (_ & _ & _ & H). unfold loudness. rewrite H. apply B2SF_inj. vm_compute. reflexivity. Qed.
Lemma loudness_zero E : log10_accurate E -> loudness E f64_zero = f64_neg f64_inf.
Proof. intros (_ & _ & H & _). unfold loudness. rewrite H. apply B2SF_inj. vm_compute. reflexivity. Qed.
Lemma finite_loudness E x : log10_accurate E -> unsigned x -> is_finite (loudness E x) = true -> positive x.
Proof.
  intros HL Hu F. destruct x as [s|s| |s m e B].
  - unfold unsigned in Hu. cbn in Hu. destruct s; [discriminate Hu|]. change (B754_zero false) with f64_zero in F. rewrite loudness_zero in F by auto. discriminate F.
  - unfold unsigned in Hu. cbn in Hu. destruct s; [discriminate Hu|]. change (B754_infinity false) with f64_inf in F. rewrite loudness_inf in F by auto. discriminate F.
  - change (B754_nan) with f64_nan in F. rewrite loudness_nan in F by auto. discriminate F.
  - unfold unsigned in Hu. cbn in Hu. destruct s; [discriminate Hu|]. split; auto. cbn. apply F2R_gt_0. cbn. lia.
Qed.
Lemma loud_enough E x : log10_accurate E -> positive x -> -300 <= real (loudness E x) -> / 10 ^ 30 <= real x.
Proof.
  intros HL Hx H. destruct (loudness_close E x HL Hx) as (_ & B). destruct Hx as (_ & P). unfold lufs in B. apply Rabs_le_inv in B.
  assert (/ 2 ^ 37 <= / 1000). { apply Rinv_le_contravar; [lra|]. cbn. lra. }
  assert (-30 <= ln (real x) / ln 10) as L by lra. pose proof ln10_pos as L10.
  assert (-30 * ln 10 <= ln (real x)) as L'. { apply Rmult_le_reg_r with (/ ln 10); [now apply Rinv_0_lt_compat|]. rewrite Rmult_assoc, Rinv_r by lra. unfold Rdiv in L. lra. }
  rewrite <- (exp_ln (real x)) by auto. rewrite <- (exp_ln (/ 10 ^ 30)) by (apply Rinv_0_lt_compat, pow_lt; lra).
  assert (ln (/ 10 ^ 30) = -30 * ln 10) as ->. { rewrite ln_Rinv by (apply pow_lt; lra). rewrite ln_pow by lra. rewrite INR_IZR_INZ. cbn [Z.of_nat Pos.of_succ_nat Pos.succ]. lra. }
  destruct L' as [L'|L']; [left; now apply exp_increasing|rewrite L'; lra].
Qed.
Lemma faint_30 : faint <= / 10 ^ 30.
Proof.
  unfold faint. apply Rinv_le_contravar; [apply pow_lt; lra|]. rewrite !pow_IZR. apply IZR_le. vm_compute. discriminate.
Qed.

(** * Momentary, short-term, window *)
Lemma capacity_few P E e : is_64bit P -> reachable P E e -> (N.of_nat (capacity e) + 100 <= 2 ^ 50)%N /\ (e_channels e <= 64)%nat.
Proof.
  intros HP Hr. destruct (reachable_inv P E e HP Hr) as (g & L & H & Ht).
  pose proof (i_rate _ _ _ _ _ H) as (H0 & H1). pose proof (i_win _ _ _ _ _ H) as H2. pose proof (i_C _ _ _ _ _ H) as HC.
  unfold capacity, buffer_size. unfold MAX_RATE in H1. unfold u32_max in H2.
  set (r := e_rate e) in *. set (w := e_window e) in *. split; [|lia].
  assert (r * w <= 2822400 * 4294967295)%N as Hm by (apply N.mul_le_mono; auto).
  assert (r * w / 1000 <= 2822400 * 4294967295 / 1000)%N as Hd by (apply N.div_le_mono; lia).
  change (2822400 * 4294967295 / 1000)%N with 12122115693408%N in Hd.
  assert (hundred_ms r <= r + 5)%N as Hh by (unfold hundred_ms; apply N.div_le_upper_bound; lia).
  assert (1 <= hundred_ms r)%N as Hh' by (unfold hundred_ms; apply N.div_le_lower_bound; lia).
  set (s := hundred_ms r) in *. set (k := (r * w / 1000)%N) in *.
  pose proof (N.mul_div_le (k + s - 1) s ltac:(lia)) as Hb. set (q := ((k + s - 1) / s)%N) in *.
  rewrite (N.mul_comm s q) in Hb. set (z := (q * s)%N) in *. 
  change (2 ^ 50)%N with 1125899906842624%N. lia.
Qed.
Lemma few_N n : (N.of_nat n <= 2 ^ 50)%N -> few n.
Proof.
  intros H. unfold few. rewrite pow_IZR, INR_IZR_INZ. apply IZR_le. change (Z.of_nat 50) with 50%Z. change (2 ^ 50)%N with 1125899906842624%N in H.
  change (2 ^ 50)%Z with 1125899906842624%Z. lia.
Qed.
Lemma recent_close P E e t w v : is_64bit P -> log10_accurate E -> taped P E e t -> (1 <= w)%nat ->
  recent_loudness E e t w = Ok v -> is_finite v = true -> -300 <= real v ->
  0 < mean_square w (e_cmap e) (signals t) /\ close (w + e_channels e + 4) v (lufs (mean_square w (e_cmap e) (signals t))).
Proof.
  intros HP HL HT Hw. unfold recent_loudness. destruct (Nat.ltb_spec (capacity e) w) as [|Hc]; [discriminate|].
  set (x := energy (capacity e) w (e_cmap e) (signals t)). unfold reported. intros [= <-]. destruct (f64_le x f64_zero) eqn:El; [discriminate|].
  intros F H3. assert (unsigned x) as Hu by apply energy_unsigned.
  assert (positive x) as Hx. { apply (finite_loudness E x HL Hu). exact F. }
  pose proof (taped_reachable P E e t HT) as Hr. destruct (capacity_few P E e HP Hr) as (HK & HC).
  pose proof (energy_near_taped P E e t w HP HT ltac:(lia) (proj1 Hx)) as HN. fold x in HN.
  apply loudness_near with (d := 3 * INR (e_channels e) + 1); auto.
  - apply few_N. lia.
  - apply le_INR in HC. replace (INR 64) with 64 in HC by (cbn; lra). pose proof (pos_INR (e_channels e)). split; [lra|]. apply Rle_trans with 1000; [lra|]. cbn. lra.
  - unfold mean_square. apply Rmult_le_pos; [|left; apply Rinv_0_lt_compat, lt_0_INR; lia].
    apply total_nonneg. rewrite Forall_map. apply Forall_forall. intros (ch, ys) _. apply Rmult_le_pos; [apply weight_pos|apply sq_nonneg].
  - left. pose proof (loud_enough E x HL Hx H3). pose proof faint_30. lra.
Qed.

(** * Sums over blocks *)
Lemma nearly_factor n k d x X c : 0 <= X -> 0 <= d -> 0 <= x -> (1 - u) ^ k <= c <= (1 + u) ^ k -> nearly n d x X -> nearly (n + k) d (x * c) X.
Proof.
  intros HX Hd H0 (C1 & C2) (A1 & A2). pose proof eta_pos. pose proof (pow_up n). pose proof (pow_down n). pose proof (pow_up k). pose proof (pow_down k).
  unfold nearly. rewrite !pow_add. set (p := (1 + u) ^ n) in *. set (q := (1 - u) ^ n) in *. set (p' := (1 + u) ^ k) in *. set (q' := (1 - u) ^ k) in *.
  clearbody p q p' q'. set (D := d * eta) in *. assert (0 <= D) by (unfold D; nra). clearbody D. split.
  - destruct (Rle_dec (q * X - D) 0) as [L|L].
    + assert (0 <= x * c) by nra. assert (0 <= q * X) by nra. nra.
    + apply Rle_trans with (x * q'); [|nra]. apply Rle_trans with ((q * X - D) * q'); [|nra]. nra.
  - apply Rle_trans with (x * p'); [nra|]. assert (x * p' <= p * (X + D) * p') by (apply Rmult_le_compat_r; lra). nra.
Qed.
Lemma rnd_rel x : sizeable x -> (1 - u) ^ 1 * x <= rnd64 x <= (1 + u) ^ 1 * x.
Proof.
  pose proof u_pos as PU. rewrite !pow_1. intros [->|Hx]; [rewrite rnd_0; lra|]. pose proof tiny_pos as Pt.
  destruct (Relative.relative_error_N_FLT_ex radix2 (-1074) 53 ltac:(lia) (fun n => negb (Z.even n)) x) as (a & Ha & E).
  { rewrite Rabs_pos_eq by lra. eapply Rle_trans; [|exact Hx]. unfold tiny. apply bpow_le. lia. }
  rewrite u_bpow in Ha. apply Rabs_le_inv in Ha. change (rnd64 x) with (round radix2 (FLT_exp (-1074) 53) ZnearestE x). rewrite E. nra.
Qed.
Lemma of_N_near n : (n < 18446744073709551616)%N -> is_finite (f64_of_N n) = true /\ (1 - u) ^ 1 * amount n <= B2R (f64_of_N n) <= (1 + u) ^ 1 * amount n.
Proof. intros H. destruct (of_N_real n H) as (F & E & _). split; auto. rewrite E. apply rnd_rel, size_sizeable. Qed.
Lemma amount_nonneg n : 0 <= amount n. Proof. apply IZR_le. lia. Qed.
Lemma term_near b : block_ok b -> is_finite (f64_mul (f64_of_N (fst b)) (snd b)) = true ->
  0 <= amount (fst b) * real (snd b) /\ nearly 2 1 (real (f64_mul (f64_of_N (fst b)) (snd b))) (amount (fst b) * real (snd b)).
Proof.
  destruct b as (n, x). intros (Hn & Hu & Hs) F. cbn [fst snd] in *. destruct (mul_fin _ _ F) as (Fn & Fx & ->). destruct (of_N_near n Hn) as (_ & B1 & B2).
  pose proof (amount_nonneg n) as P1. assert (0 <= real x) as P2 by now apply unsigned_real. pose proof (pow_down 1). pose proof u_pos.
  assert (0 <= amount n * real x) as P by now apply Rmult_le_pos. split; auto. change (B2R x) with (real x).
  replace 1 with (0 + 1) by lra. apply nearly_rnd; auto; try lra.
  - apply Rmult_le_pos; auto. nra.
  - split; [rewrite Rmult_0_l, Rminus_0_r, <- Rmult_assoc|rewrite Rmult_0_l, Rplus_0_r, <- Rmult_assoc]; now apply Rmult_le_compat_r.
Qed.
Lemma exact_cons b l : exact_sum (b :: l) = amount (fst b) * real (snd b) + exact_sum l.
Proof. reflexivity. Qed.
Lemma exact_app l m : exact_sum (l ++ m) = exact_sum l + exact_sum m.
Proof. unfold exact_sum. now rewrite map_app, Accuracy_proofs.total_app. Qed.
Lemma term_unsigned b : block_ok b -> unsigned (f64_mul (f64_of_N (fst b)) (snd b)).
Proof. intros (Hn & Hu & _). apply mul_unsigned. unfold unsigned in Hu. rewrite Hu. destruct (of_N_real (fst b) Hn) as (_ & _ & ->). reflexivity. Qed.
Lemma sum_near : forall l k t T, Forall block_ok l -> (2 <= k)%nat -> unsigned t -> 0 <= T -> nearly k (INR k) (real t) T ->
  is_finite (fold_left (fun t '(n, x) => f64_add t (f64_mul (f64_of_N n) x)) l t) = true ->
  0 <= exact_sum l /\ unsigned (fold_left (fun t '(n, x) => f64_add t (f64_mul (f64_of_N n) x)) l t) /\
  nearly (k + length l) (INR (k + length l)) (real (fold_left (fun t '(n, x) => f64_add t (f64_mul (f64_of_N n) x)) l t)) (T + exact_sum l).
Proof.
  induction l as [|(n, x) l IH]; intros k t T Hb Hk Ht HT HN F.
  - cbn. rewrite Nat.add_0_r, Rplus_0_r. repeat split; auto; try lra; apply HN.
  - inversion Hb as [|? ? Hb1 Hb2]; subst. cbn [fold_left] in *. pose proof (term_unsigned (n, x) Hb1) as Um. cbn [fst snd] in Um.
    assert (unsigned (f64_add t (f64_mul (f64_of_N n) x))) as U by now apply add_unsigned.
    destruct (sum_bound l Hb2 _ U F) as (F1 & _). destruct (add_fin _ _ F1) as (Ft & Fm & ER).
    destruct (term_near (n, x) Hb1 Fm) as (P0 & HM). cbn [fst snd] in *. set (y := f64_mul (f64_of_N n) x) in *.
    destruct (IH (S k) (f64_add t y) (T + amount n * real x) Hb2 ltac:(lia) U ltac:(lra)) as (A & B & C); auto.
    + rewrite ER, S_INR. pose proof (pos_INR k). apply nearly_add; auto; try lra.
      * apply add_nonneg_real; auto.
      * apply nearly_mono with (n := 2%nat) (d := 1); auto; lra.
    + cbn [length]. rewrite exact_cons. cbn [fst snd]. replace (k + S (length l))%nat with (S k + length l)%nat by lia.
      replace (T + (amount n * real x + exact_sum l)) with (T + amount n * real x + exact_sum l) by ring. repeat split; auto; try lra; apply C.
Qed.
Lemma energy_sum_near l : Forall block_ok l -> is_finite (energy_sum l) = true ->
  0 <= exact_sum l /\ unsigned (energy_sum l) /\ nearly (2 + length l) (INR (2 + length l)) (real (energy_sum l)) (exact_sum l).
Proof.
  intros Hb F. destruct (sum_near l 2 f64_zero 0 Hb ltac:(lia) eq_refl ltac:(lra)) as (A & B & C); auto.
  - unfold nearly, real, f64_zero. pose proof eta_pos. pose proof (pow_up 2). cbn [B2R INR]. nra.
  - rewrite Rplus_0_l in C. auto.
Qed.
Lemma sum_all_near_from : forall ls k t T, Forall (Forall block_ok) ls -> (2 <= k)%nat -> unsigned t -> 0 <= T -> nearly k (INR k) (real t) T ->
  is_finite (fold_left (fun t l => f64_add t (energy_sum l)) ls t) = true ->
  let n := (k + length (concat ls) + 3 * length ls)%nat in
  0 <= exact_sum (concat ls) /\ unsigned (fold_left (fun t l => f64_add t (energy_sum l)) ls t) /\
  nearly n (INR n) (real (fold_left (fun t l => f64_add t (energy_sum l)) ls t)) (T + exact_sum (concat ls)).
Proof.
  induction ls as [|l ls IH]; intros k t T Hb Hk Ht HT HN F.
  - cbn. rewrite Nat.add_0_r. cbn. rewrite Nat.add_0_r, Rplus_0_r. repeat split; auto; try lra; apply HN.
  - inversion Hb as [|? ? Hb1 Hb2]; subst. cbn [fold_left concat length] in *.
    assert (forall ls t, is_finite (fold_left (fun t l => f64_add t (energy_sum l)) ls t) = true -> is_finite t = true) as HF.
    { clear. induction ls as [|l ls IH]; cbn [fold_left]; intros t H; auto. apply IH in H. apply add_fin in H. tauto. }
    pose proof (HF _ _ F) as F1. destruct (add_fin _ _ F1) as (Ft & Fl & ER). destruct (energy_sum_near l Hb1 Fl) as (P0 & Ul & HM).
    assert (unsigned (f64_add t (energy_sum l))) as U by now apply add_unsigned.
    set (k' := (k + length l + 2)%nat).
    destruct (IH (S k') (f64_add t (energy_sum l)) (T + exact_sum l) Hb2 ltac:(lia) U ltac:(lra)) as (A & B & C); auto.
    + rewrite ER. apply nearly_mono with (n := S k') (d := INR k + INR (2 + length l)); auto; try lra.
      * rewrite <- plus_INR. split; [apply pos_INR|]. apply le_INR. unfold k'. lia.
      * apply nearly_add; auto; try apply pos_INR; [now apply add_nonneg_real| |].
        -- apply nearly_mono with (n := k) (d := INR k); auto; [unfold k'; lia|]. split; [apply pos_INR|lra].
        -- apply nearly_mono with (n := (2 + length l)%nat) (d := INR (2 + length l)); auto; [unfold k'; lia|]. split; [apply pos_INR|lra].
    + rewrite exact_app, app_length. split; [lra|]. split; auto.
      replace (k + (length l + length (concat ls)) + 3 * S (length ls))%nat with (S k' + length (concat ls) + 3 * length ls)%nat by (unfold k'; lia).
      replace (T + (exact_sum l + exact_sum (concat ls))) with (T + exact_sum l + exact_sum (concat ls)) by ring. exact C.
Qed.
Definition roundings (ls : list (list (N * f64))) : nat := 2 + length (concat ls) + 3 * length ls.
Lemma sum_all_near ls : Forall (Forall block_ok) ls -> is_finite (sum_all ls) = true ->
  0 <= exact_sum (concat ls) /\ unsigned (sum_all ls) /\ nearly (roundings ls) (INR (roundings ls)) (real (sum_all ls)) (exact_sum (concat ls)).
Proof.
  intros Hb F. destruct (sum_all_near_from ls 2 f64_zero 0 Hb ltac:(lia) eq_refl ltac:(lra)) as (A & B & C); auto.
  - unfold nearly, real, f64_zero. pose proof eta_pos. pose proof (pow_up 2). cbn [B2R INR]. nra.
  - rewrite Rplus_0_l in C. auto.
Qed.
(** dividing by a number of blocks *)
Lemma count_factor n : (0 < n < 18446744073709551616)%N -> (1 - u) ^ 2 <= amount n / B2R (f64_of_N n) <= (1 + u) ^ 2.
Proof.
  intros H. destruct (of_N_near n ltac:(lia)) as (_ & B1 & B2). rewrite !pow_1 in *. assert (1 <= amount n) as P by (apply IZR_le; lia).
  pose proof u_pos. pose proof u_1000. set (a := amount n) in *. set (b := B2R (f64_of_N n)) in *. assert (0 < b) by nra.
  unfold Rdiv. split; apply Rmult_le_reg_r with b; auto; rewrite Rmult_assoc, Rinv_l by lra; rewrite Rmult_1_r; cbn [pow].
  - assert ((1 - u) * ((1 - u) * 1) * b <= (1 - u) * ((1 - u) * 1) * ((1 + u) * a)) by (apply Rmult_le_compat_l; nra). 
    assert ((1 - u) * ((1 - u) * 1) * (1 + u) <= 1) by nra. nra.
  - assert ((1 + u) * ((1 + u) * 1) * ((1 - u) * a) <= (1 + u) * ((1 + u) * 1) * b) by (apply Rmult_le_compat_l; nra).
    assert (1 <= (1 + u) * ((1 + u) * 1) * (1 - u)) by nra. nra.
Qed.
Lemma mean_near s S n k : unsigned s -> 0 <= S -> (0 < n < 18446744073709551616)%N -> nearly k (INR k) (real s) S -> is_finite (f64_div s (f64_of_N n)) = true ->
  unsigned (f64_div s (f64_of_N n)) /\ nearly (k + 3) (INR k + 1) (real (f64_div s (f64_of_N n))) (S / amount n).
Proof.
  intros Hu HS Hn HN F. destruct (of_N_real n ltac:(lia)) as (Fn & _ & Sn). pose proof (of_N_pos n Hn) as P1. assert (1 <= amount n) as P by (apply IZR_le; lia).
  destruct (div_fin _ _ Fn ltac:(lra) F) as (Fs & ER). split.
  - apply div_unsigned; auto.
  - rewrite ER. pose proof (unsigned_real s Hu) as Ps. unfold real in *.
    assert (B2R s / B2R (f64_of_N n) = B2R s / amount n * (amount n / B2R (f64_of_N n))) as -> by (field; lra).
    replace (k + 3)%nat with (Datatypes.S (k + 2)) by lia. pose proof (count_factor n Hn) as CF. pose proof (pow_down 2).
    assert (0 <= S / amount n) by (apply Rmult_le_pos; [lra|left; apply Rinv_0_lt_compat; lra]).
    assert (0 <= B2R s / amount n) by (apply Rmult_le_pos; [lra|left; apply Rinv_0_lt_compat; lra]).
    apply nearly_rnd; auto; [apply pos_INR|apply Rmult_le_pos; lra|]. apply nearly_factor; auto; [apply pos_INR|].
    apply nearly_mono with (n := k) (d := INR k / amount n); auto.
    + pose proof (pos_INR k). split; [apply Rmult_le_pos; [lra|left; apply Rinv_0_lt_compat; lra]|].
      apply Rmult_le_reg_r with (amount n); [lra|]. unfold Rdiv. rewrite Rmult_assoc, Rinv_l by lra. nra.
    + apply nearly_over; auto. apply pos_INR.
Qed.
(** 10 and 20 dB less *)
Lemma powf_near x X n d c k z : unsigned x -> 0 <= X -> 0 <= d -> nearly n d (real x) X -> is_finite (f64_mul x c) = true ->
  1 <= k -> 0 < real c -> (1 - u) ^ z <= real c * k <= (1 + u) ^ z -> nearly (n + z + 1) (d + 1) (real (f64_mul x c)) (X / k).
Proof.
  intros Hu HX Hd HN F Hk Pc HC. destruct (mul_fin _ _ F) as (Fx & Fc & ER). rewrite ER. pose proof (unsigned_real x Hu) as Px. unfold real in *.
  assert (B2R x * B2R c = B2R x / k * (B2R c * k)) as -> by (field; lra). replace (n + z + 1)%nat with (S (n + z)) by lia. pose proof (pow_down z).
  assert (0 <= X / k) by (apply Rmult_le_pos; [lra|left; apply Rinv_0_lt_compat; lra]).
  assert (0 <= B2R x / k) by (apply Rmult_le_pos; [lra|left; apply Rinv_0_lt_compat; lra]).
  apply nearly_rnd; auto; [apply Rmult_le_pos; lra|]. apply nearly_factor; auto. apply nearly_mono with (n := n) (d := d / k); auto.
  - split; [apply Rmult_le_pos; [lra|left; apply Rinv_0_lt_compat; lra]|]. apply Rmult_le_reg_r with k; [lra|]. unfold Rdiv. rewrite Rmult_assoc, Rinv_l by lra. nra.
  - apply nearly_over; auto.
Qed.
