(** The exact interpolator on sinusoids. *)
From Coq Require Import List Arith NArith ZArith Bool Lia Reals Lra Psatz.
From Flocq Require Import Core.
From Verif Require Import Prelude Float Env Spec Spec_real Spec_response Spec_interp Coeff_proofs Taps_proofs Ripple_proofs.
Import ListNotations.
Local Open Scope R_scope.

(** * The output at an instant of the oversampled signal *)
Definition wave (p q b : R) : R := p * cos b + q * sin b.
Lemma wave_turn p q b g : wave p q (b - g) = wave p q b * cos g + wave (- q) p b * sin g.
Proof. unfold wave. rewrite cos_minus, sin_minus. ring. Qed.
Lemma amplitude_square p q : amplitude p q * amplitude p q = p * p + q * q.
Proof. apply sqrt_sqrt. nra. Qed.
Lemma amplitude_pos p q : 0 <= amplitude p q. Proof. apply sqrt_pos. Qed.
Lemma wave_bound p q b : Rabs (wave p q b) <= amplitude p q.
Proof.
  apply Rsqr_incr_0; [|apply Rabs_pos|apply amplitude_pos]. rewrite <- Rsqr_abs. unfold Rsqr. rewrite amplitude_square. unfold wave.
  pose proof (sin2_cos2 b) as E. unfold Rsqr in E. assert (p * p + q * q = (p * p + q * q) * (sin b * sin b + cos b * cos b)) as -> by (rewrite E; ring). pose proof (Rle_0_sqr (p * sin b - q * cos b)) as K. unfold Rsqr in K. lra.
Qed.
Lemma amplitude_turn p q : amplitude (- q) p = amplitude p q.
Proof. unfold amplitude. f_equal. ring. Qed.
(** the angle per step of the oversampled signal *)
Definition angle (factor : nat) (rate f : R) : R := 2 * PI * f / rate / INR factor.
Definition instant (factor n ph : nat) : R := INR factor * INR n + INR ph - 24.
Lemma tone_out factor rate f p q n ph : factor = 4%nat \/ factor = 2%nat -> (48 / factor <= S n)%nat -> let t := angle factor rate f in
  total (map (fun k => sinusoid rate f p q (n - k) * tapR factor (k * factor + ph)) (seq 0 (48 / factor))) =
  wave p q (instant factor n ph * t) * csumR factor (phase factor ph) t + wave (- q) p (instant factor n ph * t) * ssumR factor (phase factor ph) t.
Proof.
  intros HF Hn t. assert (0 < INR factor) as PF by (apply lt_0_INR; lia). unfold csumR, ssumR, phase. rewrite !map_map, <- !total_scale, !map_map.
  assert (forall l, Forall (fun k => k <= n)%nat l -> total (map (fun k => sinusoid rate f p q (n - k) * tapR factor (k * factor + ph)) l) =
    total (map (fun k => wave p q (instant factor n ph * t) * (tapR factor (k * factor + ph) * cos ((INR (k * factor + ph) - 24) * t))) l) +
    total (map (fun k => wave (- q) p (instant factor n ph * t) * (tapR factor (k * factor + ph) * sin ((INR (k * factor + ph) - 24) * t))) l)) as G.
  { induction 1 as [|k l Hk _ IH]; cbn [map total fold_right]; [ring|]. unfold total in IH. rewrite IH. unfold sinusoid.
    assert (2 * PI * f / rate * INR (n - k) = instant factor n ph * t - (INR (k * factor + ph) - 24) * t) as E.
    { rewrite minus_INR by lia. unfold instant, t, angle. rewrite plus_INR, mult_INR. set (w := 2 * PI * f / rate). field. lra. }
    rewrite E. fold (wave p q (instant factor n ph * t - (INR (k * factor + ph) - 24) * t)). rewrite wave_turn. ring. }
  apply G. apply Forall_forall. intros k Hk. apply in_seq in Hk. lia.
Qed.
Lemma tone_near factor rate f p q n ph : factor = 4%nat \/ factor = 2%nat -> (48 / factor <= S n)%nat -> let t := angle factor rate f in
  Rabs (total (map (fun k => sinusoid rate f p q (n - k) * tapR factor (k * factor + ph)) (seq 0 (48 / factor))) - wave p q (instant factor n ph * t)) <=
  amplitude p q * deviation factor ph t.
Proof.
  intros HF Hn t. rewrite tone_out by auto. fold t. set (b := instant factor n ph * t). set (C := csumR _ _ _). set (S := ssumR _ _ _).
  replace (wave p q b * C + wave (- q) p b * S - wave p q b) with (wave p q b * (C - 1) + wave (- q) p b * S) by ring.
  eapply Rle_trans; [apply Rabs_triang|]. rewrite !Rabs_mult. unfold deviation. fold C S. rewrite Rmult_plus_distr_l.
  pose proof (wave_bound p q b). pose proof (wave_bound (- q) p b) as W. rewrite amplitude_turn in W.
  apply Rplus_le_compat; apply Rmult_le_compat_r; auto using Rabs_pos.
Qed.

(** * Some instant is close to a peak *)
Lemma phase_exists p q : exists a, p = amplitude p q * cos a /\ q = amplitude p q * sin a.
Proof.
  pose proof (amplitude_square p q) as E. pose proof (amplitude_pos p q) as P. set (A := amplitude p q) in *. clearbody A.
  destruct (Req_dec A 0) as [->|N].
  - exists 0. assert (p * p + q * q = 0) as Z by lra. assert (p = 0) by nra. assert (q = 0) by nra. subst. split; ring.
  - assert (0 < A) as PA by lra. set (x := p / A). assert (p = A * x) as Ep by (unfold x; field; lra). assert (-1 <= x <= 1) as Hx. { assert (A * A * (x * x) <= A * A) by (rewrite Ep in E; nra). assert (0 < A * A) by nra. assert (x * x <= 1) by nra. nra. }
    assert (q * q = A * A * (1 - x * x)) as Eq by (rewrite Ep in E; lra).
    pose proof (cos_acos x Hx) as HC. pose proof (sin_acos x Hx) as HS. unfold Rsqr in HS.
    assert (sqrt (1 - x * x) * sqrt (1 - x * x) = 1 - x * x) as SQ by (apply sqrt_sqrt; nra). pose proof (sqrt_pos (1 - x * x)) as SP. set (s := sqrt (1 - x * x)) in *. clearbody s.
    destruct (Rle_dec 0 q) as [Hq|Hq].
    + exists (acos x). rewrite HC, HS. split; auto. assert ((A * s) * (A * s) = q * q) as E2 by (rewrite Eq, <- SQ; ring). assert (0 <= A * s) by nra. nra.
    + exists (- acos x). rewrite cos_neg, sin_neg, HC, HS. split; auto. assert ((A * s) * (A * s) = q * q) as E2 by (rewrite Eq, <- SQ; ring). assert (0 <= A * s) by nra. nra.
Qed.
Lemma cos_turns m x : Rabs (cos (x + IZR m * PI)) = Rabs (cos x).
Proof.
  assert (sin (IZR m * PI) = 0) as S by (apply sin_eq_0_1; exists m; reflexivity). pose proof (sin2_cos2 (IZR m * PI)) as E. rewrite S in E. unfold Rsqr in E.
  rewrite cos_plus, S, Rmult_0_r, Rminus_0_r, Rabs_mult. assert (Rabs (cos (IZR m * PI)) = 1) as ->; [|ring].
  assert (Rabs (cos (IZR m * PI)) * Rabs (cos (IZR m * PI)) = 1) as Q by (rewrite <- Rabs_mult; rewrite Rabs_pos_eq; nra). pose proof (Rabs_pos (cos (IZR m * PI))). nra.
Qed.
Lemma near_peak p q t b (L : nat) : 0 < t <= 1.5 -> PI + t <= INR L * t -> exists N, (N < L)%nat /\ amplitude p q * cos (t / 2) <= Rabs (wave p q ((b + INR N) * t)).
Proof.
  intros Ht HL. pose proof PI_digits as HP. destruct (phase_exists p q) as (a & Ep & Eq). pose proof (amplitude_pos p q) as PA. set (A := amplitude p q) in *. clearbody A.
  (* the next peak after the first instant *)
  set (y := (b * t - a) / PI). set (m := Zceil y). pose proof (Zceil_ub y) as M1. pose proof (Zceil_lb y) as M2. fold m in M1, M2.
  assert (b * t - a = y * PI) as Ey by (unfold y; field; lra). set (w := IZR m * PI - (b * t - a)). assert (0 <= w < PI) as Hw by (unfold w; rewrite Ey; split; nra).
  set (z := ZnearestE (w / t)). pose proof (Znearest_half (fun x => negb (Z.even x)) (w / t)) as Hz. fold z in Hz. apply Rabs_le_inv in Hz.
  assert (0 <= w / t) as W0 by (apply Rmult_le_pos; [lra|apply Rlt_le, Rinv_0_lt_compat; lra]).
  assert (w / t * t = w) as Wt by (field; lra).
  assert (0 <= z)%Z as Z0. { assert (-1 < z)%Z; [apply lt_IZR; lra|lia]. }
  assert (INR (Z.to_nat z) = IZR z) as EN by (rewrite INR_IZR_INZ, Z2Nat.id by auto; reflexivity).
  exists (Z.to_nat z). split.
  - apply INR_lt. rewrite EN. assert (IZR z * t <= w + t / 2) by nra. assert (IZR z * t < INR L * t) by lra. nra.
  - rewrite EN. set (d := (b + IZR z) * t - a - IZR m * PI).
    assert (d = IZR z * t - w) as Ed by (unfold d, w; ring). assert (- (t / 2) <= d <= t / 2) as Hd by (rewrite Ed; split; nra).
    assert (wave p q ((b + IZR z) * t) = A * cos (d + IZR m * PI)) as ->.
    { unfold wave. replace (d + IZR m * PI) with ((b + IZR z) * t - a) by (unfold d; ring). rewrite cos_minus, Ep, Eq. ring. }
    rewrite Rabs_mult, cos_turns, (Rabs_pos_eq A) by auto. apply Rmult_le_compat_l; auto. apply Rle_trans with (cos d); [|apply Rle_abs].
    rewrite <- (Rabs_pos_eq (t / 2)) by lra. destruct (Rle_dec 0 d).
    + rewrite Rabs_pos_eq by lra. apply cos_decr_1; lra.
    + rewrite Rabs_pos_eq by lra. rewrite <- (cos_neg d). apply cos_decr_1; lra.
Qed.
