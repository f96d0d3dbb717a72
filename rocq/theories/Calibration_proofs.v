(** The gain of the weighting filter at 997 Hz. *)
From Coq Require Import List Arith Lia Reals Lra.
From Flocq Require Import Core.
From Verif Require Import Filter Spec_real Spec_filter Kweight_proofs Spec_response Response_proofs Lufs_proofs Coeff_proofs.
Import ListNotations.
Local Open Scope R_scope.

Lemma sin_poly x : 0 <= x <= 1 -> x - x ^ 3 / 6 <= sin x <= x - x ^ 3 / 6 + x ^ 5 / 120.
Proof.
  intros H. pose proof (sin_bound x 0) as B. pose proof PI_digits. specialize (B ltac:(lra) ltac:(lra)). unfold sin_approx, sin_term in B. cbn in B. lra.
Qed.
Lemma cos_poly x : 0 <= x <= 1 -> 1 - x ^ 2 / 2 <= cos x <= 1 - x ^ 2 / 2 + x ^ 4 / 24.
Proof.
  intros H. pose proof (cos_bound x 0) as B. pose proof PI_digits. specialize (B ltac:(lra) ltac:(lra)). unfold cos_approx, cos_term in B. cbn in B. lra.
Qed.
Lemma tan_poly x : 0 <= x <= / 5 -> x * (1 + x ^ 2 / 3) <= tan x <= x * (1 + x ^ 2 / 3 + x ^ 4 / 5).
Proof.
  intros H. destruct (sin_poly x ltac:(lra)) as (S1 & S2). destruct (cos_poly x ltac:(lra)) as (C1 & C2).
  assert (0 < cos x) as C0 by nra. assert (0 <= x ^ 2 <= / 25) as X2 by nra. set (y := x ^ 2) in *. replace (x ^ 3) with (x * y) in * by (unfold y; ring). replace (x ^ 4) with (y * y) in * by (unfold y; ring). replace (x ^ 5) with (x * (y * y)) in * by (unfold y; ring).
  clearbody y. unfold tan. split; apply Rmult_le_reg_r with (cos x); auto; unfold Rdiv; rewrite ?(Rmult_assoc (sin x)), ?Rinv_l, ?Rmult_1_r by lra.
  - apply Rle_trans with (x * (1 + y / 3) * (1 - y / 2 + y * y / 24)); [apply Rmult_le_compat_l; [apply Rmult_le_pos; lra|lra]|]. apply Rle_trans with (x * (1 - y / 6)); [|lra].
    rewrite Rmult_assoc. apply Rmult_le_compat_l; [lra|]. nra.
  - apply Rle_trans with (x * (1 + y / 3 + y * y / 5) * (1 - y / 2)); [|apply Rmult_le_compat_l; [apply Rmult_le_pos; nra|lra]].
    apply Rle_trans with (x * (1 - y / 6 + y * y / 120)); [lra|]. rewrite Rmult_assoc. apply Rmult_le_compat_l; [lra|]. nra.
Qed.

(** * Powers of ten *)
Lemma ln10_pos : 0 < ln 10. Proof. rewrite <- ln_1. apply ln_increasing; lra. Qed.
Lemma ln_pow_lower x n m : 0 < x -> 10 ^ m <= x ^ n -> INR m * ln 10 <= INR n * ln x.
Proof. intros Hx H. rewrite <- !ln_pow by lra. destruct H as [H| ->]; [left; apply ln_increasing; auto; apply pow_lt; lra|lra]. Qed.
Lemma ln_pow_upper x n m : 0 < x -> x ^ n <= 10 ^ m -> INR n * ln x <= INR m * ln 10.
Proof. intros Hx H. rewrite <- !ln_pow by lra. destruct H as [H| ->]; [left; apply ln_increasing; auto; apply pow_lt; lra|lra]. Qed.
Lemma ln10_upper : ln 10 <= 2.5.
Proof.
  assert (10 <= 1.1 ^ 25) as H by lra.
  assert (ln 10 <= ln (1.1 ^ 25)) as Y. { destruct H as [H|H]; [left; apply ln_increasing; lra|rewrite <- H; lra]. } rewrite ln_pow in Y by lra.
  replace (INR 25) with 25 in Y by (cbn; lra). pose proof (ln_below 1.1 ltac:(lra)). lra.
Qed.
Lemma Vh_digits : 1.5848 <= Vh <= 1.5849.
Proof.
  pose proof ln10_pos as L0. pose proof ln10_upper as L1. unfold Vh, Rpower. split.
  - assert (5 * ln 1.5848 <= ln 10 - 0.00028) as H.
    { assert (1.5848 ^ 5 <= 10 * (1 - 0.00028)) as X by lra. assert (ln (1.5848 ^ 5) <= ln (10 * (1 - 0.00028))) as Y by (destruct X as [X|X]; [left; apply ln_increasing; lra|rewrite X; lra]).
      rewrite ln_pow, ln_mult in Y by lra. replace (INR 5) with 5 in Y by (cbn; lra). pose proof (ln_below (1 - 0.00028) ltac:(lra)). lra. }
    rewrite <- (exp_ln 1.5848) by lra. assert (ln 1.5848 <= 3.999843853973347 / 20 * ln 10) as [X| ->] by lra; [left; now apply exp_increasing|lra].
  - assert (ln 10 <= 5 * ln 1.5849) as H.
    { assert (10 <= 1.5849 ^ 5) as X by lra. assert (ln 10 <= ln (1.5849 ^ 5)) as Y by (destruct X as [X|X]; [left; apply ln_increasing; lra|rewrite <- X; lra]).
      rewrite ln_pow in Y by lra. replace (INR 5) with 5 in Y by (cbn; lra). exact Y. }
    rewrite <- (exp_ln 1.5849) by lra. assert (3.999843853973347 / 20 * ln 10 <= ln 1.5849) as [X| ->] by lra; [left; now apply exp_increasing|lra].
Qed.
Lemma Vb_digits : Vh * (1 - 0.000334) <= Vb * Vb <= Vh * (1 - 0.000245).
Proof.
  pose proof Vh_digits as H. pose proof ln10_pos as L0. pose proof ln10_upper as L1. assert (0.5 >= ln Vh) as Hu. { unfold Vh, Rpower. rewrite ln_exp. lra. }
  assert (0.369 <= ln Vh) as Hl. { pose proof (ln_below (/ Vh) ltac:(apply Rinv_0_lt_compat; lra)) as X. rewrite ln_Rinv in X by lra. assert (/ Vh <= / 1.5848) by (apply Rinv_le_contravar; lra). lra. }
  assert (Vb * Vb = Vh * exp (- (1 - 2 * 0.4996667741545416) * ln Vh)) as ->.
  { unfold Vb, Rpower. rewrite <- exp_plus. rewrite <- (exp_ln Vh) at 3 by lra. rewrite <- exp_plus. f_equal. ring. }
  set (z := - (1 - 2 * 0.4996667741545416) * ln Vh). assert (-0.000334 <= z <= -0.000245098) as Hz by (unfold z; lra). clearbody z.
  assert (1 + z <= exp z) as E1 by (pose proof (exp_ineq1_le z); lra).
  assert (exp z <= 1 - 0.000245) as E2. { pose proof (exp_ineq1_le (- z)) as X. rewrite exp_Ropp in X. assert (0 < exp z) as P by apply exp_pos.
    assert ((1 - z) * exp z <= 1) as Y. { apply Rmult_le_reg_r with (/ exp z); [now apply Rinv_0_lt_compat|]. rewrite Rmult_assoc, Rinv_r by lra. lra. } nra. }
  split; apply Rmult_le_compat_l; lra.
Qed.

(** * The two sections *)
Lemma ratio_bounds N D lo hi : 0 < D -> lo * D <= N -> N <= hi * D -> lo <= N / D <= hi.
Proof. intros HD H1 H2. split; apply Rmult_le_reg_r with D; auto; unfold Rdiv; rewrite Rmult_assoc, Rinv_l by lra; lra. Qed.
Definition iq1 : R := 1 / (0.7071752369554196 * 0.7071752369554196).
Definition iq2 : R := 1 / (0.5003270373238773 * 0.5003270373238773).
Lemma iq1_digits : 1.9996128 <= iq1 <= 1.9996129. Proof. unfold iq1. lra. Qed.
Lemma iq2_digits : 3.9947725 <= iq2 <= 3.9947726. Proof. unfold iq2. lra. Qed.
Lemma shelf_form rate v : shelf_power (coeff_inputsR rate) v = (1 + (Vb * Vb * iq1 - 2 * Vh) * (v * v) + Vh * Vh * (v * v * (v * v))) / (1 + (iq1 - 2) * (v * v) + v * v * (v * v)).
Proof.
  unfold shelf_power, resonance_power. cbn [coeff_inputsR c_Vh c_Vb c_Q1]. fold Vh Vb. f_equal; unfold iq1; field; lra.
Qed.
Lemma neg_mul k m K y yl yh : 0 <= k -> - m <= K <= - k -> 0 <= yl -> yl <= y <= yh -> - m * yh <= K * y <= - k * yl.
Proof.
  intros Hk HK Hl Hy. assert (0 <= (K + m) * y) by (apply Rmult_le_pos; lra). assert (0 <= m * (yh - y)) by (apply Rmult_le_pos; lra).
  assert (0 <= (- k - K) * y) by (apply Rmult_le_pos; lra). assert (0 <= k * (y - yl)) by (apply Rmult_le_pos; lra). lra.
Qed.
Lemma shelf_bounds rate v yl yh lo hi : 0 <= yl -> yl <= v * v <= yh -> yh <= 1 -> 1 <= lo -> 1 <= hi ->
  lo * (1 - 0.0003871 * yl + yh * yh) <= 1 - 1.5849 * 0.001056 * yh + 1.5848 * 1.5848 * (yl * yl) ->
  1 - 1.5848 * 0.000877 * yl + 1.5849 * 1.5849 * (yh * yh) <= hi * (1 - 0.0003872 * yh + yl * yl) -> lo <= shelf_power (coeff_inputsR rate) v <= hi.
Proof.
  intros Hl Hy Hh Hlo Hhi H1 H2. rewrite shelf_form. pose proof Vh_digits as HV. pose proof Vb_digits as HB. pose proof iq1_digits as HI. set (y := v * v) in *. clearbody y. set (B := Vb * Vb) in *. clearbody B.
  set (H := Vh) in *. clearbody H. set (i := iq1) in *. clearbody i.
  assert (yl * yl <= y * y <= yh * yh) as Hyy by nra.
  assert (- (1.5849 * 0.001056) <= B * i - 2 * H <= - (1.5848 * 0.000877)) as HK.
  { split.
    - assert (H * (1 - 0.000334) * 1.9996128 <= B * i) by (apply Rmult_le_compat; nra). nra.
    - assert (B * i <= H * (1 - 0.000245) * 1.9996129) by (apply Rmult_le_compat; nra). nra. }
  assert (1.5848 * 1.5848 <= H * H <= 1.5849 * 1.5849) as HH by nra.
  set (K := B * i - 2 * H) in *. clearbody K. set (Y := y * y) in *. clearbody Y. set (HH2 := H * H) in *. clearbody HH2.
  assert (- (1.5849 * 0.001056) * yh <= K * y <= - (1.5848 * 0.000877) * yl) as HKy by (apply neg_mul; lra).
  assert (1.5848 * 1.5848 * (yl * yl) <= HH2 * Y <= 1.5849 * 1.5849 * (yh * yh)) as HHY by (split; apply Rmult_le_compat; nra).
  assert (- 0.0003872 * yh <= (i - 2) * y <= - 0.0003871 * yl) as Hiy by (pose proof (neg_mul 0.0003871 0.0003872 (i - 2) y yl yh); lra).
  set (Z := (i - 2) * y) in *. clearbody Z. set (X1 := K * y) in *. clearbody X1. set (X2 := HH2 * Y) in *. clearbody X2. set (a := yl * yl) in *. set (b := yh * yh) in *. assert (0 <= a) by (unfold a; nra). assert (0 <= b <= 1) by (unfold b; split; [apply Rle_0_sqr|rewrite <- (Rmult_1_r 1); apply Rmult_le_compat; lra]). clearbody a b.
  assert (lo * (1 + Z + Y) <= lo * (1 - 0.0003871 * yl + b)) by (apply Rmult_le_compat_l; lra).
  assert (hi * (1 - 0.0003872 * yh + a) <= hi * (1 + Z + Y)) by (apply Rmult_le_compat_l; lra).
  apply ratio_bounds; lra.
Qed.
Lemma high_pass_bounds rate v k vl vh dl dh lo hi : k = c_K2 (coeff_inputsR rate) -> 0 < vl -> vl <= v * v <= vh -> 0 < dl -> dl <= 1 + k / 0.5003270373238773 + k ^ 2 <= dh ->
  lo * (1 + 1.9947726 / vl + / (vl * vl)) <= dl * dl -> dh * dh <= hi * (1 + 1.9947725 / vh) -> 0 < lo -> 0 < hi -> lo <= high_pass_power (coeff_inputsR rate) v <= hi.
Proof.
  intros Ek Hvl Hv Hdl Hd H1 H2 Hlo Hhi. unfold high_pass_power, resonance_power. rewrite <- Ek. cbn [coeff_inputsR c_Q2]. set (d := 1 + k / 0.5003270373238773 + k ^ 2) in *. clearbody d. pose proof iq2_digits as HI.
  assert (v <> 0) as Nv by nra. set (y := v * v) in *.
  replace (d ^ 2 * v ^ 4 / ((1 - v ^ 2) ^ 2 + (v / 0.5003270373238773) ^ 2)) with (d * d / (1 + (iq2 - 2) / y + / (y * y))).
  2:{ assert (0 < y) as Py by lra. assert (0 < 1 + (iq2 - 2) / y + / (y * y)) as P. { assert (0 < (iq2 - 2) / y) by (apply Rdiv_lt_0_compat; lra). assert (0 < / (y * y)) by (apply Rinv_0_lt_compat; nra). lra. }
      replace ((1 - v ^ 2) ^ 2 + (v / 0.5003270373238773) ^ 2) with ((1 + (iq2 - 2) / y + / (y * y)) * (y * y)) by (unfold iq2, y; field; repeat split; first [exact Nv|lra]). replace (v ^ 4) with (y * y) by (unfold y; ring). clearbody y. field. split; [lra|]. intros E.
      assert (0 < y * y * (1 + (iq2 - 2) / y + / (y * y))) as Q by (repeat apply Rmult_lt_0_compat; auto). assert (y * y * (1 + (iq2 - 2) / y + / (y * y)) = y * y + (iq2 - 2) * y + 1) as Q2 by (field; lra). lra. }
  clearbody y. assert (dl * dl <= d * d <= dh * dh) as HD by nra.
  assert (/ vh <= / y <= / vl) as Hi by (split; apply Rinv_le_contravar; lra). assert (0 < / vh) as P1 by (apply Rinv_0_lt_compat; lra).
  assert (/ (y * y) <= / (vl * vl)) as Hi2 by (apply Rinv_le_contravar; nra). assert (0 < / (y * y)) as P2 by (apply Rinv_0_lt_compat; nra).
  unfold Rdiv in *. assert (1.9947725 * / vh <= (iq2 - 2) * / y <= 1.9947726 * / vl) as HQ by (split; apply Rmult_le_compat; lra).
  apply ratio_bounds; nra.
Qed.

(** * Rates *)
Lemma tan_ratio f g t yl yh lo hi : 0 < f -> 0 < g -> 0 < t -> f * t <= / 5 -> g * t <= / 5 -> 0 <= yl -> yl <= g * t * (g * t) <= yh -> 0 < lo -> 0 < hi ->
  lo * g * (1 + yh / 3 + yh * yh / 5) <= f * (1 + f * f / (g * g) * yl / 3) ->
  f * (1 + f * f / (g * g) * yh / 3 + f * f / (g * g) * (f * f / (g * g)) * (yh * yh) / 5) <= hi * g * (1 + yl / 3) ->
  0 < tan (g * t) /\ lo <= tan (f * t) / tan (g * t) <= hi.
Proof.
  intros Hf Hg Ht B1 B2 Hyl Hy Hlo Hhi H1 H2. assert (0 < f * t) as P1 by nra. assert (0 < g * t) as P2 by nra.
  destruct (tan_poly (f * t) ltac:(lra)) as (F1 & F2). destruct (tan_poly (g * t) ltac:(lra)) as (G1 & G2).
  set (l := f * f / (g * g)) in *. assert (0 < l) as Hl by (apply Rdiv_lt_0_compat; nra). assert ((f * t) ^ 2 = l * (g * t * (g * t))) as Ef by (unfold l; field; lra).
  replace ((f * t) ^ 4) with ((f * t) ^ 2 * (f * t) ^ 2) in F2 by ring. rewrite Ef in F1, F2. replace ((g * t) ^ 4) with (g * t * (g * t) * (g * t * (g * t))) in G2 by ring. replace ((g * t) ^ 2) with (g * t * (g * t)) in G1, G2 by ring.
  set (y := g * t * (g * t)) in *. clearbody y. clearbody l. clear Ef.
  assert (yl * yl <= y * y <= yh * yh) as Hyy by nra. set (Y := y * y) in *. set (YH := yh * yh) in *.
  assert (0 < tan (g * t)) as P3. { apply Rlt_le_trans with (g * t * (1 + y / 3)); auto. apply Rmult_lt_0_compat; lra. }
  split; auto. assert (l * yl <= l * y <= l * yh) as L1 by (split; apply Rmult_le_compat_l; lra). assert (l * l * Y <= l * l * YH) as L2 by (apply Rmult_le_compat_l; nra).
  replace (l * y * (l * y)) with (l * l * Y) in F2 by (unfold Y; ring). clearbody Y YH.
  apply ratio_bounds; auto.
  - apply Rle_trans with (lo * (g * t * (1 + yh / 3 + YH / 5))).
    + apply Rmult_le_compat_l; [lra|]. eapply Rle_trans; [exact G2|]. apply Rmult_le_compat_l; lra.
    + apply Rle_trans with (f * t * (1 + l * y / 3)); auto. apply Rle_trans with (f * t * (1 + l * yl / 3)); [|apply Rmult_le_compat_l; lra].
      replace (lo * (g * t * (1 + yh / 3 + YH / 5))) with (t * (lo * g * (1 + yh / 3 + YH / 5))) by ring. replace (f * t * (1 + l * yl / 3)) with (t * (f * (1 + l * yl / 3))) by ring. apply Rmult_le_compat_l; lra.
  - apply Rle_trans with (hi * (g * t * (1 + yl / 3))).
    + eapply Rle_trans; [exact F2|]. apply Rle_trans with (f * t * (1 + l * yh / 3 + l * l * YH / 5)); [apply Rmult_le_compat_l; lra|].
      replace (hi * (g * t * (1 + yl / 3))) with (t * (hi * g * (1 + yl / 3))) by ring. replace (f * t * (1 + l * yh / 3 + l * l * YH / 5)) with (t * (f * (1 + l * yh / 3 + l * l * YH / 5))) by ring. apply Rmult_le_compat_l; lra.
    + apply Rmult_le_compat_l; [lra|]. eapply Rle_trans; [|exact G1]. apply Rmult_le_compat_l; lra.
Qed.
Definition f1 : R := 1681.974450955533.
Definition f2 : R := 38.13547087602444.
Lemma gain_form rate : let t := PI / rate in power_gain rate 997 =
  shelf_power (coeff_inputsR rate) (tan (997 * t) / tan (f1 * t)) * high_pass_power (coeff_inputsR rate) (tan (997 * t) / tan (f2 * t)) /\ c_K2 (coeff_inputsR rate) = tan (f2 * t).
Proof.
  intros t. unfold power_gain. cbn [coeff_inputsR c_K1 c_K2]. fold f1 f2. assert (forall f, PI * f / rate = f * t) as E by (intros; unfold t, Rdiv; ring). rewrite !E. split; reflexivity.
Qed.
Lemma k2_bounds x lo hi : 0 <= x -> lo <= x <= hi -> hi <= / 100 -> lo <= tan x <= hi * (1 + hi * hi).
Proof.
  intros H0 H H1. destruct (tan_poly x ltac:(lra)) as (T1 & T2). assert (0 <= x ^ 2) as X2 by apply pow2_ge_0. assert (x ^ 4 = x ^ 2 * x ^ 2) as E by ring. rewrite E in T2. assert (x ^ 2 <= hi * hi) as X3 by nra. set (y := x ^ 2) in *. clearbody y.
  assert (y <= 0.0001) as Y1 by nra. split; [nra|]. eapply Rle_trans; [exact T2|]. apply Rmult_le_compat; nra.
Qed.
Lemma gain_48000 : 1.1723 <= power_gain 48000 997 <= 1.1726.
Proof.
  destruct (gain_form 48000) as (-> & EK). pose proof PI_digits as HP. set (t := PI / 48000) in *. assert (0.000065449846 <= t <= 0.000065449848) as Ht by (unfold t; lra). clearbody t. clear HP.
  assert (0.000065449846 * 0.000065449846 <= t * t <= 0.000065449848 * 0.000065449848) as HT by nra.
  destruct (tan_ratio 997 f1 t 0.0121186 0.0121189 0.59119 0.591215) as (_ & V1); unfold f1; try lra.
  destruct (tan_ratio 997 f2 t 0 0.0000063 26.143 26.182) as (_ & V2); unfold f2; try lra.
  destruct (k2_bounds (f2 * t) 0.00249596 0.002495961) as (K1 & K2); try (unfold f2; lra). fold f1 f2 in *.
  set (v1 := tan (997 * t) / tan (f1 * t)) in *. set (v2 := tan (997 * t) / tan (f2 * t)) in *. symmetry in EK. set (k := tan (f2 * t)) in *. clearbody v1 v2 k.
  assert (0.59119 * 0.59119 <= v1 * v1 <= 0.591215 * 0.591215) as Y1 by (split; apply Rmult_le_compat; lra). assert (26.143 * 26.143 <= v2 * v2 <= 26.182 * 26.182) as Y2 by (split; apply Rmult_le_compat; lra).
  assert (0.00249596 * 0.00249596 <= k * k <= 0.0024961 * 0.0024961) as KK by (split; apply Rmult_le_compat; lra).
  destruct (shelf_bounds 48000 v1 (0.59119 * 0.59119) (0.591215 * 0.591215) 1.1641 1.16434) as (S1 & S2); try lra.
  destruct (high_pass_bounds 48000 v2 k (26.143 * 26.143) (26.182 * 26.182) 1.004994 1.004996 1.00706 1.00709) as (P1 & P2); auto; try lra.
  split; [apply Rle_trans with (1.1641 * 1.00706)|apply Rle_trans with (1.16434 * 1.00709)]; try lra; apply Rmult_le_compat; lra.
Qed.
Lemma gain_from_32000 rate : 32000 <= rate -> 1.152 <= power_gain rate 997 <= 1.185.
Proof.
  intros HR. destruct (gain_form rate) as (-> & EK). pose proof PI_digits as HP. set (t := PI / rate) in *. assert (0 < t <= 0.000098174771) as Ht.
  { unfold t. split; [apply Rdiv_lt_0_compat; lra|]. apply Rmult_le_reg_r with rate; [lra|]. unfold Rdiv. rewrite Rmult_assoc, Rinv_l by lra. lra. }
  clearbody t. clear HP. assert (0 <= t * t <= 0.000098174771 * 0.000098174771) as HT by (split; [apply Rle_0_sqr|apply Rmult_le_compat; lra]).
  assert (0.5873 <= tan (997 * t) / tan (f1 * t) <= 0.59276) as V1.
  { destruct (tan_poly (997 * t) ltac:(lra)) as (F1 & F2). destruct (tan_poly (f1 * t) ltac:(unfold f1; lra)) as (G1 & G2). unfold f1 in *.
    set (y := t * t) in *. replace ((997 * t) ^ 2) with (994009 * y) in * by (unfold y; ring). replace ((997 * t) ^ 4) with (988053892081 * (y * y)) in * by (unfold y; ring).
    replace ((1681.974450955533 * t) ^ 2) with (1681.974450955533 * 1681.974450955533 * y) in * by (unfold y; ring).
    replace ((1681.974450955533 * t) ^ 4) with (1681.974450955533 * 1681.974450955533 * (1681.974450955533 * 1681.974450955533) * (y * y)) in * by (unfold y; ring).
    assert (0 <= y * y <= 0.00000001 * y) as HY by (clearbody y; nra). set (Y := y * y) in *. clearbody y Y.
    assert (0 < tan (1681.974450955533 * t)) as P. { eapply Rlt_le_trans; [|exact G1]. apply Rmult_lt_0_compat; lra. }
    apply ratio_bounds; auto.
    - eapply Rle_trans; [|exact F1]. apply Rle_trans with (0.5873 * (1681.974450955533 * t * 1.00925)); [apply Rmult_le_compat_l; [lra|]; eapply Rle_trans; [exact G2|]; apply Rmult_le_compat_l; lra|].
      apply Rle_trans with (997 * t * 1); [lra|]. apply Rmult_le_compat_l; lra.
    - eapply Rle_trans; [exact F2|]. eapply Rle_trans; [|apply Rmult_le_compat_l; [lra|exact G1]].
      replace (0.59276 * (1681.974450955533 * t * (1 + 1681.974450955533 * 1681.974450955533 * y / 3))) with (0.59276 * 1681.974450955533 * t * (1 + 1681.974450955533 * 1681.974450955533 * y / 3)) by ring.
      apply Rmult_le_compat; lra. }
  destruct (tan_ratio 997 f2 t 0 0.0000142 26.142 26.3) as (_ & V2); unfold f2; try lra.
  destruct (k2_bounds (f2 * t) 0 0.003744) as (K1 & K2); try (unfold f2; lra). fold f1 f2 in *.
  set (v1 := tan (997 * t) / tan (f1 * t)) in *. set (v2 := tan (997 * t) / tan (f2 * t)) in *. symmetry in EK. set (k := tan (f2 * t)) in *. clearbody v1 v2 k.
  assert (0.5873 * 0.5873 <= v1 * v1 <= 0.59276 * 0.59276) as Y1 by (split; apply Rmult_le_compat; lra). assert (26.142 * 26.142 <= v2 * v2 <= 26.3 * 26.3) as Y2 by (split; apply Rmult_le_compat; lra).
  assert (0 <= k * k <= 0.003745 * 0.003745) as KK by (split; [apply Rle_0_sqr|apply Rmult_le_compat; lra]).
  destruct (shelf_bounds rate v1 (0.5873 * 0.5873) (0.59276 * 0.59276) 1.1556 1.1706) as (S1 & S2); try lra.
  destruct (high_pass_bounds rate v2 k (26.142 * 26.142) (26.3 * 26.3) 1 1.0075 0.997 1.0122) as (P1 & P2); auto; try lra.
  split; [apply Rle_trans with (1.1556 * 0.997)|apply Rle_trans with (1.1706 * 1.0122)]; try lra; apply Rmult_le_compat; lra.
Qed.
(** * In decibels *)
Lemma log_bounds g lo hi nl ml nh mh : 0 < lo -> lo <= g <= hi -> (0 < nl)%nat -> (0 < nh)%nat -> 10 ^ ml <= lo ^ nl -> hi ^ nh <= 10 ^ mh ->
  INR ml / INR nl <= ln g / ln 10 <= INR mh / INR nh.
Proof.
  intros H0 Hg Hnl Hnh H1 H2. pose proof ln10_pos as L. apply lt_0_INR in Hnl, Hnh. pose proof (ln_pow_lower lo nl ml H0 H1) as A. pose proof (ln_pow_upper hi nh mh ltac:(lra) H2) as B.
  assert (ln lo <= ln g) as M1 by (destruct (proj1 Hg) as [X| ->]; [left; apply ln_increasing; lra|lra]). assert (ln g <= ln hi) as M2 by (destruct (proj2 Hg) as [X| ->]; [left; apply ln_increasing; lra|lra]).
  split.
  - apply Rmult_le_reg_r with (INR nl * ln 10); [now apply Rmult_lt_0_compat|]. replace (INR ml / INR nl * (INR nl * ln 10)) with (INR ml * ln 10) by (field; lra). replace (ln g / ln 10 * (INR nl * ln 10)) with (INR nl * ln g) by (field; lra).
    eapply Rle_trans; [exact A|]. apply Rmult_le_compat_l; lra.
  - apply Rmult_le_reg_r with (INR nh * ln 10); [now apply Rmult_lt_0_compat|]. replace (INR mh / INR nh * (INR nh * ln 10)) with (INR mh * ln 10) by (field; lra). replace (ln g / ln 10 * (INR nh * ln 10)) with (INR nh * ln g) by (field; lra).
    eapply Rle_trans; [|exact B]. apply Rmult_le_compat_l; lra.
Qed.
Lemma lufs_product g z : 0 < g -> 0 < z -> lufs (g * z) = 10 * (ln z / ln 10) + (10 * (ln g / ln 10) - 691 / 1000).
Proof. intros Hg Hz. unfold lufs. rewrite ln_mult by auto. pose proof ln10_pos. field. lra. Qed.
Lemma calibration_48000 z : 0 < z -> Rabs (lufs (power_gain 48000 997 * z) - 10 * (ln z / ln 10)) <= 0.002.
Proof.
  intros Hz. pose proof gain_48000 as H. rewrite lufs_product by lra. pose proof (log_bounds (power_gain 48000 997) 1.1723 1.1726 29 2 130 9 ltac:(lra) H ltac:(lia) ltac:(lia) ltac:(lra) ltac:(lra)) as X.
  replace (INR 2) with 2 in X by (cbn; lra). replace (INR 29) with 29 in X by (cbn; lra). replace (INR 9) with 9 in X by (cbn; lra). replace (INR 130) with 130 in X by (rewrite INR_IZR_INZ; reflexivity). apply Rabs_le. lra.
Qed.
Lemma calibration_from_32000 rate z : 32000 <= rate -> 0 < z -> Rabs (lufs (power_gain rate 997 * z) - 10 * (ln z / ln 10)) <= 0.1.
Proof.
  intros HR Hz. pose proof (gain_from_32000 rate HR) as H. rewrite lufs_product by lra. pose proof (log_bounds (power_gain rate 997) 1.152 1.185 50 3 40 3 ltac:(lra) H ltac:(lia) ltac:(lia) ltac:(lra) ltac:(lra)) as X.
  replace (INR 3) with 3 in X by (cbn; lra). replace (INR 50) with 50 in X by (rewrite INR_IZR_INZ; reflexivity). replace (INR 40) with 40 in X by (rewrite INR_IZR_INZ; reflexivity). apply Rabs_le. lra.
Qed.
(** a full-scale sine in one channel *)
Lemma full_scale : Rabs (lufs (power_gain 48000 997 * / 2) + 3.01) <= 0.003.
Proof.
  pose proof (calibration_48000 (/ 2) ltac:(lra)) as H. rewrite ln_Rinv in H by lra. pose proof ln10_pos as L.
  pose proof (log_bounds 2 2 2 103 31 93 28 ltac:(lra) ltac:(lra) ltac:(lia) ltac:(lia) ltac:(lra) ltac:(lra)) as X.
  replace (INR 103) with 103 in X by (rewrite INR_IZR_INZ; reflexivity). replace (INR 31) with 31 in X by (rewrite INR_IZR_INZ; reflexivity).
  replace (INR 93) with 93 in X by (rewrite INR_IZR_INZ; reflexivity). replace (INR 28) with 28 in X by (rewrite INR_IZR_INZ; reflexivity).
  replace (- ln 2 / ln 10) with (- (ln 2 / ln 10)) in H by (unfold Rdiv; ring). apply Rabs_le_inv in H. apply Rabs_le. lra.
Qed.
