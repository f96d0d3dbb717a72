(** Explicit bounds for what the weighting filter keeps and puts out, in exact arithmetic. *)
From Coq Require Import List Arith NArith ZArith Lia Reals Lra Psatz.
From Verif Require Import Prelude Filter Spec_real Spec_filter Filter_proofs Kweight_proofs.
Import ListNotations.
Local Open Scope R_scope.

(** * Lengths in the plane *)
Definition len (x y : R) : R := sqrt (x * x + y * y).
Lemma len_nonneg x y : 0 <= len x y. Proof. apply sqrt_pos. Qed.
Lemma sum_squares x y : 0 <= x * x + y * y. Proof. nra. Qed.
Lemma len_sqr x y : len x y * len x y = x * x + y * y. Proof. apply sqrt_sqrt, sum_squares. Qed.
Lemma below_of_squares a b : 0 <= b -> a * a <= b * b -> Rabs a <= b.
Proof. intros Hb H. apply Rsqr_incr_0_var; auto. unfold Rsqr. rewrite <- Rabs_mult, Rabs_pos_eq by nra. exact H. Qed.
Lemma len_below x y b : 0 <= b -> x * x + y * y <= b * b -> len x y <= b.
Proof. intros Hb H. rewrite <- (Rabs_pos_eq (len x y)) by apply len_nonneg. apply below_of_squares; auto. now rewrite len_sqr. Qed.
Lemma dot_below x y p q : Rabs (x * p + y * q) <= len x y * len p q.
Proof.
  apply below_of_squares; [apply Rmult_le_pos; apply len_nonneg|].
  replace (len x y * len p q * (len x y * len p q)) with ((len x y * len x y) * (len p q * len p q)) by ring. rewrite !len_sqr.
  pose proof (Rle_0_sqr (x * q - y * p)) as S. unfold Rsqr in S. lra.
Qed.
Lemma len_add x y p q : len (x + p) (y + q) <= len x y + len p q.
Proof.
  pose proof (len_nonneg x y). pose proof (len_nonneg p q). apply len_below; [lra|]. pose proof (dot_below x y p q) as D. pose proof (Rle_abs (x * p + y * q)).
  replace ((len x y + len p q) * (len x y + len p q)) with (len x y * len x y + len p q * len p q + 2 * (len x y * len p q)) by ring. rewrite !len_sqr. nra.
Qed.
Lemma len_mul x y p q : len (x * p - y * q) (x * q + y * p) = len x y * len p q.
Proof. unfold len. rewrite <- sqrt_mult by apply sum_squares. f_equal. ring. Qed.
Lemma len_x x : len x 0 = Rabs x.
Proof. unfold len. rewrite Rmult_0_r, Rplus_0_r. apply sqrt_Rsqr_abs. Qed.
Lemma abs_len x y : Rabs x <= len x y.
Proof. apply below_of_squares; [apply len_nonneg|]. rewrite len_sqr. nra. Qed.

(** * One section with complex poles [c +- i d] of absolute value [r] *)
(** Time runs backwards: [f 0] is the latest value, [f n = 0] before the start. *)
Lemma geometric r M (N : nat -> R) L : 0 <= r < 1 -> (forall n, (L <= n)%nat -> N n = 0) -> 0 <= M -> (forall n, N n <= M + r * N (n + 1)%nat) -> forall n, N n <= M / (1 - r).
Proof.
  intros Hr H0 HM H. assert (0 <= M / (1 - r)) as HP by (apply Rmult_le_pos; [auto|left; apply Rinv_0_lt_compat; lra]).
  assert (forall k n, (L - n <= k)%nat -> N n <= M / (1 - r)) as HK.
  { induction k as [|k IH]; intros n Hn; [rewrite H0 by lia; auto|]. destruct (le_lt_dec L n); [rewrite H0 by lia; auto|].
    eapply Rle_trans; [apply H|]. specialize (IH (n + 1)%nat ltac:(lia)). assert (r * N (n + 1)%nat <= r * (M / (1 - r))) by (apply Rmult_le_compat_l; lra).
    replace (M / (1 - r)) with (M + r * (M / (1 - r))) by (field; lra). lra. }
  intros n. apply (HK L). lia.
Qed.
Section Section2.
Variables (c d r m : R) (f g : nat -> R) (L : nat) (M : R).
Hypothesis Hr : 0 <= r < 1.
Hypothesis Er : c * c + d * d = r * r.
Hypothesis Hm : 0 <= m.
Hypothesis Em : (1 - c) * (1 - c) + d * d = m * m.
Hypothesis H0 : forall n, (L <= n)%nat -> f n = 0.
Hypothesis Hg : forall n, g n = f n - 2 * c * f (n + 1)%nat + r * r * f (n + 2)%nat.
Hypothesis HM : 0 <= M.
Hypothesis Bg : forall n, Rabs (g n) <= M.
Let X n := f n - c * f (n + 1)%nat. Let Y n := d * f (n + 1)%nat.
Let q := / (1 - r).
Lemma q_pos : 1 <= q. Proof. unfold q. rewrite <- Rinv_1 at 1. apply Rinv_le_contravar; lra. Qed.
Lemma len_r : len c d = r. Proof. unfold len. rewrite Er. apply sqrt_square. lra. Qed.
Lemma len_m : len (c - 1) d = m. Proof. unfold len. replace ((c - 1) * (c - 1)) with ((1 - c) * (1 - c)) by ring. rewrite Em. apply sqrt_square. lra. Qed.
Lemma vector n : X n = (X (n + 1) * c - Y (n + 1) * d) + g n /\ Y n = X (n + 1) * d + Y (n + 1) * c.
Proof.
  unfold X, Y. rewrite (Hg n). replace (n + 1 + 1)%nat with (n + 2)%nat by lia. split; [|ring].
  replace (r * r) with (c * c + d * d) by auto. ring.
Qed.
Lemma outside_zero n : (L <= n)%nat -> X n = 0 /\ Y n = 0.
Proof. intros H. unfold X, Y. rewrite !H0 by lia. lra. Qed.
Lemma length_bound n : len (X n) (Y n) <= M * q.
Proof.
  apply (geometric r M (fun n => len (X n) (Y n)) L); auto.
  - intros k Hk. destruct (outside_zero k Hk) as (-> & ->). rewrite len_x. apply Rabs_R0.
  - intros k. destruct (vector k) as (-> & ->). replace (X (k + 1) * d + Y (k + 1) * c) with (X (k + 1) * d + Y (k + 1) * c + 0) by ring.
    eapply Rle_trans; [apply len_add|]. rewrite len_mul, len_r, len_x. specialize (Bg k). lra.
Qed.
Lemma value_bound n : Rabs (f n) <= M * q * q.
Proof.
  pose proof q_pos. apply (geometric r (M * q) (fun n => Rabs (f n)) L); auto.
  - intros k Hk. rewrite H0 by auto. apply Rabs_R0.
  - apply Rmult_le_pos; lra.
  - intros k. pose proof (length_bound k) as B. assert (f k = X k + f (k + 1)%nat * c) as E by (unfold X; ring). rewrite <- len_x. rewrite E.
    replace 0 with (Y k + f (k + 1)%nat * - d) by (unfold Y; ring). eapply Rle_trans; [apply len_add|].
    assert (len (f (k + 1)%nat * c) (f (k + 1)%nat * - d) = r * Rabs (f (k + 1)%nat)) as ->.
    { transitivity (len (f (k + 1)%nat * c - 0 * - d) (f (k + 1)%nat * - d + 0 * c)); [f_equal; ring|]. rewrite len_mul, len_x.
      assert (len c (- d) = r) as -> by (rewrite <- len_r; unfold len; f_equal; ring). ring. }
    lra.
Qed.
Lemma step_bound n : Rabs (f n - f (n + 1)%nat) <= M * q * (1 + m * q).
Proof.
  pose proof (length_bound n) as B. pose proof (value_bound (n + 1)) as V. rewrite <- len_x.
  replace (f n - f (n + 1)%nat) with (X n + f (n + 1)%nat * (c - 1)) by (unfold X; ring). replace 0 with (Y n + f (n + 1)%nat * - d) by (unfold Y; ring).
  eapply Rle_trans; [apply len_add|].
  assert (len (f (n + 1)%nat * (c - 1)) (f (n + 1)%nat * - d) = m * Rabs (f (n + 1)%nat)) as ->.
  { transitivity (len (f (n + 1)%nat * (c - 1) - 0 * - d) (f (n + 1)%nat * - d + 0 * (c - 1))); [f_equal; ring|]. rewrite len_mul, len_x.
    assert (len (c - 1) (- d) = m) as -> by (rewrite <- len_m; unfold len; f_equal; ring). ring. }
  assert (m * Rabs (f (n + 1)%nat) <= m * (M * q * q)) by (apply Rmult_le_compat_l; auto). lra.
Qed.
Lemma bend_bound n : Rabs (f n - 2 * f (n + 1)%nat + f (n + 2)%nat) <= M * ((1 + m * q) * (1 + m * q)).
Proof.
  pose proof (length_bound (n + 1)) as B. pose proof (step_bound (n + 1)) as V. replace (n + 1 + 1)%nat with (n + 2)%nat in V by lia. rewrite <- len_x.
  set (s := f (n + 1)%nat - f (n + 2)%nat) in *. destruct (vector n) as (E1 & E2).
  replace (f n - 2 * f (n + 1)%nat + f (n + 2)%nat) with (g n + (X (n + 1) * (c - 1) - Y (n + 1) * d) + s * (c - 1)).
  2: { unfold s. transitivity (X n - X (n + 1) + (f (n + 1)%nat - f (n + 2)%nat) * (c - 1)); [rewrite E1; ring|]. unfold X. replace (n + 1 + 1)%nat with (n + 2)%nat by lia. ring. }
  replace 0 with (0 + (X (n + 1) * d + Y (n + 1) * (c - 1)) + s * - d).
  2: { unfold s. transitivity (Y n - Y (n + 1) - (f (n + 1)%nat - f (n + 2)%nat) * d); [rewrite E2; ring|]. unfold Y. replace (n + 1 + 1)%nat with (n + 2)%nat by lia. ring. }
  eapply Rle_trans; [apply len_add|]. eapply Rle_trans; [apply Rplus_le_compat_r, len_add|]. rewrite len_x, len_mul, len_m.
  assert (len (s * (c - 1)) (s * - d) = m * Rabs s) as ->.
  { transitivity (len (s * (c - 1) - 0 * - d) (s * - d + 0 * (c - 1))); [f_equal; ring|]. rewrite len_mul, len_x.
    assert (len (c - 1) (- d) = m) as -> by (rewrite <- len_m; unfold len; f_equal; ring). ring. }
  specialize (Bg n). assert (m * Rabs s <= m * (M * q * (1 + m * q))) by (apply Rmult_le_compat_l; auto).
  assert (len (X (n + 1)) (Y (n + 1)) * m <= M * q * m) by (apply Rmult_le_compat_r; auto). lra.
Qed.
End Section2.

(** * The sections of the code *)
Record poles (k q c d r m : R) : Prop := {
  p_r : 0 <= r < 1; p_m : 0 <= m; p_cd : c * c + d * d = r * r; p_1 : (1 - c) * (1 - c) + d * d = m * m;
  p_a1 : 2 * (k * k - 1) / (1 + k / q + k * k) = - 2 * c; p_a2 : (1 - k / q + k * k) / (1 + k / q + k * k) = r * r;
  p_gap : / (1 - r) <= q * (1 + k / q + k * k) / k;
  p_ratio : forall R, 0 <= R -> 4 * q * q * (1 + k * k) <= R * R -> m * / (1 - r) <= R }.
Lemma section_poles k q : 0 < k -> / 2 <= q -> exists c d r m, poles k q c d r m.
Proof.
  intros Hk Hq. set (t := k / q). assert (0 < t) as Ht by (apply Rdiv_lt_0_compat; lra). assert (t * q = k) as Et by (unfold t; field; lra).
  assert (t <= 2 * k) as Ht2 by nra. set (D := 1 + t + k * k). set (D' := 1 - t + k * k). assert (0 < D) as HD by (unfold D; nra).
  assert (0 <= D') as HD' by (pose proof (Rle_0_sqr (1 - k)) as S; unfold Rsqr in S; unfold D'; lra). assert (D' < D) as HDD by (unfold D, D'; lra).
  set (a2 := D' / D). assert (a2 * D = D') as E2 by (unfold a2; field; lra). assert (0 <= a2) as Ha2 by (apply Rmult_le_pos; [auto|left; now apply Rinv_0_lt_compat]). assert (a2 < 1) as Ha2' by nra.
  set (c := - ((k * k - 1) / D)). assert (c * D = 1 - k * k) as Ec by (unfold c; field; lra).
  assert (c * c <= a2) as Hc. { apply Rmult_le_reg_r with (D * D); [nra|]. replace (c * c * (D * D)) with ((c * D) * (c * D)) by ring. replace (a2 * (D * D)) with (a2 * D * D) by ring. rewrite Ec, E2. unfold D, D'. nra. }
  set (r := sqrt a2). assert (r * r = a2) as Er by (apply sqrt_sqrt; auto). assert (0 <= r) as Hr by apply sqrt_pos. assert (r < 1) as Hr' by nra.
  set (d := sqrt (a2 - c * c)). assert (d * d = a2 - c * c) as Ed by (apply sqrt_sqrt; lra).
  set (s := sqrt D). assert (s * s = D) as Es by (apply sqrt_sqrt; lra). assert (0 < s) as Hs by (apply sqrt_lt_R0; auto).
  set (m := 2 * k / s). assert (m * s = 2 * k) as Em by (unfold m; field; lra). assert (0 <= m) as Hm by (apply Rlt_le, Rdiv_lt_0_compat; lra).
  assert ((1 - r) * (1 + r) * (q * D) = 2 * k) as E1. { replace ((1 - r) * (1 + r)) with (1 - r * r) by ring. rewrite Er. replace ((1 - a2) * (q * D)) with (q * (D - a2 * D)) by ring. rewrite E2. unfold D, D'. rewrite <- Et. ring. }
  assert (/ (1 - r) = (1 + r) * (q * D) / (2 * k)) as EI.
  { apply Rmult_eq_reg_l with (1 - r); [|lra]. rewrite Rinv_r by lra. apply Rmult_eq_reg_r with (2 * k); [|lra].
    replace ((1 - r) * ((1 + r) * (q * D) / (2 * k)) * (2 * k)) with ((1 - r) * (1 + r) * (q * D)) by (field; lra). rewrite E1. ring. }
  exists c, d, r, m. split; auto; fold t D D'.
  - lra.
  - rewrite Ed. apply Rmult_eq_reg_r with D; [|lra]. replace (m * m * D) with ((m * s) * (m * s)) by (rewrite <- Es; ring). rewrite Em.
    replace (((1 - c) * (1 - c) + (a2 - c * c)) * D) with (D - 2 * (c * D) + a2 * D) by ring. rewrite Ec, E2. unfold D, D'. ring.
  - unfold c. field. lra.
  - rewrite EI. assert (0 < q * D) by nra. unfold Rdiv. rewrite Rinv_mult. assert (0 < / k) by (apply Rinv_0_lt_compat; lra).
    replace ((1 + r) * (q * D) * (/ 2 * / k)) with ((1 + r) / 2 * (q * D * / k)) by (field; lra). assert (0 < q * D * / k) by (apply Rmult_lt_0_compat; lra). nra.
  - intros R HR H. rewrite EI. set (z := m * ((1 + r) * (q * D) / (2 * k))). assert (z = q * (s + r * s)) as Ez.
    { unfold z, m. rewrite <- Es. field. lra. }
    assert (z * z <= R * R) as Hz. { rewrite Ez. assert ((r * s) * (r * s) = D') as Ers by (replace (r * s * (r * s)) with ((r * r) * (s * s)) by ring; rewrite Er, Es; auto).
      set (v := r * s) in *. clearbody v. eapply Rle_trans; [|exact H]. assert ((s + v) * (s + v) <= 4 * (1 + k * k)).
      { assert (0 <= (s - v) * (s - v)) by (pose proof (Rle_0_sqr (s - v)); unfold Rsqr in *; lra). assert (s * s + v * v = 2 * (1 + k * k)) by (rewrite Es, Ers; unfold D, D'; ring). lra. }
      replace (q * (s + v) * (q * (s + v))) with (q * q * ((s + v) * (s + v))) by ring. replace (4 * q * q * (1 + k * k)) with (q * q * (4 * (1 + k * k))) by ring. apply Rmult_le_compat_l; nra. }
    apply Rle_trans with (Rabs z); [apply Rle_abs|]. now apply below_of_squares.
Qed.

(** * The whole filter *)
Section Whole.
Variable c : coeff_inputs R.
Hypothesis HC : proper c.
Let K := c_K1 c. Let Q := c_Q1 c. Let K' := c_K2 c. Let Q' := c_Q2 c.
Hypothesis HK : 0 < K. Hypothesis HK' : 0 < K'. Hypothesis HQ : / 2 <= Q. Hypothesis HQ' : / 2 <= Q'.
Let D := 1 + K / Q + K * K. Let D' := 1 + K' / Q' + K' * K'.
Variables ro ro' : R.
Hypothesis Hro : 0 <= ro. Hypothesis Hro' : 0 <= ro'.
Hypothesis Gro : 4 * Q * Q * (1 + K * K) <= ro * ro. Hypothesis Gro' : 4 * Q' * Q' * (1 + K' * K') <= ro' * ro'.
Let b := fst (coefficientsR c). Let a := snd (coefficientsR c).
Definition keeps : R := (Q * D / K) * (Q * D / K) * ((Q' * D' / K') * (Q' * D' / K')).
Definition gain : R := (1 + ro') * (1 + ro') * (c_Vh c + 2 * Rabs (c_Vb c - c_Vh c) * (1 + ro) + 4 * Rabs (1 - c_Vh c) * (Q * Q * D)).
Variables (xs : list R) (M : R).
Hypothesis HM : 0 <= M.
Hypothesis HX : forall x, In x xs -> Rabs x <= M.
Hypothesis HVh : 0 <= c_Vh c.

Lemma whole W : (forall n, h (rev xs) n = conv 1 (v1 a) (v2 a) (v3 a) (v4 a) W n) ->
  (forall n, Rabs (h W n) <= M * keeps) /\ (forall n, Rabs (conv (v0 b) (v1 b) (v2 b) (v3 b) (v4 b) W n) <= gain * M).
Proof.
  intros TX. pose proof (sections_ok c HC) as (P0 & P1 & P2 & A0 & A1 & A2 & B0 & B1 & B2 & R0 & R1 & R2). fold K Q D in P0, P1, P2, A1, A2. fold K' Q' D' in R1, R2.
  destruct (section_poles K Q HK HQ) as (c1 & d1 & r1 & m1 & S1). destruct (section_poles K' Q' HK' HQ') as (c2 & d2 & r2 & m2 & S2).
  pose proof (p_a1 _ _ _ _ _ _ S1) as E1. pose proof (p_a2 _ _ _ _ _ _ S1) as E2. pose proof (p_a1 _ _ _ _ _ _ S2) as E3. pose proof (p_a2 _ _ _ _ _ _ S2) as E4. fold D in E1, E2. fold D' in E3, E4.
  rewrite <- A1 in E1. rewrite <- A2 in E2. rewrite <- R1 in E3. rewrite <- R2 in E4. set (s := filter_sections arR c) in *.
  set (F := fun n => h W n + pa1 s * h W (n + 1) + pa2 s * h W (n + 2)).
  assert (forall n, (length W <= n)%nat -> h W n = 0) as HW by (intros; unfold h; now apply nth_overflow).
  assert (forall n, (length W <= n)%nat -> F n = 0) as HF by (intros n Hn; unfold F; rewrite !HW by lia; ring).
  assert (forall n, h (rev xs) n = F n - 2 * c2 * F (n + 1)%nat + r2 * r2 * F (n + 2)%nat) as HFg.
  { intros n. rewrite TX. rewrite <- E4. replace (F n - 2 * c2 * F (n + 1)%nat) with (F n + ra1 s * F (n + 1)%nat) by (rewrite E3; ring). unfold F, conv, a, coefficientsR. fold s. cbn [filter_product snd v0 v1 v2 v3 v4 arR ar_add ar_mul]. rewrite A0, R0.
    rewrite <- !Nat.add_assoc. cbn [Nat.add]. ring. }
  assert (forall n, Rabs (h (rev xs) n) <= M) as BX by (apply h_bounded; auto; intros x Hx; apply HX; now apply in_rev).
  assert (0 < D) as PD by (apply (d_pos c HC); apply Rlt_le, HK). assert (0 < D') as PD' by (apply (d'_pos c HC); apply Rlt_le, HK').
  pose proof (p_r _ _ _ _ _ _ S1) as Q1. pose proof (p_r _ _ _ _ _ _ S2) as Q2. pose proof (p_gap _ _ _ _ _ _ S1) as G1. pose proof (p_gap _ _ _ _ _ _ S2) as G2. fold D in G1. fold D' in G2.
  pose proof (q_pos r1 Q1) as I1. pose proof (q_pos r2 Q2) as I2. set (i1 := / (1 - r1)) in *. set (i2 := / (1 - r2)) in *.
  assert (forall i x M, 1 <= i -> i <= x -> 0 <= M -> M * i * i <= M * (x * x)) as Sq by (intros i x N X1 X2 X3; rewrite Rmult_assoc; apply Rmult_le_compat_l; auto; apply Rmult_le_compat; lra).
  split.
  - intros n. assert (forall n, Rabs (F n) <= M * i2 * i2) as BF.
    { apply (value_bound c2 d2 r2 F (h (rev xs)) (length W) M); auto; apply S2. }
    assert (0 <= M * i2 * i2) as P by (repeat apply Rmult_le_pos; lra).
    assert (Rabs (h W n) <= M * i2 * i2 * i1 * i1) as V.
    { apply (value_bound c1 d1 r1 (h W) F (length W) (M * i2 * i2)); auto; try apply S1. intros k. unfold F. rewrite E1, E2. ring. }
    eapply Rle_trans; [exact V|]. unfold keeps. eapply Rle_trans; [apply (Sq i1 _ _ I1 G1 P)|]. set (X := Q * D / K) in *. set (Y := Q' * D' / K') in *. replace (M * (X * X * (Y * Y))) with (M * (Y * Y) * (X * X)) by ring. apply Rmult_le_compat_r; [apply Rle_0_sqr|]. apply Sq; auto.
  - intros n. set (dd := fun f : nat -> R => fun n => f n - 2 * f (n + 1)%nat + f (n + 2)%nat). set (Z := dd (h W)). set (g := dd F).
    pose proof (p_ratio _ _ _ _ _ _ S1 ro Hro Gro) as T1. pose proof (p_ratio _ _ _ _ _ _ S2 ro' Hro' Gro') as T2. fold i1 in T1. fold i2 in T2.
    pose proof (p_m _ _ _ _ _ _ S1) as Pm1. pose proof (p_m _ _ _ _ _ _ S2) as Pm2.
    assert (0 <= m1 * i1) by (apply Rmult_le_pos; lra). assert (0 <= m2 * i2) by (apply Rmult_le_pos; lra).
    set (M' := M * ((1 + ro') * (1 + ro'))). assert (0 <= M') as HM' by (unfold M'; apply Rmult_le_pos; auto; nra).
    assert (forall n, Rabs (g n) <= M') as Bg.
    { intros k. eapply Rle_trans; [apply (bend_bound c2 d2 r2 m2 F (h (rev xs)) (length W) M); auto; apply S2|]. unfold M'. apply Rmult_le_compat_l; auto. fold i2. apply Rmult_le_compat; lra. }
    assert (forall n, g n = Z n - 2 * c1 * Z (n + 1)%nat + r1 * r1 * Z (n + 2)%nat) as HZ.
    { intros k. rewrite <- E2. replace (Z k - 2 * c1 * Z (k + 1)%nat) with (Z k + pa1 s * Z (k + 1)%nat) by (rewrite E1; ring). unfold g, Z, dd, F. rewrite <- !Nat.add_assoc. cbn [Nat.add]. ring. }
    assert (forall n, (length W <= n)%nat -> Z n = 0) as HZ0 by (intros k Hk; unfold Z, dd; rewrite !HW by lia; ring).
    assert (forall n, Rabs (Z n) <= M' * i1 * i1) as BZ by (apply (value_bound c1 d1 r1 Z g (length W) M'); auto; apply S1).
    assert (forall n, Rabs (Z n - Z (n + 1)%nat) <= M' * i1 * (1 + m1 * i1)) as BZ1 by (intros k; apply (step_bound c1 d1 r1 m1 Z g (length W) M'); auto; apply S1).
    assert (conv (v0 b) (v1 b) (v2 b) (v3 b) (v4 b) W n = c_Vh c * g n + (c_Vb c - c_Vh c) * (K / Q / D) * ((Z n - Z (n + 1)%nat) + (Z (n + 1)%nat - Z (n + 2)%nat)) + (1 - c_Vh c) * (K * K / D) * (Z n + 2 * Z (n + 1)%nat + Z (n + 2)%nat)) as EY.
    { transitivity (pb0 s * Z n + pb1 s * Z (n + 1)%nat + pb2 s * Z (n + 2)%nat).
      - unfold conv, b, coefficientsR, Z, dd. fold s. cbn [filter_product fst v0 v1 v2 v3 v4 arR ar_add ar_mul]. rewrite B0, B1, B2. rewrite <- !Nat.add_assoc. cbn [Nat.add]. ring.
      - rewrite HZ, <- E2. replace (Z n - 2 * c1 * Z (n + 1)%nat) with (Z n + pa1 s * Z (n + 1)%nat) by (rewrite E1; ring). rewrite P0, P1, P2, A1, A2.
        assert (1 = (1 + K / Q + K * K) / D) as EO by (unfold D; field; split; [lra|]; fold D; unfold D in PD; intros E; apply (Rlt_not_eq _ _ PD); rewrite <- (Rmult_0_r (/ Q)), <- E; field; lra).
        transitivity (c_Vh c * (((1 + K / Q + K * K) / D) * Z n + 2 * (K * K - 1) / D * Z (n + 1)%nat + (1 - K / Q + K * K) / D * Z (n + 2)%nat) + (c_Vb c - c_Vh c) * (K / Q / D) * ((Z n - Z (n + 1)%nat) + (Z (n + 1)%nat - Z (n + 2)%nat)) + (1 - c_Vh c) * (K * K / D) * (Z n + 2 * Z (n + 1)%nat + Z (n + 2)%nat)); [|rewrite <- EO; ring].
        assert (D <> 0) as ND by lra. assert (Q <> 0) as NQ by lra. clear - ND NQ. clearbody D. field. auto. }
    rewrite EY. pose proof (BZ1 n) as X1. pose proof (BZ1 (n + 1)%nat) as X2. replace (n + 1 + 1)%nat with (n + 2)%nat in X2 by lia. pose proof (BZ n) as Y0. pose proof (BZ (n + 1)%nat) as Y1. pose proof (BZ (n + 2)%nat) as Y2.
    eapply Rle_trans; [apply Rabs_triang|]. eapply Rle_trans; [apply Rplus_le_compat_r, Rabs_triang|]. rewrite !Rabs_mult, (Rabs_pos_eq (c_Vh c)) by auto.
    assert (0 < K / Q / D) as PKQ by (repeat apply Rdiv_lt_0_compat; lra). assert (0 < K * K / D) as PKK by (apply Rdiv_lt_0_compat; nra). rewrite (Rabs_pos_eq (K / Q / D)), (Rabs_pos_eq (K * K / D)) by lra.
    set (ab := Rabs (c_Vb c - c_Vh c)). set (ah := Rabs (1 - c_Vh c)). assert (0 <= ab) as Pab by apply Rabs_pos. assert (0 <= ah) as Pah by apply Rabs_pos.
    assert (c_Vh c * Rabs (g n) <= c_Vh c * M') as Z1 by (apply Rmult_le_compat_l; auto).
    assert (Rabs (Z n - Z (n + 1)%nat + (Z (n + 1)%nat - Z (n + 2)%nat)) <= 2 * (M' * i1 * (1 + ro))) as Z2.
    { eapply Rle_trans; [apply Rabs_triang|]. assert (M' * i1 * (1 + m1 * i1) <= M' * i1 * (1 + ro)) by (apply Rmult_le_compat_l; [apply Rmult_le_pos|]; lra). lra. }
    assert (Rabs (Z n + 2 * Z (n + 1)%nat + Z (n + 2)%nat) <= 4 * (M' * i1 * i1)) as Z3.
    { eapply Rle_trans; [apply Rabs_triang|]. eapply Rle_trans; [apply Rplus_le_compat_r, Rabs_triang|]. rewrite Rabs_mult, (Rabs_pos_eq 2) by lra. lra. }
    assert (K / Q / D * i1 <= 1) as W1. { apply Rle_trans with (K / Q / D * (Q * D / K)); [apply Rmult_le_compat_l; lra|]. right. field. lra. }
    assert (K * K / D * (i1 * i1) <= Q * Q * D) as W2.
    { apply Rle_trans with (K * K / D * ((Q * D / K) * (Q * D / K))); [apply Rmult_le_compat_l; [lra|apply Rmult_le_compat; lra]|]. right. field. lra. }
    assert (ab * (K / Q / D) * Rabs (Z n - Z (n + 1)%nat + (Z (n + 1)%nat - Z (n + 2)%nat)) <= 2 * ab * (1 + ro) * M') as V1.
    { apply Rle_trans with (ab * (K / Q / D) * (2 * (M' * i1 * (1 + ro)))); [apply Rmult_le_compat_l; [apply Rmult_le_pos; lra|auto]|].
      replace (ab * (K / Q / D) * (2 * (M' * i1 * (1 + ro)))) with (2 * ab * (1 + ro) * M' * (K / Q / D * i1)) by ring. rewrite <- (Rmult_1_r (2 * ab * (1 + ro) * M')) at 2.
      apply Rmult_le_compat_l; auto. repeat apply Rmult_le_pos; lra. }
    assert (ah * (K * K / D) * Rabs (Z n + 2 * Z (n + 1)%nat + Z (n + 2)%nat) <= 4 * ah * (Q * Q * D) * M') as V2.
    { apply Rle_trans with (ah * (K * K / D) * (4 * (M' * i1 * i1))); [apply Rmult_le_compat_l; [apply Rmult_le_pos; lra|auto]|].
      replace (ah * (K * K / D) * (4 * (M' * i1 * i1))) with (4 * ah * M' * (K * K / D * (i1 * i1))) by ring. replace (4 * ah * (Q * Q * D) * M') with (4 * ah * M' * (Q * Q * D)) by ring.
      apply Rmult_le_compat_l; auto. repeat apply Rmult_le_pos; lra. }
    unfold gain. fold ab ah. replace ((1 + ro') * (1 + ro') * (c_Vh c + 2 * ab * (1 + ro) + 4 * ah * (Q * Q * D)) * M) with (M' * (c_Vh c + 2 * ab * (1 + ro) + 4 * ah * (Q * Q * D))) by (unfold M'; ring). lra.
Qed.
Lemma outputs_gain : forall y, In y (outputsR b a xs) -> Rabs y <= gain * M.
Proof.
  intros y Hy. unfold outputsR in Hy. destruct (tracks_run b a xs rest [] [] [] (tracks_rest b a)) as (W & _ & _ & _ & _ & TX & TY). rewrite !app_nil_r in TX, TY.
  apply in_rev in Hy. apply In_nth with (d := 0) in Hy. destruct Hy as (n & _ & <-). change (nth n ?l 0) with (h l n). rewrite TY. now apply whole.
Qed.
Lemma kept_bound : let st := fst (filter_run arR b a rest xs) in Rabs (v1 st) <= M * keeps /\ Rabs (v2 st) <= M * keeps /\ Rabs (v3 st) <= M * keeps /\ Rabs (v4 st) <= M * keeps.
Proof.
  intros st. destruct (tracks_run b a xs rest [] [] [] (tracks_rest b a)) as (W & S1 & S2 & S3 & S4 & TX & _). rewrite !app_nil_r in TX. unfold st.
  rewrite S1, S2, S3, S4. destruct (whole W TX) as (H & _). auto.
Qed.
End Whole.
