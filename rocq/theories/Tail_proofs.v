(** How fast the exact weighting filter forgets. *)
From Coq Require Import List Arith NArith ZArith Lia Reals Lra Psatz.
From Flocq Require Import Core.
From Verif Require Import Prelude Float Env Filter Spec_real Spec_filter Spec_coeff Spec_exact Filter_proofs Kweight_proofs Coeff_proofs Calibration_proofs Gain_proofs Tight_proofs Heard_proofs Bound_proofs.
Import ListNotations.
Local Open Scope R_scope.

(** * Bounds that grow into the past like [rho ^ n] (time runs backwards) *)
Section Growing.
Variable rho : R.
Hypothesis Hrho : 1 <= rho.
Lemma rho_pow n : 0 < rho ^ n. Proof. apply pow_lt. lra. Qed.
Lemma geometric_rho r M (N : nat -> R) L : 0 <= r -> r * rho < 1 -> (forall n, (L <= n)%nat -> N n = 0) -> 0 <= M -> (forall n, N n <= M * rho ^ n + r * N (n + 1)%nat) ->
  forall n, N n <= M * / (1 - r * rho) * rho ^ n.
Proof.
  intros Hr Hrr H0 HM H n. pose proof (rho_pow n) as Pn.
  pose proof (geometric (r * rho) M (fun n => N n / rho ^ n) L ltac:(split; nra) ltac:(intros k Hk; cbv beta; rewrite (H0 k Hk); unfold Rdiv; ring) HM) as G.
  assert (forall k, N k / rho ^ k <= M + r * rho * (N (k + 1)%nat / rho ^ (k + 1))) as HG.
  { intros k. pose proof (rho_pow k) as Pk. apply Rmult_le_reg_r with (rho ^ k); auto. unfold Rdiv at 1. rewrite Rmult_assoc, Rinv_l, Rmult_1_r by lra. eapply Rle_trans; [apply H|]. right.
    rewrite pow_add, pow_1. field. split; lra. }
  specialize (G HG n). cbv beta in G. apply Rmult_le_compat_r with (r := rho ^ n) in G; [|lra]. unfold Rdiv in G. rewrite (Rmult_assoc (N n)), Rinv_l, Rmult_1_r in G by lra. exact G.
Qed.
Section Section2.
Variables (c d r m : R) (f g : nat -> R) (L : nat) (M : R).
Hypothesis Hr0 : 0 <= r.
Hypothesis Hr : r * rho < 1.
Hypothesis Er : c * c + d * d = r * r.
Hypothesis Hm : 0 <= m.
Hypothesis Em : (1 - c) * (1 - c) + d * d = m * m.
Hypothesis H0 : forall n, (L <= n)%nat -> f n = 0.
Hypothesis Hg : forall n, g n = f n - 2 * c * f (n + 1)%nat + r * r * f (n + 2)%nat.
Hypothesis HM : 0 <= M.
Hypothesis Bg : forall n, Rabs (g n) <= M * rho ^ n.
Let X n := f n - c * f (n + 1)%nat. Let Y n := d * f (n + 1)%nat.
Let q := / (1 - r * rho).
Lemma q_pos' : 1 <= q. Proof. unfold q. rewrite <- Rinv_1 at 1. assert (0 <= r * rho) by nra. apply Rinv_le_contravar; lra. Qed.
Lemma vector' n : X n = (X (n + 1) * c - Y (n + 1) * d) + g n /\ Y n = X (n + 1) * d + Y (n + 1) * c.
Proof.
  unfold X, Y. rewrite (Hg n). replace (n + 1 + 1)%nat with (n + 2)%nat by lia. split; [|ring].
  replace (r * r) with (c * c + d * d) by auto. ring.
Qed.
Lemma len_r' : len c d = r. Proof. unfold len. rewrite Er. apply sqrt_square. auto. Qed.
Lemma len_m' : len (c - 1) d = m. Proof. unfold len. replace ((c - 1) * (c - 1)) with ((1 - c) * (1 - c)) by ring. rewrite Em. apply sqrt_square. auto. Qed.
Lemma length_bound' n : len (X n) (Y n) <= M * q * rho ^ n.
Proof.
  apply (geometric_rho r M (fun n => len (X n) (Y n)) L); auto.
  - intros k Hk. unfold X, Y. rewrite !H0 by lia. rewrite !Rmult_0_r, Rminus_0_r, len_x. apply Rabs_R0.
  - intros k. destruct (vector' k) as (-> & ->). replace (X (k + 1) * d + Y (k + 1) * c) with (X (k + 1) * d + Y (k + 1) * c + 0) by ring.
    eapply Rle_trans; [apply len_add|]. rewrite len_mul, len_r', len_x. specialize (Bg k). lra.
Qed.
Lemma value_bound' n : Rabs (f n) <= M * q * q * rho ^ n.
Proof.
  pose proof q_pos'. apply (geometric_rho r (M * q) (fun n => Rabs (f n)) L); auto.
  - intros k Hk. rewrite H0 by auto. apply Rabs_R0.
  - apply Rmult_le_pos; lra.
  - intros k. pose proof (length_bound' k) as B. assert (f k = X k + f (k + 1)%nat * c) as E by (unfold X; ring). rewrite <- len_x. rewrite E.
    replace 0 with (Y k + f (k + 1)%nat * - d) by (unfold Y; ring). eapply Rle_trans; [apply len_add|].
    assert (len (f (k + 1)%nat * c) (f (k + 1)%nat * - d) = r * Rabs (f (k + 1)%nat)) as ->.
    { transitivity (len (f (k + 1)%nat * c - 0 * - d) (f (k + 1)%nat * - d + 0 * c)); [f_equal; ring|]. rewrite len_mul, len_x.
      assert (len c (- d) = r) as -> by (rewrite <- len_r'; unfold len; f_equal; ring). ring. }
    lra.
Qed.
Lemma next n : rho ^ (n + 1) = rho * rho ^ n. Proof. rewrite Nat.add_1_r. reflexivity. Qed.
Lemma step_bound' n : Rabs (f n - f (n + 1)%nat) <= M * q * (1 + m * rho * q) * rho ^ n.
Proof.
  pose proof (length_bound' n) as B. pose proof (value_bound' (n + 1)) as V. rewrite next in V. rewrite <- len_x.
  replace (f n - f (n + 1)%nat) with (X n + f (n + 1)%nat * (c - 1)) by (unfold X; ring). replace 0 with (Y n + f (n + 1)%nat * - d) by (unfold Y; ring).
  eapply Rle_trans; [apply len_add|].
  assert (len (f (n + 1)%nat * (c - 1)) (f (n + 1)%nat * - d) = m * Rabs (f (n + 1)%nat)) as ->.
  { transitivity (len (f (n + 1)%nat * (c - 1) - 0 * - d) (f (n + 1)%nat * - d + 0 * (c - 1))); [f_equal; ring|]. rewrite len_mul, len_x.
    assert (len (c - 1) (- d) = m) as -> by (rewrite <- len_m'; unfold len; f_equal; ring). ring. }
  assert (m * Rabs (f (n + 1)%nat) <= m * (M * q * q * (rho * rho ^ n))) by (apply Rmult_le_compat_l; auto). lra.
Qed.
Lemma bend_bound' n : Rabs (f n - 2 * f (n + 1)%nat + f (n + 2)%nat) <= M * ((1 + m * rho * q) * (1 + m * rho * q)) * rho ^ n.
Proof.
  pose proof (length_bound' (n + 1)) as B. pose proof (step_bound' (n + 1)) as V. replace (n + 1 + 1)%nat with (n + 2)%nat in V by lia. rewrite next in B, V. rewrite <- len_x.
  set (s := f (n + 1)%nat - f (n + 2)%nat) in *. destruct (vector' n) as (E1 & E2).
  replace (f n - 2 * f (n + 1)%nat + f (n + 2)%nat) with (g n + (X (n + 1) * (c - 1) - Y (n + 1) * d) + s * (c - 1)).
  2: { unfold s. transitivity (X n - X (n + 1) + (f (n + 1)%nat - f (n + 2)%nat) * (c - 1)); [rewrite E1; ring|]. unfold X. replace (n + 1 + 1)%nat with (n + 2)%nat by lia. ring. }
  replace 0 with (0 + (X (n + 1) * d + Y (n + 1) * (c - 1)) + s * - d).
  2: { unfold s. transitivity (Y n - Y (n + 1) - (f (n + 1)%nat - f (n + 2)%nat) * d); [rewrite E2; ring|]. unfold Y. replace (n + 1 + 1)%nat with (n + 2)%nat by lia. ring. }
  eapply Rle_trans; [apply len_add|]. eapply Rle_trans; [apply Rplus_le_compat_r, len_add|]. rewrite len_x, len_mul, len_m'.
  assert (len (s * (c - 1)) (s * - d) = m * Rabs s) as ->.
  { transitivity (len (s * (c - 1) - 0 * - d) (s * - d + 0 * (c - 1))); [f_equal; ring|]. rewrite len_mul, len_x.
    assert (len (c - 1) (- d) = m) as -> by (rewrite <- len_m'; unfold len; f_equal; ring). ring. }
  specialize (Bg n). assert (m * Rabs s <= m * (M * q * (1 + m * rho * q) * (rho * rho ^ n))) by (apply Rmult_le_compat_l; auto).
  assert (len (X (n + 1)) (Y (n + 1)) * m <= M * q * (rho * rho ^ n) * m) by (apply Rmult_le_compat_r; auto). lra.
Qed.
End Section2.

(** * The whole filter *)
Section Whole.
Variable c : coeff_inputs R.
Hypothesis HC : proper c.
Let K := c_K1 c. Let Q := c_Q1 c. Let K' := c_K2 c. Let Q' := c_Q2 c.
Hypothesis HK : 0 < K. Hypothesis HQ : 0 < Q.
Let D := 1 + K / Q + K * K. Let D' := 1 + K' / Q' + K' * K'.
Variables c1 d1 r1 m1 c2 d2 r2 m2 ro ro' j : R.
Hypothesis S1 : poles K Q c1 d1 r1 m1. Hypothesis S2 : poles K' Q' c2 d2 r2 m2.
Hypothesis R1 : r1 * rho < 1. Hypothesis R2 : r2 * rho < 1.
Hypothesis G1 : m1 * rho * / (1 - r1 * rho) <= ro. Hypothesis G2 : m2 * rho * / (1 - r2 * rho) <= ro'.
Hypothesis G3 : / (1 - r1 * rho) <= j * (Q * D / K).
Let b := fst (coefficientsR c). Let a := snd (coefficientsR c).
Definition gain_rho : R := (1 + ro') * (1 + ro') * (c_Vh c + j * Rabs (c_Vb c - c_Vh c) * (1 + ro) * (1 + rho) + j * j * Rabs (1 - c_Vh c) * (Q * Q * D) * ((1 + rho) * (1 + rho))).
Hypothesis HVh : 0 <= c_Vh c.
Variables (X W : list R) (M : R).
Hypothesis HM : 0 <= M.
Hypothesis HX : forall n, Rabs (h X n) <= M * rho ^ n.
Hypothesis TX : forall n, h X n = conv 1 (v1 a) (v2 a) (v3 a) (v4 a) W n.
Lemma whole_rho : Rabs (conv (v0 b) (v1 b) (v2 b) (v3 b) (v4 b) W 0) <= gain_rho * M.
Proof.
  pose proof (sections_ok c HC) as (P0 & P1 & P2 & A0 & A1 & A2 & B0 & B1 & B2 & O0 & O1 & O2). fold K Q D in P0, P1, P2, A1, A2. fold K' Q' D' in O1, O2.
  pose proof (p_a1 _ _ _ _ _ _ S1) as E1. pose proof (p_a2 _ _ _ _ _ _ S1) as E2. pose proof (p_a1 _ _ _ _ _ _ S2) as E3. pose proof (p_a2 _ _ _ _ _ _ S2) as E4. fold D in E1, E2. fold D' in E3, E4.
  rewrite <- A1 in E1. rewrite <- A2 in E2. rewrite <- O1 in E3. rewrite <- O2 in E4. set (s := filter_sections arR c) in *.
  set (F := fun n => h W n + pa1 s * h W (n + 1) + pa2 s * h W (n + 2)).
  assert (forall n, (length W <= n)%nat -> h W n = 0) as HW by (intros; unfold h; now apply nth_overflow).
  assert (forall n, (length W <= n)%nat -> F n = 0) as HF by (intros n Hn; unfold F; rewrite !HW by lia; ring).
  assert (forall n, h X n = F n - 2 * c2 * F (n + 1)%nat + r2 * r2 * F (n + 2)%nat) as HFg.
  { intros n. rewrite TX. rewrite <- E4. replace (F n - 2 * c2 * F (n + 1)%nat) with (F n + ra1 s * F (n + 1)%nat) by (rewrite E3; ring). unfold F, conv, a, coefficientsR. fold s. cbn [filter_product snd v0 v1 v2 v3 v4 arR ar_add ar_mul]. rewrite A0, O0.
    rewrite <- !Nat.add_assoc. cbn [Nat.add]. ring. }
  assert (0 < D) as PD by (apply (d_pos c HC); apply Rlt_le, HK).
  pose proof (p_r _ _ _ _ _ _ S1) as Q1. pose proof (p_r _ _ _ _ _ _ S2) as Q2.
  pose proof (q_pos' r1 (proj1 Q1) R1) as I1. pose proof (q_pos' r2 (proj1 Q2) R2) as I2. set (i1 := / (1 - r1 * rho)) in *. set (i2 := / (1 - r2 * rho)) in *.
  set (dd := fun f : nat -> R => fun n => f n - 2 * f (n + 1)%nat + f (n + 2)%nat). set (Z := dd (h W)). set (g := dd F).
  pose proof (p_m _ _ _ _ _ _ S1) as Pm1. pose proof (p_m _ _ _ _ _ _ S2) as Pm2.
  assert (0 <= m1 * rho * i1) as Px1 by (repeat apply Rmult_le_pos; lra). assert (0 <= m2 * rho * i2) as Px2 by (repeat apply Rmult_le_pos; lra).
  set (M' := M * ((1 + ro') * (1 + ro'))). assert (0 <= M') as HM' by (unfold M'; apply Rmult_le_pos; auto; nra).
  assert (forall n, Rabs (g n) <= M' * rho ^ n) as Bg.
  { intros k. eapply Rle_trans; [apply (bend_bound' c2 d2 r2 m2 F (h X) (length W) M); auto; apply S2|]. unfold M'. apply Rmult_le_compat_r; [left; apply rho_pow|]. apply Rmult_le_compat_l; auto. fold i2. apply Rmult_le_compat; lra. }
  assert (forall n, g n = Z n - 2 * c1 * Z (n + 1)%nat + r1 * r1 * Z (n + 2)%nat) as HZ.
  { intros k. rewrite <- E2. replace (Z k - 2 * c1 * Z (k + 1)%nat) with (Z k + pa1 s * Z (k + 1)%nat) by (rewrite E1; ring). unfold g, Z, dd, F. rewrite <- !Nat.add_assoc. cbn [Nat.add]. ring. }
  assert (forall n, (length W <= n)%nat -> Z n = 0) as HZ0 by (intros k Hk; unfold Z, dd; rewrite !HW by lia; ring).
  assert (forall n, Rabs (Z n) <= M' * i1 * i1 * rho ^ n) as BZ by (apply (value_bound' c1 d1 r1 Z g (length W) M'); auto; apply S1).
  assert (forall n, Rabs (Z n - Z (n + 1)%nat) <= M' * i1 * (1 + ro) * rho ^ n) as BZ1.
  { intros k. eapply Rle_trans; [apply (step_bound' c1 d1 r1 m1 Z g (length W) M'); auto; apply S1|]. fold i1. apply Rmult_le_compat_r; [left; apply rho_pow|]. apply Rmult_le_compat_l; [apply Rmult_le_pos; lra|lra]. }
  assert (conv (v0 b) (v1 b) (v2 b) (v3 b) (v4 b) W 0 = c_Vh c * g 0%nat + (c_Vb c - c_Vh c) * (K / Q / D) * ((Z 0%nat - Z 1%nat) + (Z 1%nat - Z 2%nat)) + (1 - c_Vh c) * (K * K / D) * (Z 0%nat + 2 * Z 1%nat + Z 2%nat)) as EY.
  { transitivity (pb0 s * Z 0%nat + pb1 s * Z 1%nat + pb2 s * Z 2%nat).
    - unfold conv, b, coefficientsR, Z, dd. fold s. cbn [filter_product fst v0 v1 v2 v3 v4 arR ar_add ar_mul]. rewrite B0, B1, B2. cbn [Nat.add]. ring.
    - rewrite (HZ 0%nat), <- E2. cbn [Nat.add]. replace (Z 0%nat - 2 * c1 * Z 1%nat) with (Z 0%nat + pa1 s * Z 1%nat) by (rewrite E1; ring). rewrite P0, P1, P2, A1, A2.
      assert (1 = (1 + K / Q + K * K) / D) as EO by (unfold D; field; split; [lra|]; fold D; unfold D in PD; intros E; apply (Rlt_not_eq _ _ PD); rewrite <- (Rmult_0_r (/ Q)), <- E; field; lra).
      transitivity (c_Vh c * (((1 + K / Q + K * K) / D) * Z 0%nat + 2 * (K * K - 1) / D * Z 1%nat + (1 - K / Q + K * K) / D * Z 2%nat) + (c_Vb c - c_Vh c) * (K / Q / D) * ((Z 0%nat - Z 1%nat) + (Z 1%nat - Z 2%nat)) + (1 - c_Vh c) * (K * K / D) * (Z 0%nat + 2 * Z 1%nat + Z 2%nat)); [|rewrite <- EO; ring].
      assert (D <> 0) as ND by lra. assert (Q <> 0) as NQ by lra. clear - ND NQ. clearbody D. field. auto. }
  rewrite EY. pose proof (BZ1 0%nat) as X1. pose proof (BZ1 1%nat) as X2. pose proof (BZ 0%nat) as Y0. pose proof (BZ 1%nat) as Y1. pose proof (BZ 2%nat) as Y2. pose proof (Bg 0%nat) as U0. cbn [Nat.add pow] in *. rewrite !Rmult_1_r in *.
  eapply Rle_trans; [apply Rabs_triang|]. eapply Rle_trans; [apply Rplus_le_compat_r, Rabs_triang|]. rewrite !Rabs_mult, (Rabs_pos_eq (c_Vh c)) by auto.
  assert (0 < K / Q / D) as PKQ by (repeat apply Rdiv_lt_0_compat; lra). assert (0 < K * K / D) as PKK by (apply Rdiv_lt_0_compat; nra). rewrite (Rabs_pos_eq (K / Q / D)), (Rabs_pos_eq (K * K / D)) by lra.
  set (ab := Rabs (c_Vb c - c_Vh c)). set (ah := Rabs (1 - c_Vh c)). assert (0 <= ab) as Pab by apply Rabs_pos. assert (0 <= ah) as Pah by apply Rabs_pos.
  assert (c_Vh c * Rabs (g 0%nat) <= c_Vh c * M') as Z1 by (apply Rmult_le_compat_l; auto).
  assert (Rabs (Z 0%nat - Z 1%nat + (Z 1%nat - Z 2%nat)) <= M' * i1 * (1 + ro) * (1 + rho)) as Z2.
  { eapply Rle_trans; [apply Rabs_triang|]. lra. }
  assert (Rabs (Z 0%nat + 2 * Z 1%nat + Z 2%nat) <= M' * i1 * i1 * ((1 + rho) * (1 + rho))) as Z3.
  { eapply Rle_trans; [apply Rabs_triang|]. eapply Rle_trans; [apply Rplus_le_compat_r, Rabs_triang|]. rewrite Rabs_mult, (Rabs_pos_eq 2) by lra. lra. }
  assert (K / Q / D * i1 <= j) as W1. { apply Rle_trans with (K / Q / D * (j * (Q * D / K))); [apply Rmult_le_compat_l; lra|]. right. field. lra. }
  assert (K * K / D * (i1 * i1) <= j * j * (Q * Q * D)) as W2.
  { apply Rle_trans with (K * K / D * ((j * (Q * D / K)) * (j * (Q * D / K)))); [apply Rmult_le_compat_l; [lra|apply Rmult_le_compat; lra]|]. right. field. lra. }
  assert (ab * (K / Q / D) * Rabs (Z 0%nat - Z 1%nat + (Z 1%nat - Z 2%nat)) <= j * ab * (1 + ro) * (1 + rho) * M') as V1.
  { apply Rle_trans with (ab * (K / Q / D) * (M' * i1 * (1 + ro) * (1 + rho))); [apply Rmult_le_compat_l; [apply Rmult_le_pos; lra|auto]|].
    replace (ab * (K / Q / D) * (M' * i1 * (1 + ro) * (1 + rho))) with (ab * (1 + ro) * (1 + rho) * M' * (K / Q / D * i1)) by ring. replace (j * ab * (1 + ro) * (1 + rho) * M') with (ab * (1 + ro) * (1 + rho) * M' * j) by ring.
    apply Rmult_le_compat_l; auto. repeat apply Rmult_le_pos; lra. }
  assert (ah * (K * K / D) * Rabs (Z 0%nat + 2 * Z 1%nat + Z 2%nat) <= j * j * ah * (Q * Q * D) * ((1 + rho) * (1 + rho)) * M') as V2.
  { apply Rle_trans with (ah * (K * K / D) * (M' * i1 * i1 * ((1 + rho) * (1 + rho)))); [apply Rmult_le_compat_l; [apply Rmult_le_pos; lra|auto]|].
    replace (ah * (K * K / D) * (M' * i1 * i1 * ((1 + rho) * (1 + rho)))) with (ah * M' * ((1 + rho) * (1 + rho)) * (K * K / D * (i1 * i1))) by ring. replace (j * j * ah * (Q * Q * D) * ((1 + rho) * (1 + rho)) * M') with (ah * M' * ((1 + rho) * (1 + rho)) * (j * j * (Q * Q * D))) by ring.
    apply Rmult_le_compat_l; auto. repeat apply Rmult_le_pos; lra. }
  unfold gain_rho. fold ab ah. replace ((1 + ro') * (1 + ro') * (c_Vh c + j * ab * (1 + ro) * (1 + rho) + j * j * ah * (Q * Q * D) * ((1 + rho) * (1 + rho))) * M) with (M' * (c_Vh c + j * ab * (1 + ro) * (1 + rho) + j * j * ah * (Q * Q * D) * ((1 + rho) * (1 + rho)))) by (unfold M'; ring). lra.
Qed.
End Whole.
End Growing.

(** * At a rate *)
Lemma e_bound : 2.69 <= exp 1.
Proof.
  assert (65 / 64 <= exp (/ 64)) as H by (pose proof (exp_ineq1_le (/ 64)); lra).
  assert (forall x a c, 0 <= a -> c <= a * a -> a <= exp x -> c <= exp (x + x)) as D.
  { intros x a c' Ha Hc H'. rewrite exp_plus. eapply Rle_trans; [exact Hc|]. apply Rmult_le_compat; auto. }
  apply (D _ _ (1.03149)) in H; [|lra|lra]. apply (D _ _ (1.06397)) in H; [|lra|lra]. apply (D _ _ (1.132)) in H; [|lra|lra].
  apply (D _ _ (1.2814)) in H; [|lra|lra]. apply (D _ _ (1.6419)) in H; [|lra|lra]. apply (D _ _ (2.6958)) in H; [|lra|lra].
  replace (/ 64 + / 64 + (/ 64 + / 64) + (/ 64 + / 64 + (/ 64 + / 64)) + (/ 64 + / 64 + (/ 64 + / 64) + (/ 64 + / 64 + (/ 64 + / 64)))) with (/ 4) in H by lra.
  match type of H with _ <= exp ?x => replace x with 1 in H by lra end. lra.
Qed.
Lemma decay x k : 0 <= x <= 1 -> 21 <= x * INR k -> (1 - x) ^ k <= 1.37 / 10 ^ 9.
Proof.
  intros Hx Hk. apply Rle_trans with (exp (Ropp 21)).
  - apply Rle_trans with (exp (- x) ^ k); [apply pow_incr; pose proof (exp_ineq1_le (- x)); lra|].
    assert (forall n, exp (- x) ^ n = exp (- (x * INR n))) as E.
    { induction n as [|n IH]; [rewrite Rmult_0_r, Ropp_0, exp_0; reflexivity|]. rewrite S_INR. cbn [pow]. rewrite IH, <- exp_plus. f_equal. ring. }
    rewrite E. destruct (Rle_lt_or_eq_dec _ _ Hk) as [L| <-]; [|right; f_equal; ring]. left. apply exp_increasing. lra.
  - rewrite exp_Ropp. assert (exp 1 ^ 21 = exp 21) as <-.
    { assert (forall n, exp 1 ^ n = exp (INR n)) as E. { induction n as [|n IH]; [change (INR 0) with 0; rewrite exp_0; reflexivity|]. rewrite S_INR. cbn [pow]. rewrite IH, <- exp_plus. f_equal. ring. }
      rewrite E. f_equal. rewrite INR_IZR_INZ. reflexivity. }
    assert (2.69 ^ 21 <= exp 1 ^ 21) as H by (apply pow_incr; pose proof e_bound; lra). apply Rle_trans with (/ 2.69 ^ 21); [apply Rinv_le_contravar; [|exact H]; lra|lra].
Qed.

Lemma pole_size r2 t k : 0 <= r2 < 1 -> 0 < t <= 0.0122 -> 0 <= k <= 0.00004 -> (1 - r2 * r2) * (1 + t + k) = 2 * t -> 1 - r2 <= 2 * t /\ 0.9875 * t <= 1 - r2.
Proof.
  intros Hr Ht Hk E. set (p := 1 - r2 * r2) in *. assert (p = (1 - r2) * (1 + r2)) as Ep by (unfold p; ring). clearbody p. assert (0 <= p) as P0 by nra.
  assert (p <= 2 * t) by (rewrite <- E; nra). assert (2 * t <= p * 1.01224) by (rewrite <- E; apply Rmult_le_compat_l; lra). split; nra.
Qed.
Lemma growth_size r2 x t k : 0.9756 <= r2 < 1 -> x = 1 - r2 -> 0 < t <= 0.0122 -> x <= 2 * t -> t <= 1.9988 * k -> let rho := (9 / 10 + / 10 * r2) / r2 in
  1 <= rho /\ rho - 1 <= 3.69 * k /\ rho <= 1.0226 /\ 1 - r2 * rho = / 10 * (1 - r2) /\ / rho <= 1 - 0.9 * x.
Proof.
  intros Hr Hx Ht Hxt Htk rho. assert (rho = 1 + 9 / 10 * x / r2) as E by (unfold rho; rewrite Hx; field; lra).
  assert (/ r2 <= / 0.9756) as I by (apply Rinv_le_contravar; lra). assert (1 <= / r2) as I1 by (rewrite <- Rinv_1 at 1; apply Rinv_le_contravar; lra).
  assert (0.9 * x <= 9 / 10 * x / r2) as A by (rewrite <- (Rmult_1_r (0.9 * x)) at 1; replace (9 / 10 * x) with (0.9 * x) by lra; unfold Rdiv; apply Rmult_le_compat_l; lra).
  assert (9 / 10 * x / r2 <= 9 / 10 * x / 0.9756) as B by (unfold Rdiv at 1 3; apply Rmult_le_compat_l; lra).
  repeat split; try lra.
  - unfold rho. field. lra.
  - assert (rho * r2 = 9 / 10 + / 10 * r2) as F by (unfold rho; field; lra). apply Rmult_le_reg_l with rho; [lra|]. rewrite Rinv_r by lra. clear - Hx F Hr E A. assert (0 <= rho - 1) by lra. clear E A. clearbody rho. nra.
Qed.
Section Rate.
Variable rate : N.
Hypothesis HR : audio_rate rate.
Let r := IZR (Z.of_N rate).
Let c := coeff_inputsR r.
Let b := fst (coefficientsR c).
Let a := snd (coefficientsR c).
Lemma tail_factor : exists rho x, 1 <= rho /\ 0 <= x <= 1 /\ / rho <= 1 - x /\ 210.4 <= x * r /\
  forall (X W : list R) M, 0 <= M -> (forall n, Rabs (h X n) <= M * rho ^ n) -> (forall n, h X n = conv 1 (v1 a) (v2 a) (v3 a) (v4 a) W n) ->
    Rabs (conv (v0 b) (v1 b) (v2 b) (v3 b) (v4 b) W 0) <= 720 * M.
Proof.
  pose proof (audio_real rate HR) as (R1 & R2). fold r in R1, R2. pose proof PI_digits as PD.
  destruct (input_facts rate) as (Pr & Q1 & Q2 & V1 & V2). fold r in Pr, Q1, Q2, V1, V2. fold c in Pr, Q1, Q2, V1, V2.
  destruct (tangents rate HR) as ((X1 & X2) & (Y1 & Y2) & X3 & Y3). cbv zeta in *. fold r in X1, X2, X3, Y1, Y2, Y3. fold c in X1, X2, Y1, Y2.
  pose proof (shelf_ro rate HR) as RO1. pose proof (high_ro rate HR) as RO2. fold r in RO1, RO2. fold c in RO1, RO2.
  set (th2 := PI * 38.13547087602444 / r) in *. set (th1 := PI * 1681.974450955533 / r) in *.
  assert (th1 = 1681.974450955533 / 38.13547087602444 * th2) as Eth by (unfold th1, th2; field; lra).
  assert (c_K2 c <= 1.01 * th2) as Y4.
  { change (c_K2 c) with (tan th2). assert (th2 <= 0.0062) as T by lra. pose proof (tan_poly th2 ltac:(lra)) as (_ & T2). assert (th2 ^ 2 <= 0.0001) by nra. assert (0 <= th2 ^ 2) by nra. assert (th2 ^ 4 <= 0.0001) by (replace (th2 ^ 4) with (th2 ^ 2 * th2 ^ 2) by ring; nra). nra. }
  assert (119.8 <= th2 * r) as Tr by (unfold th2; unfold Rdiv; rewrite Rmult_assoc, Rinv_l by lra; lra).
  destruct (section_poles (c_K1 c) (c_Q1 c) ltac:(lra) ltac:(rewrite Q1; lra)) as (c1 & d1 & r1 & m1 & S1).
  destruct (section_poles (c_K2 c) (c_Q2 c) ltac:(lra) ltac:(rewrite Q2; lra)) as (c2 & d2 & r2 & m2 & S2).
  pose proof (p_r _ _ _ _ _ _ S1) as (A1 & A2). pose proof (p_r _ _ _ _ _ _ S2) as (B1 & B2).
  pose proof (p_a2 _ _ _ _ _ _ S2) as E2. pose proof (p_gap _ _ _ _ _ _ S1) as GP.
  pose proof (p_ratio _ _ _ _ _ _ S1 1.459 ltac:(lra) RO1) as F1. pose proof (p_ratio _ _ _ _ _ _ S2 1.001 ltac:(lra) RO2) as F2.
  pose proof (p_m _ _ _ _ _ _ S1) as M1. pose proof (p_m _ _ _ _ _ _ S2) as M2.
  set (K1 := c_K1 c) in *. set (K2 := c_K2 c) in *. set (t := K2 / c_Q2 c) in *.
  assert (t = K2 / 0.5003270373238773) as Et by (unfold t; now rewrite Q2). assert (0 < K2) by lra. assert (0 < K1) by lra.
  assert (1.978 * th2 <= t <= 0.0122) as T1 by (rewrite Et; lra). assert (t <= 1.9988 * K2) as T2 by (rewrite Et; lra).
  assert (0 <= K2 * K2 <= 0.00004) as KK by (split; [apply Rmult_le_pos; lra|]; apply Rle_trans with (0.0061 * 0.0061); [apply Rmult_le_compat; lra|lra]).
  assert ((1 - r2 * r2) * (1 + t + K2 * K2) = 2 * t) as E3 by (rewrite <- E2; field; lra).
  destruct (pole_size r2 t (K2 * K2) ltac:(lra) ltac:(lra) KK E3) as (U3 & U4). set (x := 1 - r2) in *. assert (0.9756 <= r2) as U5 by (unfold x in U3; lra).
  exists ((9 / 10 + / 10 * r2) / r2), (0.9 * x). destruct (growth_size r2 x t K2 ltac:(lra) eq_refl ltac:(lra) U3 T2) as (P1 & P2 & P3 & P4 & P10). cbv zeta in *. set (rho := (9 / 10 + / 10 * r2) / r2) in *.
  set (D := 1 + K1 / c_Q1 c + K1 * K1) in *.
  assert (0 < D <= 1.4161) as DD.
  { unfold D. rewrite Q1. assert (0 <= K1 * K1 <= 0.0625) by (split; [apply Rmult_le_pos; lra|]; apply Rle_trans with (0.25 * 0.25); [apply Rmult_le_compat; lra|lra]). assert (0 <= K1 / 0.7071752369554196 <= 0.3536) by lra. lra. }
  assert (0.998 * K1 <= 1 - r1) as P5.
  { apply Rmult_le_compat_r with (r := (1 - r1) * K1) in GP; [|apply Rmult_le_pos; lra]. replace (/ (1 - r1) * ((1 - r1) * K1)) with K1 in GP by (field; lra).
    replace (c_Q1 c * D / K1 * ((1 - r1) * K1)) with (c_Q1 c * D * (1 - r1)) in GP by (field; lra). rewrite Q1 in GP. assert (0.7071752369554196 * D * (1 - r1) <= 1.00144 * (1 - r1)) by (apply Rmult_le_compat_r; lra). lra. }
  assert (rho - 1 <= (1 - r1) / 10) as P6 by lra.
  assert (0.9 * (1 - r1) <= 1 - r1 * rho) as P7 by (clear - A1 A2 P1 P6; nra).
  assert (/ (1 - r1 * rho) <= 10 / 9 * / (1 - r1)) as P8.
  { replace (10 / 9 * / (1 - r1)) with (/ (9 / 10 * (1 - r1))) by (field; lra). apply Rinv_le_contravar; lra. }
  assert (/ (1 - r2 * rho) = 10 * / (1 - r2)) as P9 by (rewrite P4; field; lra).
  assert (0 < / (1 - r1)) as I1 by (apply Rinv_0_lt_compat; lra). assert (0 < / (1 - r2)) as I2 by (apply Rinv_0_lt_compat; lra).
  assert (m1 * rho * / (1 - r1 * rho) <= 1.66) as G1.
  { apply Rle_trans with (m1 * rho * (10 / 9 * / (1 - r1))); [apply Rmult_le_compat_l; [apply Rmult_le_pos; lra|auto]|].
    replace (m1 * rho * (10 / 9 * / (1 - r1))) with (10 / 9 * rho * (m1 * / (1 - r1))) by (field; lra). assert (0 <= m1 * / (1 - r1)) by (apply Rmult_le_pos; lra). apply Rle_trans with (10 / 9 * 1.0226 * 1.459); [|lra]. apply Rmult_le_compat; lra. }
  assert (m2 * rho * / (1 - r2 * rho) <= 10.24) as G2.
  { unfold x in F2. rewrite P9. replace (m2 * rho * (10 * / (1 - r2))) with (10 * rho * (m2 * / (1 - r2))) by ring. assert (0 <= m2 * / (1 - r2)) by (apply Rmult_le_pos; lra). apply Rle_trans with (10 * 1.0226 * 1.001); [|lra]. apply Rmult_le_compat; lra. }
  split; [exact P1|]. split; [lra|]. split; [exact P10|].
  split; [apply Rle_trans with (0.9 * (0.9875 * 1.978) * (th2 * r)); [lra|]; replace (0.9 * (0.9875 * 1.978) * (th2 * r)) with (0.9 * (0.9875 * 1.978 * th2) * r) by ring; apply Rmult_le_compat_r; lra|].
  intros X W M HM HX TX. pose proof Vh_digits as VD.
  pose proof (whole_rho rho P1 c Pr ltac:(fold K1; lra) ltac:(rewrite Q1; lra) c1 d1 r1 m1 c2 d2 r2 m2 1.66 10.24 (10 / 9) S1 S2 ltac:(lra) ltac:(lra) G1 G2
    ltac:(fold K1 D; lra) ltac:(rewrite V1; lra) X W M HM HX TX) as Fin. fold b in Fin.
  assert (gain_rho rho c 1.66 10.24 (10 / 9) <= 720) as GG.
  { unfold gain_rho. fold K1 D. rewrite Q1, V1, V2. pose proof Vb_upper as VU. pose proof Vb_digits as VB. assert (1.258 <= Vb) by (clear - VD VU VB; nra).
    assert (Rabs (Vb - Vh) <= 0.327) by (apply Rabs_le; lra). assert (Rabs (1 - Vh) <= 0.585) by (apply Rabs_le; lra).
    clearbody D. pose proof (Rabs_pos (Vb - Vh)). pose proof (Rabs_pos (1 - Vh)). set (v := Rabs (Vb - Vh)) in *. set (w := Rabs (1 - Vh)) in *. clearbody v w.
    assert (w * D <= 0.585 * 1.4161) by (apply Rmult_le_compat; lra). assert (0 <= w * D) by (apply Rmult_le_pos; lra).
    assert ((1 + rho) * (1 + rho) <= 2.0226 * 2.0226) by (apply Rmult_le_compat; lra). assert (0 <= (1 + rho) * (1 + rho)) by nra.
    assert (w * D * ((1 + rho) * (1 + rho)) <= 0.585 * 1.4161 * (2.0226 * 2.0226)) by (apply Rmult_le_compat; lra).
    assert (v * (1 + rho) <= 0.327 * 2.0226) by (apply Rmult_le_compat; lra).
    replace (10 / 9 * v * (1 + 1.66) * (1 + rho)) with (10 / 9 * 2.66 * (v * (1 + rho))) by lra.
    replace (10 / 9 * (10 / 9) * w * (0.7071752369554196 * 0.7071752369554196 * D) * ((1 + rho) * (1 + rho))) with (10 / 9 * (10 / 9) * (0.7071752369554196 * 0.7071752369554196) * (w * D * ((1 + rho) * (1 + rho)))) by lra.
    lra. }
  eapply Rle_trans; [exact Fin|]. apply Rmult_le_compat_r; auto.
Qed.
(** a tenth of a second after the input ends *)
Lemma rev_repeats {A} (z : A) n : rev (repeat z n) = repeat z n.
Proof. induction n as [|n IH]; [reflexivity|]. cbn [repeat rev]. rewrite IH. symmetry. apply repeat_cons. Qed.
Lemma forgets xs M k m : 0 <= M -> (forall x, In x xs -> Rabs x <= M) -> 0.0999 * r <= INR k ->
  forall y, In y (skipn (length xs + k) (outputsR b a (xs ++ repeat 0 m))) -> Rabs y <= M / 10 ^ 6.
Proof.
  intros HM HX Hk y Hy. apply In_nth with (d := 0) in Hy. destruct Hy as (i & Hi & <-).
  rewrite skipn_length in Hi. assert (length (outputsR b a (xs ++ repeat 0 m)) = (length xs + m)%nat) as LO by (unfold outputsR; rewrite filter_run_length, app_length, repeat_length; reflexivity).
  rewrite LO in Hi. assert (nth i (skipn (length xs + k) (outputsR b a (xs ++ repeat 0 m))) 0 = nth (length xs + k + i) (outputsR b a (xs ++ repeat 0 m)) 0) as ->.
  { clear. revert i. generalize (length xs + k)%nat, (outputsR b a (xs ++ repeat 0 m)). induction n as [|n IH]; intros [|z l] i; cbn [skipn Nat.add nth]; auto. now destruct i. }
  set (q := (k + i + 1)%nat). set (in' := xs ++ repeat 0 q).
  assert (nth (length xs + k + i) (outputsR b a (xs ++ repeat 0 m)) 0 = nth (length xs + k + i) (outputsR b a in') 0) as ->.
  { assert (xs ++ repeat 0 m = in' ++ repeat 0 (m - q)) as ->. { unfold in'. rewrite <- app_assoc, <- repeat_app. do 2 f_equal. unfold q. lia. }
    rewrite Kweight_proofs.outputs_app. rewrite app_nth1; [reflexivity|]. unfold outputsR. rewrite filter_run_length. unfold in'. rewrite app_length, repeat_length. unfold q. lia. }
  destruct (tracks_run b a in' rest [] [] [] (tracks_rest b a)) as (W & _ & _ & _ & _ & TX & TY). rewrite !app_nil_r in TX, TY.
  assert (length (outputsR b a in') = (length xs + q)%nat) as LI by (unfold outputsR; rewrite filter_run_length; unfold in'; rewrite app_length, repeat_length; reflexivity).
  assert (nth (length xs + k + i) (outputsR b a in') 0 = h (rev (outputsR b a in')) 0) as ->.
  { unfold h. rewrite rev_nth by (rewrite LI; unfold q; lia). f_equal. rewrite LI. unfold q. lia. }
  unfold outputsR. rewrite TY. destruct tail_factor as (rho & x & P1 & P2 & P3 & P4 & H).
  assert (0 < rho ^ k) as Pk by (apply pow_lt; lra).
  pose proof (H (rev in') W (M * / rho ^ k)) as G. eapply Rle_trans; [apply G|].
  - apply Rmult_le_pos; auto. left. now apply Rinv_0_lt_compat.
  - intros n. unfold h, in'. rewrite rev_app_distr, (rev_repeats 0). destruct (lt_dec n q) as [Ln|Ln].
    + rewrite app_nth1 by (rewrite repeat_length; auto). rewrite nth_repeat, Rabs_R0. apply Rmult_le_pos; [apply Rmult_le_pos; auto; left; now apply Rinv_0_lt_compat|]. apply pow_le. lra.
    + rewrite app_nth2 by (rewrite repeat_length; lia). rewrite repeat_length. apply Rle_trans with M.
      * destruct (lt_dec (n - q) (length xs)) as [L2|L2]; [|rewrite nth_overflow, Rabs_R0 by (rewrite rev_length; lia); auto]. apply HX. apply in_rev. apply nth_In. now rewrite rev_length.
      * replace n with (k + (n - k))%nat by (unfold q in Ln; lia). rewrite pow_add. replace (M * / rho ^ k * (rho ^ k * rho ^ (n - k))) with (M * rho ^ (n - k)) by (field; lra).
        pose proof (pow_R1_Rle rho (n - k) P1). nra.
  - exact TX.
  - assert (/ rho ^ k <= 1.37 / 10 ^ 9) as Dk.
    { rewrite <- pow_inv. apply Rle_trans with ((1 - x) ^ k); [apply pow_incr; split; auto; left; apply Rinv_0_lt_compat; lra|]. apply decay; auto.
      pose proof (audio_real rate HR) as (R1 & R2). fold r in R1, R2. assert (x * (0.0999 * r) <= x * INR k) by (apply Rmult_le_compat_l; lra). lra. }
    assert (M * / rho ^ k <= M * (1.37 / 10 ^ 9)) by (apply Rmult_le_compat_l; auto). lra.
Qed.
End Rate.
(** * Leaving out what went before *)
Lemma map2_zeros_r : forall l n, length l = n -> map2 Rplus l (repeat 0 n) = l.
Proof. induction l as [|x l IH]; intros [|n] H; try discriminate; [reflexivity|]. cbn [repeat map2]. rewrite IH by (cbn in H; congruence). now rewrite Rplus_0_r. Qed.
Lemma map2_zeros_l : forall l n, length l = n -> map2 Rplus (repeat 0 n) l = l.
Proof. induction l as [|x l IH]; intros [|n] H; try discriminate; [reflexivity|]. cbn [repeat map2]. rewrite IH by (cbn in H; congruence). now rewrite Rplus_0_l. Qed.
Lemma map2_app (f : R -> R -> R) : forall l l' m m', length l = length m -> map2 f (l ++ l') (m ++ m') = map2 f l m ++ map2 f l' m'.
Proof. induction l as [|x l IH]; intros l' [|y m] m' H; try discriminate; [reflexivity|]. cbn [app map2]. rewrite IH by (cbn in H; congruence). reflexivity. Qed.
Lemma skipn_map2 (f : R -> R -> R) n : forall l m, skipn n (map2 f l m) = map2 f (skipn n l) (skipn n m).
Proof. induction n as [|n IH]; intros [|x l] [|y m]; cbn [skipn map2]; auto. now destruct (skipn n l). Qed.
Lemma settled rate : audio_rate rate -> forall past seed xs M, 0 <= M -> (forall x, In x past -> Rabs x <= M) -> past = [] \/ 0.0999 * IZR (Z.of_N rate) <= INR (length seed) ->
  let (b, a) := coefficientsR (coeff_inputsR (IZR (Z.of_N rate))) in
  Forall2 (fun Y Z => Rabs (Y - Z) <= M / 10 ^ 6) (skipn (length seed) (outputsR b a (seed ++ xs))) (skipn (length past + length seed) (outputsR b a (past ++ seed ++ xs))).
Proof.
  intros HR past seed xs M HM HX Hk. pose proof (forgets rate HR past M (length seed) (length (seed ++ xs)) HM HX) as F.
  destruct (coefficientsR (coeff_inputsR (IZR (Z.of_N rate)))) as (b, a). cbn [fst snd] in F.
  assert (forall z : list R, length (outputsR b a z) = length z) as LO by (intros; unfold outputsR; apply filter_run_length).
  assert (0 <= M / 10 ^ 6) as H0 by (cbn; lra).
  destruct Hk as [->|Hk].
  - cbn [length Nat.add app]. generalize (skipn (length seed) (outputsR b a (seed ++ xs))). induction l as [|y l IH]; constructor; auto. unfold Rminus. rewrite Rplus_opp_r, Rabs_R0. exact H0.
  - specialize (F Hk). set (tl := seed ++ xs) in *.
    assert (past ++ tl = map2 Rplus (past ++ repeat 0 (length tl)) (repeat 0 (length past) ++ tl)) as ->.
    { rewrite map2_app by (now rewrite repeat_length). rewrite map2_zeros_r by auto. now rewrite map2_zeros_l. }
    rewrite Heard_proofs.outputs_sum by (rewrite !app_length, !repeat_length; reflexivity). rewrite Heard_proofs.outputs_delay, skipn_map2.
    assert (skipn (length past + length seed) (repeat 0 (length past) ++ outputsR b a tl) = skipn (length seed) (outputsR b a tl)) as ->.
    { rewrite skipn_app, repeat_length, skipn_all2 by (rewrite repeat_length; lia). cbn [app]. f_equal. lia. }
    assert (length (skipn (length past + length seed) (outputsR b a (past ++ repeat 0 (length tl)))) = length (skipn (length seed) (outputsR b a tl))) as L.
    { rewrite !skipn_length, !LO, app_length, repeat_length. lia. }
    revert F L. generalize (skipn (length seed) (outputsR b a tl)), (skipn (length past + length seed) (outputsR b a (past ++ repeat 0 (length tl)))). clear.
    induction l as [|y l IH]; intros [|z l0] F L; try discriminate L; cbn [map2]; constructor.
    + replace (y - (z + y)) with (- z) by ring. rewrite Rabs_Ropp. apply F. now left.
    + apply IH; [|cbn in L; congruence]. intros w Hw. apply F. now right.
Qed.
