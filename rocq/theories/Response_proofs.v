(** The response of the weighting filter to sinusoids. *)
From Coq Require Import List Arith Lia Reals Lra.
From Verif Require Import Filter Filter_proofs Spec_real Spec_filter Kweight_proofs Spec_response.
Import ListNotations.
Local Open Scope R_scope.

(** * Decay *)
(** a stable section stays stable when its poles grow a little *)
Lemma room a1 a2 : -1 < a2 < 1 -> - (1 + a2) < a1 < 1 + a2 -> exists r0, 1 < r0 /\ forall r, 1 <= r <= r0 -> -1 < a2 * r ^ 2 < 1 /\ - (1 + a2 * r ^ 2) < a1 * r < 1 + a2 * r ^ 2.
Proof.
  intros H1 H2. set (m := Rmin (1 - Rabs a2) (1 + a2 - Rabs a1)).
  assert (0 < m) as Hm. { unfold m. apply Rmin_glb_lt; [|]; unfold Rabs; destruct (Rcase_abs a1), (Rcase_abs a2); lra. }
  assert (m <= 1 - Rabs a2 /\ m <= 1 + a2 - Rabs a1) as (M1 & M2) by (split; [apply Rmin_l|apply Rmin_r]).
  assert (Rabs a1 <= 2 /\ Rabs a2 <= 1) as (A1 & A2) by (split; apply Rabs_le; lra).
  exists (1 + m / 10). split; [lra|]. intros r Hr. assert (exists e, r = 1 + e /\ 0 <= e <= m / 10) as (e & -> & He) by (exists (r - 1); lra). clear Hr.
  assert (m <= 1) as Hm1 by (pose proof (Rabs_pos a2); lra).
  set (d := 2 * e + e * e). assert (0 <= d <= 3 * m / 10) as Hd by (unfold d; nra).
  assert ((1 + e) ^ 2 = 1 + d) as -> by (unfold d; ring).
  assert (Rabs (a2 * d) <= d) as D2. { rewrite Rabs_mult, (Rabs_pos_eq d) by lra. pose proof (Rabs_pos a2). nra. }
  assert (Rabs (a1 * e) <= 2 * e) as D1. { rewrite Rabs_mult, (Rabs_pos_eq e) by lra. pose proof (Rabs_pos a1). nra. }
  replace (a2 * (1 + d)) with (a2 + a2 * d) by ring. replace (a1 * (1 + e)) with (a1 + a1 * e) by ring.
  revert M1 M2 D1 D2. unfold Rabs. destruct (Rcase_abs a1), (Rcase_abs a2), (Rcase_abs (a1 * e)), (Rcase_abs (a2 * d)); intros; split; split; lra.
Qed.

(** what remains of the first four values of a sequence that follows the recursion of the filter without input *)
Lemma decay c : proper c -> 0 < c_K1 c -> 0 < c_K2 c -> let a := snd (coefficientsR c) in
  exists G q, 0 <= G /\ 0 < q < 1 /\ forall (d : nat -> R) M,
    (forall n, v0 a * d (n + 4)%nat + v1 a * d (n + 3)%nat + v2 a * d (n + 2)%nat + v3 a * d (n + 1)%nat + v4 a * d n = 0) ->
    (forall n, (n < 4)%nat -> Rabs (d n) <= M) -> forall n, Rabs (d n) <= G * M * q ^ n.
Proof.
  intros HC K1 K2 a. pose proof (sections_ok c HC) as (_ & _ & _ & A0 & A1 & A2 & _ & _ & _ & R0 & R1 & R2).
  pose proof HC as (_ & _ & _ & HQ & HQ'). destruct (jury _ _ K1 HQ) as (J1 & J2). destruct (jury _ _ K2 HQ') as (J3 & J4). rewrite <- A1, <- A2 in *. rewrite <- R1, <- R2 in *.
  set (s := filter_sections arR c) in *. destruct (room _ _ J1 J2) as (r1 & Hr1 & X1). destruct (room _ _ J3 J4) as (r2 & Hr2 & X2).
  set (r := Rmin r1 r2). assert (1 < r) as Hr by (apply Rmin_glb_lt; auto).
  destruct (X1 r ltac:(split; [lra|apply Rmin_l])) as (Y1 & Y2). destruct (X2 r ltac:(split; [lra|apply Rmin_r])) as (Y3 & Y4). clearbody r. clear X1 X2 r1 r2 Hr1 Hr2.
  destruct (section_bounded _ _ Y1 Y2) as (G1 & HG1 & B1). destruct (section_bounded _ _ Y3 Y4) as (G2 & HG2 & B2).
  assert (v0 a = 1 /\ v1 a = ra1 s + pa1 s /\ v2 a = ra2 s + pa1 s * ra1 s + pa2 s /\ v3 a = pa1 s * ra2 s + pa2 s * ra1 s /\ v4 a = pa2 s * ra2 s) as (E0 & E1 & E2 & E3 & E4).
  { unfold a, coefficientsR. fold s. cbn [filter_product snd v0 v1 v2 v3 v4 arR ar_add ar_mul]. rewrite A0, R0. repeat split; ring. }
  clearbody a. clearbody s. clear A0 A1 A2 R0 R1 R2 J1 J2 J3 J4.
  set (S := Rabs (v0 a) + Rabs (v1 a * r) + Rabs (v2 a * r ^ 2) + Rabs (v3 a * r ^ 3) + Rabs (v4 a * r ^ 4)).
  assert (0 <= S) as HS. { unfold S. pose proof (Rabs_pos (v0 a)). pose proof (Rabs_pos (v1 a * r)). pose proof (Rabs_pos (v2 a * r ^ 2)). pose proof (Rabs_pos (v3 a * r ^ 3)). pose proof (Rabs_pos (v4 a * r ^ 4)). lra. }
  assert (0 < r ^ 3) as Hr3 by (apply pow_lt; lra).
  exists (G2 * (G1 * (S * r ^ 3))), (/ r). split. { repeat apply Rmult_le_pos; auto; lra. }
  split. { split; [apply Rinv_0_lt_compat; lra|]. rewrite <- Rinv_1. apply Rinv_lt_contravar; lra. }
  intros d M HD HM N. assert (0 <= M) as HM0. { pose proof (HM 0%nat ltac:(lia)). pose proof (Rabs_pos (d 0%nat)). lra. }
  set (F := fun n => if (n <=? N)%nat then d (N - n)%nat * r ^ (N - n) else 0).
  set (U := fun n => F n + ra1 s * r * F (n + 1)%nat + ra2 s * r ^ 2 * F (n + 2)%nat).
  set (g := fun n => U n + pa1 s * r * U (n + 1)%nat + pa2 s * r ^ 2 * U (n + 2)%nat).
  assert (forall n, (N + 1 <= n)%nat -> F n = 0) as HF. { intros n Hn. unfold F. destruct (Nat.leb_spec n N); [lia|reflexivity]. }
  assert (forall n, g n = v0 a * F n + v1 a * r * F (n + 1)%nat + v2 a * r ^ 2 * F (n + 2)%nat + v3 a * r ^ 3 * F (n + 3)%nat + v4 a * r ^ 4 * F (n + 4)%nat) as Hg.
  { intros n. unfold g, U. rewrite E0, E1, E2, E3, E4. rewrite <- !Nat.add_assoc. cbn [Nat.add]. ring. }
  assert (forall n, Rabs (g n) <= S * r ^ 3 * M) as BG.
  { intros n. rewrite Hg. destruct (le_lt_dec (n + 4) N) as [L|L].
    - unfold F. rewrite !(proj2 (Nat.leb_le _ _)) by lia. destruct (Nat.le_exists_sub (n + 4) N L) as (j & -> & _).
      replace (j + (n + 4) - n)%nat with (j + 4)%nat by lia. replace (j + (n + 4) - (n + 1))%nat with (j + 3)%nat by lia. replace (j + (n + 4) - (n + 2))%nat with (j + 2)%nat by lia.
      replace (j + (n + 4) - (n + 3))%nat with (j + 1)%nat by lia. replace (j + (n + 4) - (n + 4))%nat with j by lia.
      match goal with |- Rabs ?x <= _ => replace x with (r ^ (j + 4) * (v0 a * d (j + 4)%nat + v1 a * d (j + 3)%nat + v2 a * d (j + 2)%nat + v3 a * d (j + 1)%nat + v4 a * d j)) by (rewrite !pow_add; ring) end.
      rewrite HD, Rmult_0_r, Rabs_R0. repeat apply Rmult_le_pos; auto; lra.
    - assert (forall k, (n <= k)%nat -> Rabs (F k) <= r ^ 3 * M) as BF.
      { intros k Hk. unfold F. destruct (Nat.leb_spec k N) as [Lk|_]; [|rewrite Rabs_R0; apply Rmult_le_pos; lra].
        assert (r ^ (N - k) <= r ^ 3) by (apply Rle_pow; [lra|lia]). assert (0 < r ^ (N - k)) by (apply pow_lt; lra). specialize (HM (N - k)%nat ltac:(lia)).
        rewrite Rabs_mult, (Rabs_pos_eq (r ^ _)) by lra. pose proof (Rabs_pos (d (N - k)%nat)). rewrite (Rmult_comm (r ^ 3)). apply Rmult_le_compat; lra. }
      assert (forall t k, (n <= k)%nat -> Rabs (t * F k) <= Rabs t * (r ^ 3 * M)) as HT by (intros; rewrite Rabs_mult; apply Rmult_le_compat_l; [apply Rabs_pos|auto]).
      pose proof (HT (v0 a) n ltac:(lia)). pose proof (HT (v1 a * r) (n + 1)%nat ltac:(lia)). pose proof (HT (v2 a * r ^ 2) (n + 2)%nat ltac:(lia)). pose proof (HT (v3 a * r ^ 3) (n + 3)%nat ltac:(lia)). pose proof (HT (v4 a * r ^ 4) (n + 4)%nat ltac:(lia)).
      eapply Rle_trans; [apply Rabs_5|]. unfold S. lra. }
  assert (forall n, Rabs (U n) <= G1 * (S * r ^ 3 * M)) as BU.
  { apply (B1 U g (N + 1)%nat); auto. intros n Hn. unfold U. rewrite !HF by lia. ring. }
  pose proof (B2 F U (N + 1)%nat _ HF (fun n => eq_refl) BU 0%nat) as HN. unfold F in HN. cbn [Nat.leb] in HN. rewrite Nat.sub_0_r in HN.
  assert (0 < r ^ N) as HrN by (apply pow_lt; lra). rewrite Rabs_mult, (Rabs_pos_eq (r ^ N)) in HN by lra. rewrite pow_inv.
  apply Rmult_le_reg_r with (r ^ N); auto. rewrite (Rmult_assoc _ (/ r ^ N)), Rinv_l by lra. lra.
Qed.

(** * Steady state *)
Lemma section_re k y D C S : C * C + S * S = 1 -> D <> 0 -> D = 1 + y + k * k ->
  (1 + (1 - y + k * k) / D) * (C * C - S * S) + 2 * (k * k - 1) / D = 4 / D * (k * k * (C * C) - 1 * (S * S)).
Proof. intros E HD ED. assert (1 + (1 - y + k * k) / D = (2 + 2 * (k * k)) / D) as -> by (rewrite ED in HD |- *; field; auto). replace (C * C) with (1 - S * S) by lra. field. auto. Qed.
Lemma section_im k q D S C : q <> 0 -> D <> 0 -> D = 1 + k / q + k * k -> (1 - (1 - k / q + k * k) / D) * (2 * (S * C)) = 4 / D * (S * C * / q * k).
Proof.
  intros Hq HD ED. assert (1 - (1 - k / q + k * k) / D = 2 * (k / q) / D) as ->. { apply Rmult_eq_reg_r with D; auto. field_simplify; auto. rewrite ED. field. auto. }
  field. auto.
Qed.
(** [C + i S] is [exp (i w / 2)]; the numerator and the denominator at [exp (- i w)], times [exp (2 i w)] *)
Section Steady.
Variable c : coeff_inputs R.
Hypothesis HC : proper c.
Hypothesis HK1 : 0 < c_K1 c.
Hypothesis HK2 : 0 < c_K2 c.
Variable x : R.
Hypothesis HX : cos x <> 0.
Let b := fst (coefficientsR c).
Let a := snd (coefficientsR c).
Let C := cos x. Let S := sin x.
Let d1 := 1 + c_K1 c / c_Q1 c + c_K1 c * c_K1 c.
Let d2 := 1 + c_K2 c / c_Q2 c + c_K2 c * c_K2 c.
(** one section *)
Definition s_re (k y : R) : R := k * k * (C * C) - y * (S * S).
Definition s_im (k y : R) : R := S * C * y * k.
Let nr := s_re (c_K1 c) (c_Vh c). Let ni := s_im (c_K1 c) (c_Vb c / c_Q1 c).
Let pr := s_re (c_K1 c) 1. Let pi := s_im (c_K1 c) (/ c_Q1 c).
Let rr := s_re (c_K2 c) 1. Let ri := s_im (c_K2 c) (/ c_Q2 c).
Lemma CS : C * C + S * S = 1.
Proof. unfold C, S. pose proof (sin2_cos2 x) as E. unfold Rsqr in E. lra. Qed.
Lemma angles : cos (2 * x) = C * C - S * S /\ sin (2 * x) = 2 * (S * C) /\
  cos (2 * x + 2 * x) = (C * C - S * S) * (C * C - S * S) - 4 * (S * C) * (S * C) /\ sin (2 * x + 2 * x) = 4 * (S * C) * (C * C - S * S).
Proof. rewrite cos_plus, sin_plus, cos_2a, sin_2a. fold C S. repeat split; ring. Qed.
Definition alpha (v : arr5 R) : R := v2 v + (v1 v + v3 v) * cos (2 * x) + (v0 v + v4 v) * cos (2 * x + 2 * x).
Definition beta (v : arr5 R) : R := (v1 v - v3 v) * sin (2 * x) + (v0 v - v4 v) * sin (2 * x + 2 * x).
Lemma denominator : alpha a = 16 / (d1 * d2) * (pr * rr - pi * ri) /\ beta a = 16 / (d1 * d2) * (pr * ri + pi * rr).
Proof.
  pose proof (sections_ok c HC) as (_ & _ & _ & A0 & A1 & A2 & _ & _ & _ & R0 & R1 & R2). pose proof (d_pos c HC ltac:(lra)) as D1. pose proof (d'_pos c HC ltac:(lra)) as D2. fold d1 in D1, A1, A2. fold d2 in D2, R1, R2.
  pose proof HC as (_ & _ & _ & HQ & HQ'). destruct angles as (Ec & Es & Ec2 & Es2). unfold alpha, beta. rewrite Ec, Es, Ec2, Es2. pose proof CS as E.
  set (s := filter_sections arR c) in *.
  assert (v0 a = 1 /\ v1 a = ra1 s + pa1 s /\ v2 a = ra2 s + pa1 s * ra1 s + pa2 s /\ v3 a = pa1 s * ra2 s + pa2 s * ra1 s /\ v4 a = pa2 s * ra2 s) as (-> & -> & -> & -> & ->).
  { unfold a, coefficientsR. fold s. cbn [filter_product snd v0 v1 v2 v3 v4 arR ar_add ar_mul]. rewrite A0, R0. repeat split; ring. }
  (* each section, times exp (i w) *)
  assert ((1 + pa2 s) * (C * C - S * S) + pa1 s = 4 / d1 * pr) as P1.
  { rewrite A1, A2. apply section_re; auto; lra. }
  assert ((1 - pa2 s) * (2 * (S * C)) = 4 / d1 * pi) as P2 by (rewrite A2; apply section_im; auto; lra).
  assert ((1 + ra2 s) * (C * C - S * S) + ra1 s = 4 / d2 * rr) as P3.
  { rewrite R1, R2. apply section_re; auto; lra. }
  assert ((1 - ra2 s) * (2 * (S * C)) = 4 / d2 * ri) as P4 by (rewrite R2; apply section_im; auto; lra).
  replace (16 / (d1 * d2) * (pr * rr - pi * ri)) with (4 / d1 * pr * (4 / d2 * rr) - 4 / d1 * pi * (4 / d2 * ri)) by (field; lra).
  replace (16 / (d1 * d2) * (pr * ri + pi * rr)) with (4 / d1 * pr * (4 / d2 * ri) + 4 / d1 * pi * (4 / d2 * rr)) by (field; lra).
  rewrite <- P1, <- P2, <- P3, <- P4. set (u := C * C - S * S). set (v := 2 * (S * C)).
  assert (u * u + v * v = 1) as Euv. { unfold u, v. transitivity ((C * C + S * S) * (C * C + S * S)); [ring|rewrite E; ring]. }
  replace (4 * (S * C) * (S * C)) with (v * v) by (unfold v; ring). replace (4 * (S * C) * u) with (2 * u * v) by (unfold v; ring). clearbody u v.
  split; [|ring]. assert (ra2 s + pa1 s * ra1 s + pa2 s = pa1 s * ra1 s + (ra2 s + pa2 s) * (u * u + v * v)) as -> by (rewrite Euv; ring). ring.
Qed.
Lemma numerator : alpha b = - (16 / d1 * (S * S) * nr) /\ beta b = - (16 / d1 * (S * S) * ni).
Proof.
  pose proof (sections_ok c HC) as (P0 & P1 & P2 & _ & _ & _ & B0 & B1 & B2 & _). pose proof (d_pos c HC ltac:(lra)) as D1. fold d1 in D1, P0, P1, P2.
  pose proof HC as (_ & _ & _ & HQ & HQ'). destruct angles as (Ec & Es & Ec2 & Es2). unfold alpha, beta. rewrite Ec, Es, Ec2, Es2. pose proof CS as E.
  set (s := filter_sections arR c) in *.
  assert (v0 b = pb0 s /\ v1 b = pb1 s - 2 * pb0 s /\ v2 b = pb2 s - 2 * pb1 s + pb0 s /\ v3 b = pb1 s - 2 * pb2 s /\ v4 b = pb2 s) as (-> & -> & -> & -> & ->).
  { unfold b, coefficientsR. fold s. cbn [filter_product fst v0 v1 v2 v3 v4 arR ar_add ar_mul]. rewrite B0, B1, B2. repeat split; ring. }
  assert ((pb0 s + pb2 s) * (C * C - S * S) + pb1 s = 4 / d1 * nr) as Q1.
  { rewrite P0, P1, P2. unfold nr, s_re. replace (C * C) with (1 - S * S) by lra. clearbody d1. field. lra. }
  assert ((pb0 s - pb2 s) * (2 * (S * C)) = 4 / d1 * ni) as Q2 by (rewrite P0, P2; unfold ni, s_im; clearbody d1; field; split; lra).
  replace (- (16 / d1 * (S * S) * nr)) with (- 4 * (S * S) * (4 / d1 * nr)) by (field; lra). replace (- (16 / d1 * (S * S) * ni)) with (- 4 * (S * S) * (4 / d1 * ni)) by (field; lra).
  rewrite <- Q1, <- Q2. set (u := C * C - S * S). set (v := 2 * (S * C)).
  assert (u * u + v * v = 1) as Euv. { unfold u, v. transitivity ((C * C + S * S) * (C * C + S * S)); [ring|rewrite E; ring]. }
  assert (- 4 * (S * S) = 2 * u - 2) as -> by (unfold u; lra).
  replace (4 * (S * C) * (S * C)) with (v * v) by (unfold v; ring). replace (4 * (S * C) * u) with (2 * u * v) by (unfold v; ring). clearbody u v.
  split; [|ring]. assert (v * v = 1 - u * u) as -> by lra. ring.
Qed.
Lemma section_nonzero k q : 0 < k -> 0 < q -> 0 < s_re k 1 * s_re k 1 + s_im k (/ q) * s_im k (/ q).
Proof.
  intros Hk Hq. pose proof (Rinv_0_lt_compat _ Hq) as Hi. assert (C <> 0) as HC0 by exact HX. destruct (Req_dec S 0) as [E|N].
  - assert (0 < s_re k 1) by (unfold s_re; rewrite E; pose proof (Rsqr_pos_lt _ HC0) as Z; unfold Rsqr in Z; assert (0 < k * k * (C * C)) by (apply Rmult_lt_0_compat; auto; now apply Rmult_lt_0_compat); lra). pose proof (Rle_0_sqr (s_im k (/ q))) as Y. unfold Rsqr in Y. nra.
  - assert (s_im k (/ q) <> 0) as X. { unfold s_im. apply Rmult_integral_contrapositive_currified; [|lra]. apply Rmult_integral_contrapositive_currified; [|lra]. apply Rmult_integral_contrapositive_currified; auto. }
    pose proof (Rle_0_sqr (s_re k 1)) as Y. pose proof (Rsqr_pos_lt _ X) as Z. unfold Rsqr in Y, Z. lra.
Qed.
Lemma denominator_nonzero : 0 < alpha a * alpha a + beta a * beta a.
Proof.
  destruct denominator as (-> & ->). pose proof HC as (_ & _ & _ & HQ & HQ'). pose proof (section_nonzero _ _ HK1 HQ) as X. fold pr pi in X. pose proof (section_nonzero _ _ HK2 HQ') as Y. fold rr ri in Y.
  pose proof (d_pos c HC ltac:(lra)) as D1. fold d1 in D1. pose proof (d'_pos c HC ltac:(lra)) as D2. fold d2 in D2.
  match goal with |- 0 < ?z => replace z with (16 / (d1 * d2) * (16 / (d1 * d2)) * ((pr * pr + pi * pi) * (rr * rr + ri * ri))) by ring end.
  assert (0 < 16 / (d1 * d2)) as Z by (apply Rdiv_lt_0_compat; [lra|now apply Rmult_lt_0_compat]). apply Rmult_lt_0_compat; apply Rmult_lt_0_compat; auto.
Qed.
Let n2 := alpha a * alpha a + beta a * beta a.
Definition hr : R := (alpha b * alpha a + beta b * beta a) / n2.
Definition hi : R := (beta b * alpha a - alpha b * beta a) / n2.
Definition wave (p q : R) (n : nat) : R := p * cos (2 * x * INR n) + q * sin (2 * x * INR n).
Definition fir (v : arr5 R) (y : nat -> R) (n : nat) : R := v0 v * y (n + 4)%nat + v1 v * y (n + 3)%nat + v2 v * y (n + 2)%nat + v3 v * y (n + 1)%nat + v4 v * y n.
Lemma fir_wave v p q n : let t := 2 * x * INR (n + 2) in
  fir v (wave p q) n = (p * alpha v + q * beta v) * cos t + (q * alpha v - p * beta v) * sin t.
Proof.
  intros t. unfold fir, wave.
  assert (2 * x * INR (n + 4) = t + (2 * x + 2 * x)) as -> by (unfold t; rewrite !plus_INR; cbn [INR]; ring).
  assert (2 * x * INR (n + 3) = t + 2 * x) as -> by (unfold t; rewrite !plus_INR; cbn [INR]; ring).
  assert (2 * x * INR (n + 1) = t - 2 * x) as -> by (unfold t; rewrite !plus_INR; cbn [INR]; ring).
  assert (2 * x * INR n = t - (2 * x + 2 * x)) as -> by (unfold t; rewrite !plus_INR; cbn [INR]; ring).
  fold t. clearbody t. unfold alpha, beta. set (y := 2 * x). clearbody y. set (y2 := y + y). clearbody y2.
  rewrite !cos_plus, !sin_plus, !cos_minus, !sin_minus. ring.
Qed.
Lemma steady p q n : fir a (wave (hr * p + hi * q) (hr * q - hi * p)) n = fir b (wave p q) n.
Proof.
  rewrite !fir_wave. cbv zeta. pose proof denominator_nonzero as X. fold n2 in X.
  assert (hr * alpha a - hi * beta a = alpha b) as Y1. { apply Rmult_eq_reg_r with n2; [|lra]. unfold hr, hi. field_simplify; [|lra..]. unfold n2. ring. }
  assert (hr * beta a + hi * alpha a = beta b) as Y2. { apply Rmult_eq_reg_r with n2; [|lra]. unfold hr, hi. field_simplify; [|lra..]. unfold n2. ring. }
  f_equal; f_equal; rewrite <- Y1, <- Y2; ring.
Qed.
Lemma gain : hr * hr + hi * hi = shelf_power c (tan x / c_K1 c) * high_pass_power c (tan x / c_K2 c).
Proof.
  pose proof denominator_nonzero as X. fold n2 in X.
  assert (hr * hr + hi * hi = (alpha b * alpha b + beta b * beta b) / n2) as ->. { unfold hr, hi. apply Rmult_eq_reg_r with (n2 * n2); [|nra]. field_simplify; [|lra..]. unfold n2. ring. }
  unfold n2 in *. destruct denominator as (E1 & E2). destruct numerator as (E3 & E4). rewrite E1, E2, E3, E4. clear E1 E2 E3 E4 X.
  pose proof HC as (_ & _ & _ & HQ & HQ'). pose proof (section_nonzero _ _ HK1 HQ) as X. fold pr pi in X. pose proof (section_nonzero _ _ HK2 HQ') as Y. fold rr ri in Y.
  pose proof (d_pos c HC ltac:(lra)) as D1. fold d1 in D1. pose proof (d'_pos c HC ltac:(lra)) as D2. fold d2 in D2.
  match goal with |- ?l = _ => transitivity (d2 * d2 * (S * S * (S * S)) * (nr * nr + ni * ni) / ((pr * pr + pi * pi) * (rr * rr + ri * ri))) end.
  { clearbody d1 d2 pr pi rr ri nr ni. field. repeat split; try lra. assert (0 < (pr * pr + pi * pi) * (rr * rr + ri * ri)) by (apply Rmult_lt_0_compat; auto). intros E. lra. }
  unfold shelf_power, high_pass_power, resonance_power, tan. fold S C. assert (C <> 0) as HC0 by exact HX.
  set (u1 := c_K1 c * C). set (u2 := c_K2 c * C). assert (u1 <> 0) as U1 by (apply Rmult_integral_contrapositive_currified; lra). assert (u2 <> 0) as U2 by (apply Rmult_integral_contrapositive_currified; lra).
  replace (S / C / c_K1 c) with (S / u1) by (unfold u1; field; lra). replace (S / C / c_K2 c) with (S / u2) by (unfold u2; field; lra).
  replace (1 + c_K2 c / c_Q2 c + c_K2 c ^ 2) with d2 by (unfold d2; ring).
  assert (pr = u1 * u1 - S * S /\ pi = S * u1 / c_Q1 c /\ nr = u1 * u1 - c_Vh c * (S * S) /\ ni = S * u1 * (c_Vb c / c_Q1 c)) as (-> & -> & -> & ->).
  { unfold pr, pi, nr, ni, s_re, s_im, u1. repeat split; try ring; field; lra. }
  assert (rr = u2 * u2 - S * S /\ ri = S * u2 / c_Q2 c) as (-> & ->) by (unfold rr, ri, s_re, s_im, u2; split; [ring|field; lra]).
  clearbody d2 u1 u2. 
  assert (forall u q, u <> 0 -> q <> 0 -> (1 - (S / u) ^ 2) ^ 2 + (S / u / q) ^ 2 = ((u * u - S * S) * (u * u - S * S) + S * u / q * (S * u / q)) / (u ^ 4)) as R by (intros; field; auto).
  rewrite !R by lra. set (z1 := (u1 * u1 - S * S) * (u1 * u1 - S * S) + _) in *. set (z2 := (u2 * u2 - S * S) * (u2 * u2 - S * S) + _) in *.
  assert (0 < z1 /\ 0 < z2) as (Z1 & Z2). { split; [exact X|exact Y]. } clearbody z1 z2.
  field. repeat split; lra.
Qed.
End Steady.

(** * Response *)
Lemma first_app (x : nat -> R) n m : first (n + m) x = first n x ++ map x (seq n m).
Proof. unfold first. now rewrite seq_app, map_app. Qed.
Lemma first_length (x : nat -> R) n : length (first n x) = n.
Proof. unfold first. now rewrite map_length, seq_length. Qed.
Lemma first_nth (x : nat -> R) n k : (k < n)%nat -> nth k (first n x) 0 = x k.
Proof. intros H. unfold first. rewrite (nth_indep _ 0 (x 0%nat)) by (rewrite map_length, seq_length; auto). rewrite map_nth, seq_nth by auto. reflexivity. Qed.
Lemma outputs_length b a xs : length (outputsR b a xs) = length xs.
Proof. apply filter_run_length. Qed.
Lemma outputs_first b a x n N : (n < N)%nat -> nth n (outputsR b a (first N x)) 0 = nth n (outputsR b a (first (S n) x)) 0.
Proof.
  intros H. destruct (Nat.le_exists_sub (S n) N H) as (j & -> & _). rewrite (Nat.add_comm j), first_app, outputs_app. apply app_nth1. rewrite outputs_length, first_length. lia.
Qed.
Lemma wave_bound x p q n : Rabs (wave x p q n) <= Rabs p + Rabs q.
Proof.
  unfold wave. eapply Rle_trans; [apply Rabs_triang|]. rewrite !Rabs_mult. pose proof (COS_bound (2 * x * INR n)) as B1. pose proof (SIN_bound (2 * x * INR n)) as B2.
  assert (Rabs (cos (2 * x * INR n)) <= 1) as A1 by (apply Rabs_le; lra). assert (Rabs (sin (2 * x * INR n)) <= 1) as A2 by (apply Rabs_le; lra).
  pose proof (Rabs_pos p). pose proof (Rabs_pos q). pose proof (Rabs_pos (cos (2 * x * INR n))). pose proof (Rabs_pos (sin (2 * x * INR n))). nra.
Qed.
Lemma response_wave c x : proper c -> 0 < c_K1 c -> 0 < c_K2 c -> cos x <> 0 -> let b := fst (coefficientsR c) in let a := snd (coefficientsR c) in
  exists G q, 0 <= G /\ 0 < q < 1 /\ forall p r, let p' := hr c x * p + hi c x * r in let r' := hr c x * r - hi c x * p in
    forall N n, (n < N)%nat -> Rabs (nth n (outputsR b a (first N (wave x p r))) 0 - wave x p' r' n) <= G * (Rabs p + Rabs r) * q ^ n.
Proof.
  intros HC K1 K2 HX b a. destruct (decay c HC K1 K2) as (G & q & HG & Hq & HD). fold a in HD. destruct (bounded_output c HC K1 K2) as (G0 & HB). fold b a in HB.
  set (H := Rabs (hr c x) + Rabs (hi c x)). assert (0 <= H) as HH by (unfold H; pose proof (Rabs_pos (hr c x)); pose proof (Rabs_pos (hi c x)); lra).
  exists (G * (Rabs G0 + H)), q. split; [apply Rmult_le_pos; auto; pose proof (Rabs_pos G0); lra|]. split; auto. intros p r p' r' N n Hn. rewrite outputs_first by auto. clear N Hn.
  set (M := Rabs p + Rabs r). assert (0 <= M) as HM by (unfold M; pose proof (Rabs_pos p); pose proof (Rabs_pos r); lra).
  set (y := fun k => nth k (outputsR b a (first (S k) (wave x p r))) 0). change (nth n (outputsR b a (first (S n) (wave x p r))) 0) with (y n).
  replace (G * (Rabs G0 + H) * M * q ^ n) with (G * ((Rabs G0 + H) * M) * q ^ n) by ring. apply (HD (fun k => y k - wave x p' r' k)).
  - intros k. assert (fir a y k = fir b (wave x p r) k) as E1.
    { set (l := first (k + 5) (wave x p r)). assert (length l = (k + 5)%nat) as Hl by apply first_length. pose proof (difference_equation b a l (k + 4) (leading c HC) ltac:(lia)) as D. unfold convolved, before in D.
      rewrite !(proj2 (Nat.ltb_ge (k + 4) _)) in D by lia.
      replace (k + 4 - 0)%nat with (k + 4)%nat in D by lia. replace (k + 4 - 1)%nat with (k + 3)%nat in D by lia. replace (k + 4 - 2)%nat with (k + 2)%nat in D by lia.
      replace (k + 4 - 3)%nat with (k + 1)%nat in D by lia. replace (k + 4 - 4)%nat with k in D by lia.
      unfold l in D.
      rewrite (outputs_first b a _ (k + 4) (k + 5)), (outputs_first b a _ (k + 3) (k + 5)), (outputs_first b a _ (k + 2) (k + 5)), (outputs_first b a _ (k + 1) (k + 5)), (outputs_first b a _ k (k + 5)) in D by lia. rewrite !first_nth in D by lia. exact D. }
    pose proof (steady c HC K1 K2 x HX p r k) as E2. fold a b p' r' in E2. unfold fir in E1, E2. cbv beta. lra.
  - intros k Hk. cbv beta. unfold Rminus. eapply Rle_trans; [apply Rabs_triang|]. rewrite Rabs_Ropp, Rmult_plus_distr_r. apply Rplus_le_compat.
    + assert (Rabs (y k) <= G0 * M) as Y. { unfold y. apply (HB (first (S k) (wave x p r))); auto.
        - intros z Hz. unfold first in Hz. apply in_map_iff in Hz. destruct Hz as (j & <- & _). apply wave_bound.
        - apply nth_In. rewrite outputs_length, first_length. lia. }
      pose proof (Rle_abs G0). nra.
    + eapply Rle_trans; [apply wave_bound|]. unfold p', r', H, M, Rminus.
      pose proof (Rabs_triang (hr c x * p) (hi c x * r)) as T1. pose proof (Rabs_triang (hr c x * r) (- (hi c x * p))) as T2. rewrite Rabs_Ropp in T2. rewrite !Rabs_mult in T1, T2. lra.
Qed.
Lemma wave_sinusoid rate f p q n : sinusoid rate f p q n = wave (PI * f / rate) p q n.
Proof. unfold sinusoid, wave. assert (2 * PI * f / rate = 2 * (PI * f / rate)) as -> by (unfold Rdiv; ring). reflexivity. Qed.
Lemma half_angle f rate : 0 < rate -> 0 <= f -> 2 * f < rate -> 0 <= PI * f / rate < PI / 2.
Proof.
  intros HR H0 H1. pose proof PI_RGT_0 as HP. split.
  - apply Rmult_le_pos; [nra|]. left. now apply Rinv_0_lt_compat.
  - apply Rmult_lt_reg_r with rate; auto. unfold Rdiv. rewrite (Rmult_assoc (PI * f)), Rinv_l by lra. nra.
Qed.
Lemma response rate f : 3364 <= rate -> 0 <= f -> 2 * f < rate -> let (b, a) := coefficientsR (coeff_inputsR rate) in
  exists G q, 0 <= G /\ 0 < q < 1 /\ forall p r, exists p' r', p' ^ 2 + r' ^ 2 = power_gain rate f * (p ^ 2 + r ^ 2) /\
    forall N n, (n < N)%nat -> Rabs (nth n (outputsR b a (first N (sinusoid rate f p r))) 0 - sinusoid rate f p' r' n) <= G * (Rabs p + Rabs r) * q ^ n.
Proof.
  intros HR H0 H1. destruct (stable_rate rate HR) as (K1 & K2). destruct (rate_proper rate) as (HC & _). destruct (half_angle f rate ltac:(lra) H0 H1) as (X0 & X1).
  set (x := PI * f / rate) in *. assert (cos x <> 0) as HX. { apply Rgt_not_eq. apply cos_gt_0; pose proof PI_RGT_0; lra. }
  destruct (response_wave _ x HC K1 K2 HX) as (G & q & HG & Hq & HS). pose proof (gain _ HC K1 K2 x HX) as HN.
  destruct (coefficientsR (coeff_inputsR rate)) as (b, a) eqn:E. cbn [fst snd] in HS.
  exists G, q. split; auto. split; auto. intros p r. set (h1 := hr _ x) in *. set (h2 := hi _ x) in *. exists (h1 * p + h2 * r), (h1 * r - h2 * p). split.
  - unfold power_gain. fold x. rewrite <- HN. ring.
  - intros N n Hn. specialize (HS p r N n Hn). cbv zeta in HS. rewrite wave_sinusoid. fold x. 
    assert (first N (sinusoid rate f p r) = first N (wave x p r)) as -> by (unfold first; apply map_ext; intros; apply wave_sinusoid). exact HS.
Qed.

(** * Power *)
Lemma cross U V R c s : U * U + V * V = R * R -> 0 <= R -> c * c + s * s = 1 -> Rabs (U * s - V * c) <= R.
Proof.
  intros H HR E. rewrite <- (Rabs_pos_eq R HR). apply Rsqr_le_abs_0. unfold Rsqr. assert ((U * s - V * c) * (U * s - V * c) + (U * c + V * s) * (U * c + V * s) = (U * U + V * V) * (c * c + s * s)) as X by ring.
  rewrite E, H in X. pose proof (Rle_0_sqr (U * c + V * s)) as Y. unfold Rsqr in Y. lra.
Qed.
Lemma wave_square x p q n : let s := p * p + q * q in wave x p q n * wave x p q n = s / 2 + ((p * p - q * q) / 2 * cos (2 * (2 * x * INR n)) + p * q * sin (2 * (2 * x * INR n))).
Proof.
  intros s. unfold wave, s. set (t := 2 * x * INR n). rewrite cos_2a, sin_2a. pose proof (sin2_cos2 t) as E. unfold Rsqr in E.
  transitivity ((p * p + q * q) / 2 * (sin t * sin t + cos t * cos t) + ((p * p - q * q) / 2 * (cos t * cos t - sin t * sin t) + p * q * (2 * sin t * cos t))); [field|]. rewrite E. field.
Qed.
Lemma wave_sum x p q a : forall w, let s := p * p + q * q in let U := (p * p - q * q) / 2 in let V := p * q in
  2 * sin (2 * x) * (total (map (fun n => wave x p q n * wave x p q n) (seq a w)) - INR w * (s / 2)) =
  U * sin (2 * x * (2 * INR (a + w) - 1)) - V * cos (2 * x * (2 * INR (a + w) - 1)) - (U * sin (2 * x * (2 * INR a - 1)) - V * cos (2 * x * (2 * INR a - 1))).
Proof.
  induction w as [|w IH]; cbv zeta in *.
  - rewrite Nat.add_0_r. cbn [seq map total fold_right INR]. ring.
  - rewrite seq_S, map_app. unfold total in *. rewrite fold_right_app. cbn [map fold_right]. rewrite Rplus_0_r.
    assert (forall l z, fold_right Rplus z l = fold_right Rplus 0 l + z) as Hf. { induction l as [|h l IHl]; intros z; cbn [fold_right]; [ring|rewrite IHl; ring]. }
    rewrite Hf, wave_square. set (T := fold_right Rplus 0 _) in *. rewrite S_INR. replace (a + S w)%nat with (S (a + w)) by lia. rewrite S_INR. set (m := INR (a + w)) in *.
    set (t := 2 * (2 * x * m)). replace (2 * x * (2 * (m + 1) - 1)) with (t + 2 * x) by (unfold t; ring). replace (2 * x * (2 * m - 1)) with (t - 2 * x) in IH by (unfold t; ring).
    rewrite sin_plus, cos_plus. rewrite sin_minus, cos_minus in IH.
    match goal with |- 2 * ?s * (_ - _) = _ => replace (2 * s * (T + ((p * p + q * q) / 2 + ((p * p - q * q) / 2 * cos t + p * q * sin t)) - (INR w + 1) * ((p * p + q * q) / 2))) with (2 * s * (T - INR w * ((p * p + q * q) / 2)) + 2 * s * ((p * p - q * q) / 2 * cos t + p * q * sin t)) by ring end.
    rewrite IH. ring.
Qed.
Lemma wave_power x p q a w : 0 < sin (2 * x) -> let s := p * p + q * q in
  Rabs (total (map (fun n => wave x p q n * wave x p q n) (seq a w)) - INR w * (s / 2)) <= s / 2 / sin (2 * x).
Proof.
  intros HS s. pose proof (wave_sum x p q a w) as E. cbv zeta in E. fold s in E. set (D := total _ - _) in *. set (U := (p * p - q * q) / 2) in *. set (V := p * q) in *.
  assert (U * U + V * V = s / 2 * (s / 2)) as E2 by (unfold U, V, s; field). assert (0 <= s / 2) as H0 by (unfold s; nra).
  assert (forall t, Rabs (U * sin t - V * cos t) <= s / 2) as B. { intros t. apply cross; auto. pose proof (sin2_cos2 t) as X. unfold Rsqr in X. lra. }
  pose proof (B (2 * x * (2 * INR (a + w) - 1))) as B1. pose proof (B (2 * x * (2 * INR a - 1))) as B2.
  apply Rmult_le_reg_l with (2 * sin (2 * x)); [lra|]. replace (2 * sin (2 * x) * (s / 2 / sin (2 * x))) with (s / 2 + s / 2) by (field; lra).
  rewrite <- (Rabs_pos_eq (2 * sin (2 * x))) by lra. rewrite <- Rabs_mult, E. unfold Rminus at 1. eapply Rle_trans; [apply Rabs_triang|]. rewrite Rabs_Ropp. lra.
Qed.
Lemma total_map_le (f g : nat -> R) (e : R) l : (forall n, In n l -> Rabs (f n - g n) <= e) -> Rabs (total (map f l) - total (map g l)) <= INR (length l) * e.
Proof.
  induction l as [|n l IH]; intros H.
  - unfold total. cbn [map fold_right length INR]. rewrite Rminus_0_r, Rabs_R0. lra.
  - cbn [map length]. change (total (f n :: map f l)) with (f n + total (map f l)). change (total (g n :: map g l)) with (g n + total (map g l)). rewrite S_INR.
    replace (f n + total (map f l) - (g n + total (map g l))) with ((f n - g n) + (total (map f l) - total (map g l))) by ring.
    eapply Rle_trans; [apply Rabs_triang|]. pose proof (H n ltac:(now left)). specialize (IH ltac:(intros; apply H; now right)). lra.
Qed.
Lemma wave_sqrt x p q n : Rabs (wave x p q n) <= sqrt (p * p + q * q).
Proof.
  unfold wave. set (t := 2 * x * INR n). replace (p * cos t + q * sin t) with (q * sin t - (- p) * cos t) by ring. apply cross.
  - rewrite sqrt_sqrt by nra. ring.
  - apply sqrt_pos.
  - pose proof (sin2_cos2 t) as X. unfold Rsqr in X. lra.
Qed.
Lemma near_power x p q a w (y : nat -> R) e : 0 < sin (2 * x) -> (0 < w)%nat -> 0 <= e -> (forall n, (a <= n < a + w)%nat -> Rabs (y n - wave x p q n) <= e) ->
  let s := p * p + q * q in Rabs (total (map (fun n => y n * y n) (seq a w)) / INR w - s / 2) <= e * (2 * sqrt s + e) + s / (2 * INR w * sin (2 * x)).
Proof.
  intros HS Hw He H s. pose proof (lt_0_INR w Hw) as HW. set (T := total (map (fun n => y n * y n) (seq a w))). set (V := total (map (fun n => wave x p q n * wave x p q n) (seq a w))).
  assert (Rabs (T - V) <= INR w * (e * (2 * sqrt s + e))) as H1.
  { replace (INR w) with (INR (length (seq a w))) by (now rewrite seq_length). unfold T, V. apply total_map_le. intros n Hn. apply in_seq in Hn. specialize (H n Hn). set (u := wave x p q n) in *.
    pose proof (wave_sqrt x p q n) as B. fold u s in B. set (z := y n) in *. clearbody z u. replace (z * z - u * u) with ((z - u) * (2 * u + (z - u))) by ring. rewrite Rabs_mult.
    apply Rmult_le_compat; try apply Rabs_pos; auto. eapply Rle_trans; [apply Rabs_triang|]. rewrite Rabs_mult, (Rabs_pos_eq 2) by lra. lra. }
  pose proof (wave_power x p q a w HS) as H2. cbv zeta in H2. fold s V in H2.
  apply Rmult_le_reg_l with (INR w); auto. rewrite <- (Rabs_pos_eq (INR w)) at 1 by lra. rewrite <- Rabs_mult.
  replace (INR w * (T / INR w - s / 2)) with ((T - V) + (V - INR w * (s / 2))) by (field; lra).
  replace (INR w * (e * (2 * sqrt s + e) + s / (2 * INR w * sin (2 * x)))) with (INR w * (e * (2 * sqrt s + e)) + s / 2 / sin (2 * x)) by (field; lra).
  eapply Rle_trans; [apply Rabs_triang|]. lra.
Qed.
Lemma list_seq (l : list R) : l = map (fun n => nth n l 0) (seq 0 (length l)).
Proof.
  apply nth_ext with (d := 0) (d' := 0); [now rewrite map_length, seq_length|]. intros n Hn.
  rewrite (nth_indep (map _ _) 0 (nth 0 l 0)) by (rewrite map_length, seq_length; auto). rewrite (map_nth (fun n => nth n l 0)), seq_nth by auto. reflexivity.
Qed.
Lemma skipn_map_seq {A} (f : nat -> A) k n : skipn k (map f (seq 0 n)) = map f (seq k (n - k)).
Proof.
  destruct (le_lt_dec k n) as [L|L].
  - destruct (Nat.le_exists_sub k n L) as (j & -> & _). rewrite (Nat.add_comm j), seq_app, map_app, skipn_app, map_length, seq_length, Nat.sub_diag, skipn_all2 by (rewrite map_length, seq_length; lia).
    cbn [app skipn]. replace (k + j - k)%nat with j by lia. reflexivity.
  - rewrite skipn_all2 by (rewrite map_length, seq_length; lia). replace (n - k)%nat with 0%nat by lia. reflexivity.
Qed.
Lemma mean_power_seq w ys : (w <= length ys)%nat -> mean_power w ys = total (map (fun n => nth n ys 0 * nth n ys 0) (seq (length ys - w) w)) / INR w.
Proof.
  intros H. unfold mean_power. f_equal. f_equal. rewrite (list_seq ys) at 2. rewrite skipn_map_seq, map_map. replace (length ys - (length ys - w))%nat with w by lia. reflexivity.
Qed.
Lemma level rate f : 3364 <= rate -> 0 < f -> 2 * f < rate -> let (b, a) := coefficientsR (coeff_inputsR rate) in
  exists G q, 0 <= G /\ 0 < q < 1 /\ forall p r N w, (0 < w <= N)%nat ->
    Rabs (mean_power w (outputsR b a (first N (sinusoid rate f p r))) - power_gain rate f * ((p ^ 2 + r ^ 2) / 2)) <=
    (p ^ 2 + r ^ 2) * (power_gain rate f / (2 * INR w * sin (2 * PI * f / rate)) + G * q ^ (N - w)).
Proof.
  intros HR H0 H1. pose proof (response rate f HR ltac:(lra) H1) as X. destruct (coefficientsR (coeff_inputsR rate)) as (b, a). destruct X as (G & q & HG & Hq & X).
  destruct (half_angle f rate ltac:(lra) ltac:(lra) H1) as (X0 & X1). assert (0 < PI * f / rate) as X2. { apply Rmult_lt_0_compat; [pose proof PI_RGT_0; nra|apply Rinv_0_lt_compat; lra]. }
  assert (2 * PI * f / rate = 2 * (PI * f / rate)) as Ex by (unfold Rdiv; ring). rewrite Ex. set (x := PI * f / rate) in *. assert (0 < sin (2 * x)) as HS by (apply sin_gt_0; lra).
  set (g := power_gain rate f) in *. exists (4 * G * sqrt g + 4 * (G * G)), q. split. { pose proof (sqrt_pos g). assert (0 <= G * sqrt g) by (apply Rmult_le_pos; auto). assert (0 <= G * G) by (apply Rmult_le_pos; auto). lra. } split; auto.
  intros p r N w Hw. destruct (X p r) as (p' & r' & E & Y). set (ys := outputsR b a _) in *. assert (length ys = N) as HL by (unfold ys; rewrite outputs_length; apply first_length).
  set (e := G * (Rabs p + Rabs r) * q ^ (N - w)). assert (0 < q ^ (N - w)) as Q0 by (apply pow_lt; lra). assert (q ^ (N - w) <= 1) as Q1. { rewrite <- (pow1 (N - w)). apply pow_incr. lra. }
  assert (0 <= Rabs p + Rabs r) as HA by (pose proof (Rabs_pos p); pose proof (Rabs_pos r); lra). assert (0 <= G * (Rabs p + Rabs r)) as HGA by (now apply Rmult_le_pos). assert (0 <= e) as He by (apply Rmult_le_pos; lra).
  rewrite mean_power_seq by lia. rewrite HL.
  pose proof (near_power x p' r' (N - w) w (fun n => nth n ys 0) e HS ltac:(lia) He) as Z. cbv beta in Z. lapply Z.
  2:{ intros n Hn. specialize (Y N n ltac:(lia)). fold ys in Y. rewrite wave_sinusoid in Y. fold x in Y. eapply Rle_trans; [exact Y|]. unfold e. apply Rmult_le_compat_l; auto.
      destruct (Nat.le_exists_sub (N - w) n ltac:(lia)) as (j & -> & _). rewrite pow_add. assert (q ^ j <= 1) as Qj. { rewrite <- (pow1 j). apply pow_incr. lra. } rewrite <- (Rmult_1_l (q ^ (N - w))) at 2. apply Rmult_le_compat_r; lra. }
  clear Z. intros Z. cbv zeta in Z. assert (p' * p' + r' * r' = g * (p ^ 2 + r ^ 2)) as E' by (rewrite <- E; ring). rewrite E' in Z. clear E E' Y X.
  set (s := p ^ 2 + r ^ 2) in *. assert (0 <= s) as Hs by (unfold s; nra). replace (g * s / 2) with (g * (s / 2)) in Z by field. eapply Rle_trans; [exact Z|].
  replace (g * s / (2 * INR w * sin (2 * x))) with (s * (g / (2 * INR w * sin (2 * x)))) in Z |- * by (unfold Rdiv; ring).
  cut (e * (2 * sqrt (g * s) + e) <= s * ((4 * G * sqrt g + 4 * (G * G)) * q ^ (N - w))); [intros Cut; rewrite (Rmult_plus_distr_l s); lra|].
  assert (0 <= g) as Hg. { unfold g, power_gain, shelf_power, high_pass_power, resonance_power. destruct (rate_proper rate) as (HC & _).
    assert (forall u q, 0 <= (1 - u ^ 2) ^ 2 + (u / q) ^ 2) as P by (intros u q'; pose proof (pow2_ge_0 (1 - u ^ 2)); pose proof (pow2_ge_0 (u / q')); lra).
    assert (forall u v, 0 <= u -> 0 <= v -> 0 <= u / v) as P2. { intros u v Hu Hv. destruct (Req_dec v 0) as [->|Nv]; [unfold Rdiv; rewrite Rinv_0; lra|]. apply Rmult_le_pos; auto. left. apply Rinv_0_lt_compat. lra. }
    apply Rmult_le_pos; apply P2; auto.
    - match goal with |- 0 <= ?u ^ 2 + ?v ^ 2 => pose proof (pow2_ge_0 u); pose proof (pow2_ge_0 v); lra end.
    - apply Rmult_le_pos; [apply pow2_ge_0|]. match goal with |- 0 <= ?u ^ 4 => replace (u ^ 4) with ((u ^ 2) ^ 2) by ring; apply pow2_ge_0 end. }
  rewrite sqrt_mult by auto. set (t := sqrt g) in *. set (sg := sqrt s). assert (sg * sg = s) as Esg by (apply sqrt_sqrt; auto). assert (0 <= sg) as Hsg by apply sqrt_pos. assert (0 <= t) as Ht by apply sqrt_pos.
  assert (Rabs p + Rabs r <= 2 * sg) as HP.
  { assert (forall z, z * z <= s -> Rabs z <= sg) as P. { intros z Hz. rewrite <- (Rabs_pos_eq sg) by auto. apply Rsqr_le_abs_0. unfold Rsqr. lra. } pose proof (P p ltac:(unfold s; nra)). pose proof (P r ltac:(unfold s; nra)). lra. }
  set (k := q ^ (N - w)) in *. assert (e <= 2 * G * sg * k) as He2. { unfold e. apply Rmult_le_compat_r; [lra|]. replace (2 * G * sg) with (G * (2 * sg)) by ring. apply Rmult_le_compat_l; auto. }
  assert (0 <= 2 * G * sg) as P1 by (apply Rmult_le_pos; lra). assert (2 * G * sg * k <= 2 * G * sg) as P2 by (rewrite <- (Rmult_1_r (2 * G * sg)) at 2; apply Rmult_le_compat_l; lra).
  apply Rle_trans with (2 * G * sg * k * (2 * (t * sg) + 2 * G * sg)).
  - assert (0 <= t * sg) by (now apply Rmult_le_pos). apply Rmult_le_compat; auto; lra.
  - rewrite <- Esg. apply Req_le. ring.
Qed.
