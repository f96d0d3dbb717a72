(** The weighting filter in exact arithmetic: difference equation, transfer function, stability. *)
From Coq Require Import List Arith Reals Lra Lia Psatz.
From Verif Require Import Filter Filter_proofs Spec_filter.
Import ListNotations.
Local Open Scope R_scope.

(** * Difference equation *)
(** histories, latest first *)
Definition h (l : list R) (n : nat) : R := nth n l 0.
Definition conv (c0 c1 c2 c3 c4 : R) (l : list R) (n : nat) : R :=
  c0 * h l n + c1 * h l (n + 1) + c2 * h l (n + 2) + c3 * h l (n + 3) + c4 * h l (n + 4).
Definition tracks (b a : arr5 R) (st : arr5 R) (X Y W : list R) : Prop :=
  v1 st = h W 0 /\ v2 st = h W 1 /\ v3 st = h W 2 /\ v4 st = h W 3 /\
  (forall n, h X n = conv 1 (v1 a) (v2 a) (v3 a) (v4 a) W n) /\ (forall n, h Y n = conv (v0 b) (v1 b) (v2 b) (v3 b) (v4 b) W n).
Lemma tracks_step b a st X Y W x : tracks b a st X Y W ->
  tracks b a (fst (filter_step arR b a st x)) (x :: X) (snd (filter_step arR b a st x) :: Y) (v0 (fst (filter_step arR b a st x)) :: W).
Proof.
  intros (H1 & H2 & H3 & H4 & HX & HY). unfold tracks. cbn [filter_step fst snd v0 v1 v2 v3 v4 arR ar_sub ar_add ar_mul]. repeat split; auto.
  - intros [|n]; unfold conv; cbn [h nth Nat.add].
    + rewrite H1, H2, H3, H4. unfold h. cbn [nth]. ring.
    + apply HX.
  - intros [|n]; unfold conv; cbn [h nth Nat.add].
    + rewrite H1, H2, H3, H4. unfold h. cbn [nth]. ring.
    + apply HY.
Qed.
Lemma tracks_run b a : forall xs st X Y W, tracks b a st X Y W ->
  exists W', tracks b a (fst (filter_run arR b a st xs)) (rev xs ++ X) (rev (snd (filter_run arR b a st xs)) ++ Y) W'.
Proof.
  induction xs as [|x xs IH]; intros st X Y W HT; cbn [filter_run].
  - exists W. exact HT.
  - apply (tracks_step b a st X Y W x) in HT. destruct (filter_step arR b a st x) as (st', y). cbn [fst snd] in HT. apply IH in HT. destruct HT as (W' & HT).
    destruct (filter_run arR b a st' xs) as (st2, ys). cbn [fst snd rev] in *. exists W'. rewrite <- !app_assoc. exact HT.
Qed.
Lemma tracks_rest b a : tracks b a rest [] [] [].
Proof. unfold tracks, conv, h. cbn [v1 v2 v3 v4 rest]. repeat split; auto; intros n; destruct n; cbn [nth Nat.add]; try ring. all: destruct n as [|[|[|n]]]; cbn [nth Nat.add]; ring. Qed.
Lemma h_before xs n k : (n < length xs)%nat -> h (rev xs) (length xs - 1 - n + k) = before xs n k.
Proof.
  intros Hn. unfold h, before. destruct (Nat.ltb_spec n k).
  - apply nth_overflow. rewrite rev_length. lia.
  - rewrite rev_nth by lia. f_equal. lia.
Qed.
Lemma difference_equation b a xs n : v0 a = 1 -> (n < length xs)%nat -> convolved a (outputsR b a xs) n = convolved b xs n.
Proof.
  intros Ha Hn. unfold outputsR, convolved. destruct (tracks_run b a xs rest [] [] [] (tracks_rest b a)) as (W & _ & _ & _ & _ & HX & HY). rewrite !app_nil_r in HX, HY.
  pose proof (filter_run_length arR b a xs rest) as L. set (ys := snd (filter_run arR b a rest xs)) in *.
  rewrite <- !(h_before xs) by auto. rewrite <- !(h_before ys) by lia. rewrite L. set (m := (length xs - 1 - n)%nat). rewrite !HX, !HY. unfold conv.
  rewrite Ha. rewrite <- !Nat.add_assoc. cbn [Nat.add]. rewrite !Nat.add_0_r. ring.
Qed.

(** * Coefficients *)
Section Coefficients.
Variable c : coeff_inputs R.
Hypothesis HC : proper c.
Let s := filter_sections arR c.
Let b := fst (coefficientsR c).
Let a := snd (coefficientsR c).
Let K := c_K1 c. Let Q := c_Q1 c. Let K' := c_K2 c. Let Q' := c_Q2 c.
Let d := 1 + K / Q + K * K. Let d' := 1 + K' / Q' + K' * K'.
Lemma sections_ok : pb0 s = (c_Vh c + c_Vb c * K / Q + K * K) / d /\ pb1 s = 2 * (K * K - c_Vh c) / d /\ pb2 s = (c_Vh c - c_Vb c * K / Q + K * K) / d /\
  pa0 s = 1 /\ pa1 s = 2 * (K * K - 1) / d /\ pa2 s = (1 - K / Q + K * K) / d /\ rb0 s = 1 /\ rb1 s = -2 /\ rb2 s = 1 /\ ra0 s = 1 /\
  ra1 s = 2 * (K' * K' - 1) / d' /\ ra2 s = (1 - K' / Q' + K' * K') / d'.
Proof. destruct HC as (H1 & H2 & H3 & _). unfold s, d, d'. cbn [filter_sections pb0 pb1 pb2 pa0 pa1 pa2 rb0 rb1 rb2 ra0 ra1 ra2 arR ar_add ar_sub ar_mul ar_div]. rewrite H1, H2, H3. repeat split. Qed.
Lemma product_ok z : poly b z = (pb0 s + pb1 s * z + pb2 s * z ^ 2) * (1 - z) ^ 2 /\ poly a z = (1 + pa1 s * z + pa2 s * z ^ 2) * (1 + ra1 s * z + ra2 s * z ^ 2).
Proof.
  destruct sections_ok as (_ & _ & _ & H0 & _ & _ & H1 & H2 & H3 & H4 & _). unfold poly, b, a, coefficientsR. fold s. cbn [filter_product fst snd v0 v1 v2 v3 v4 arR ar_add ar_mul].
  rewrite H0, H1, H2, H3, H4. split; ring.
Qed.
Lemma leading : v0 a = 1.
Proof. destruct sections_ok as (_ & _ & _ & H0 & _ & _ & _ & _ & _ & H4 & _). unfold a, coefficientsR. fold s. cbn [filter_product snd v0 arR ar_mul]. rewrite H0, H4. ring. Qed.
Lemma dc : v0 b + v1 b + v2 b + v3 b + v4 b = 0.
Proof. destruct (product_ok 1) as (H & _). unfold poly in H. lra. Qed.
Lemma d_pos : 0 <= K -> 0 < d.
Proof. intros HK. destruct HC as (_ & _ & _ & HQ & _). unfold d. assert (0 <= K / Q) by (apply Rmult_le_pos; [auto|left; now apply Rinv_0_lt_compat]). nra. Qed.
Lemma d'_pos : 0 <= K' -> 0 < d'.
Proof. intros HK. destruct HC as (_ & _ & _ & _ & HQ). unfold d'. assert (0 <= K' / Q') by (apply Rmult_le_pos; [auto|left; now apply Rinv_0_lt_compat]). nra. Qed.
Lemma transfer z : K <> 0 -> K' <> 0 -> d <> 0 -> d' <> 0 -> z <> -1 ->
  poly b z * (resonance Q (bilinear K z) * resonance Q' (bilinear K' z)) =
  poly a z * (d' * shelf_num c (bilinear K z) * bilinear K' z ^ 2).
Proof.
  intros HK HK' Hd Hd' Hz. destruct (product_ok z) as (-> & ->). destruct sections_ok as (-> & -> & -> & _ & -> & -> & _ & _ & _ & _ & -> & ->).
  destruct HC as (_ & _ & _ & HQ & HQ'). fold Q in HQ. fold Q' in HQ'.
  assert (1 + z <> 0) as Hz1 by lra. unfold shelf_num, resonance, bilinear. fold Q.
  unfold d, d' in *. 
  assert (Q + K + K * K * Q <> 0) by (intros E; apply Hd; field_simplify_eq; [|lra]; rewrite <- E; ring).
  assert (Q' + K' + K' * K' * Q' <> 0) by (intros E; apply Hd'; field_simplify_eq; [|lra]; rewrite <- E; ring).
  field. repeat split; auto; try lra.
Qed.
End Coefficients.

(** * Stability *)
Lemma jury k q (d := 1 + k / q + k * k) (a1 := 2 * (k * k - 1) / d) (a2 := (1 - k / q + k * k) / d) : 0 < k -> 0 < q ->
  -1 < a2 < 1 /\ - (1 + a2) < a1 < 1 + a2.
Proof.
  intros Hk Hq. assert (0 < k / q) as Hkq by (apply Rmult_lt_0_compat; [auto|now apply Rinv_0_lt_compat]). assert (0 < d) as Hd by (unfold d; nra).
  assert (a1 * d = 2 * (k * k - 1)) as E1 by (unfold a1; field; lra). assert (a2 * d = 1 - k / q + k * k) as E2 by (unfold a2; field; lra).
  clearbody a1 a2. assert (0 < k * k) by nra. set (x := k / q) in *. clearbody x. assert (d = 1 + x + k * k) as Ed by reflexivity. clearbody d.
  repeat split; apply Rmult_lt_reg_r with d; auto; lra.
Qed.
Lemma quadratic_roots a1 a2 u v : -1 < a2 < 1 -> - (1 + a2) < a1 < 1 + a2 -> u * u - v * v + a1 * u + a2 = 0 -> 2 * u * v + a1 * v = 0 -> u * u + v * v < 1.
Proof.
  intros H2 H1 Hr Hi. destruct (Req_dec v 0) as [->|Hv].
  - destruct (Rlt_le_dec (u * u) 1) as [|Hu]; [lra|]. exfalso. destruct (Rle_lt_dec 0 u) as [P|P].
    + assert (1 <= u) by nra. assert (0 <= (u - 1) * (u - a2)) by (apply Rmult_le_pos; lra). nra.
    + assert (u <= -1) by nra. assert (0 <= (- u - 1) * (- u - a2)) by (apply Rmult_le_pos; lra). nra.
  - assert (2 * u + a1 = 0) as E by (apply Rmult_eq_reg_r with v; lra). assert (a1 = - 2 * u) as -> by lra. nra.
Qed.
Lemma complex_product p q r t : p * r - q * t = 0 -> p * t + q * r = 0 -> (p = 0 /\ q = 0) \/ (r = 0 /\ t = 0).
Proof.
  intros H1 H2. assert ((p * p + q * q) * (r * r + t * t) = 0) as H.
  { replace ((p * p + q * q) * (r * r + t * t)) with ((p * r - q * t) * (p * r - q * t) + (p * t + q * r) * (p * t + q * r)) by ring. rewrite H1, H2. ring. }
  apply Rmult_integral in H. destruct H as [H|H]; [left|right]; split; nra.
Qed.
Definition quadratic (a1 a2 u v : R) : Prop := u * u - v * v + a1 * u + a2 = 0 /\ 2 * u * v + a1 * v = 0.
Lemma pole_iff c : proper c -> let s := filter_sections arR c in forall u v,
  pole (snd (coefficientsR c)) u v <-> quadratic (pa1 s) (pa2 s) u v \/ quadratic (ra1 s) (ra2 s) u v.
Proof.
  intros HC s u v. destruct (sections_ok c HC) as (_ & _ & _ & H0 & _ & _ & _ & _ & _ & H4 & _). fold s in H0, H4.
  unfold pole, coefficientsR. fold s. cbn [filter_product snd v0 v1 v2 v3 v4 arR ar_add ar_mul]. rewrite H0, H4. clear H0 H4.
  set (p := u * u - v * v + pa1 s * u + pa2 s). set (q := 2 * u * v + pa1 s * v). set (r := u * u - v * v + ra1 s * u + ra2 s). set (t := 2 * u * v + ra1 s * v).
  unfold quadratic. fold p q r t. transitivity (p * r - q * t = 0 /\ p * t + q * r = 0).
  - unfold p, q, r, t. split; intros (Ha & Hb); split; [rewrite <- Ha|rewrite <- Hb|rewrite <- Ha|rewrite <- Hb]; ring.
  - split; [intros (Ha & Hb); now apply complex_product|]. intros [(-> & ->)|(-> & ->)]; split; ring.
Qed.
Lemma stable_poles c : proper c -> 0 < c_K1 c -> 0 < c_K2 c -> forall u v, pole (snd (coefficientsR c)) u v -> u * u + v * v < 1.
Proof.
  intros HC H1 H2 u v HP. apply pole_iff in HP; auto. destruct (sections_ok c HC) as (_ & _ & _ & _ & A1 & A2 & _ & _ & _ & _ & R1 & R2).
  destruct HC as (_ & _ & _ & HQ & HQ'). rewrite A1, A2, R1, R2 in HP. destruct HP as [(HP & HP')|(HP & HP')].
  - destruct (jury _ _ H1 HQ). eapply quadratic_roots; eauto.
  - destruct (jury _ _ H2 HQ'). eapply quadratic_roots; eauto.
Qed.

Lemma section_bounded a1 a2 : -1 < a2 < 1 -> - (1 + a2) < a1 < 1 + a2 -> exists G, 0 <= G /\ forall (f g : nat -> R) L M,
  (forall n, (L <= n)%nat -> f n = 0) -> (forall n, g n = f n + a1 * f (n + 1)%nat + a2 * f (n + 2)%nat) -> (forall n, Rabs (g n) <= M) ->
  forall n, Rabs (f n) <= G * M.
Proof.
  intros H2 H1. set (q := a1 * a2 / (1 + a2)). set (D := (1 - a2) / (1 + a2) * ((1 + a2) * (1 + a2) - a1 * a1)). set (r := a2 * a2 + D / 2).
  assert (0 < / (1 + a2)) as Hi by (apply Rinv_0_lt_compat; lra).
  assert (0 < D) as HD. { unfold D, Rdiv. apply Rmult_lt_0_compat; [apply Rmult_lt_0_compat; lra|]. nra. }
  assert (0 <= r) as Hr by (unfold r; nra).
  assert (q * q < r) as Hqr.
  { unfold r. assert (q * q <= a2 * a2); [|lra]. unfold q, Rdiv. set (i := / (1 + a2)) in *.
    assert (a1 * a1 * (i * i) <= 1) as X. { assert ((1 + a2) * i = 1) as Ei by (unfold i; field; lra). assert (a1 * a1 <= (1 + a2) * (1 + a2)) by nra.
      replace 1 with ((1 + a2) * (1 + a2) * (i * i)) by (transitivity (((1 + a2) * i) * ((1 + a2) * i)); [ring|rewrite Ei; ring]). apply Rmult_le_compat_r; auto. nra. }
    replace (a1 * a2 * i * (a1 * a2 * i)) with (a2 * a2 * (a1 * a1 * (i * i))) by ring. nra. }
  assert (forall g w1 w2, let w := g - a1 * w1 - a2 * w2 in
    w * w + 2 * q * w * w1 + r * (w1 * w1) = (w1 * w1 + 2 * q * w1 * w2 + r * (w2 * w2)) - D / 2 * (w1 * w1 + w2 * w2) + 2 * g * ((q - a1) * w1 - a2 * w2) + g * g) as HV.
  { intros g w1 w2 w. unfold w, r, q, D. field. lra. }
  set (l1 := q - a1) in *. set (C := 1 + Rabs q + r). set (E := 1 + 4 / D * (l1 * l1 + a2 * a2)). set (rho := D / (4 * C)). set (V := fun x y => x * x + 2 * q * x * y + r * (y * y)).
  assert (1 <= C) as HC by (unfold C; pose proof (Rabs_pos q); lra). assert (0 < rho) as Hrho by (unfold rho; apply Rdiv_lt_0_compat; lra).
  assert (rho <= 1) as Hrho1. { unfold rho. apply Rmult_le_reg_r with (4 * C); [lra|]. unfold Rdiv. rewrite Rmult_assoc, Rinv_l by lra. unfold C, r. pose proof (Rabs_pos q). nra. }
  assert (0 < 4 / D) as H4D by (apply Rdiv_lt_0_compat; lra).
  assert (1 <= E) as HE by (unfold E; nra).
  assert (forall x y, V x y <= C * (x * x + y * y)) as HVC.
  { intros x y. unfold V, C. assert (2 * q * x * y <= Rabs q * (x * x + y * y)).
    { apply Rle_trans with (Rabs q * (2 * (Rabs x * Rabs y))). - rewrite <- Rabs_mult. replace (2 * q * x * y) with (2 * (q * (x * y))) by ring. pose proof (Rle_abs (q * (x * y))) as X. rewrite Rabs_mult in X. lra.
      - apply Rmult_le_compat_l; [apply Rabs_pos|]. assert (x * x = Rabs x * Rabs x) as -> by (rewrite <- Rabs_mult; symmetry; apply Rabs_pos_eq; nra). assert (y * y = Rabs y * Rabs y) as -> by (rewrite <- Rabs_mult; symmetry; apply Rabs_pos_eq; nra). pose proof (Rle_0_sqr (Rabs x - Rabs y)) as X. unfold Rsqr in X. clear - X. lra. }
    pose proof (Rabs_pos q). assert (0 <= x * x) by nra. assert (0 <= y * y) by nra. nra. }
  set (e := 1 - q * q / r). assert (0 < r) as Hr0 by nra.
  assert (0 < e) as He. { unfold e. assert (q * q / r < 1); [|lra]. apply Rmult_lt_reg_r with r; auto. unfold Rdiv. rewrite Rmult_assoc, Rinv_l by lra. lra. }
  assert (forall x y, e * (x * x) <= V x y) as HVe.
  { intros x y. unfold e, V. replace (x * x + 2 * q * x * y + r * (y * y)) with ((1 - q * q / r) * (x * x) + r * ((y + q * x / r) * (y + q * x / r))) by (field; lra).
    pose proof (Rmult_le_pos _ _ Hr (Rle_0_sqr (y + q * x / r))) as X. unfold Rsqr in X. lra. }
  exists (sqrt (E / (rho * e))). split; [apply sqrt_pos|]. intros f g L M Hf Hg HM.
  assert (0 <= M) as HM0 by (pose proof (HM O) as X; pose proof (Rabs_pos (g O)); lra).
  set (B := E * (M * M) / rho). assert (0 <= B) as HB. { unfold B, Rdiv. apply Rmult_le_pos; [nra|]. left. now apply Rinv_0_lt_compat. }
  assert (forall k n, (L <= n + k)%nat -> V (f n) (f (n + 1)%nat) <= B) as HI.
  { induction k as [|k IH]; intros n Hn.
    - rewrite !Hf by lia. unfold V. replace (0 * 0 + 2 * q * 0 * 0 + r * (0 * 0)) with 0 by ring. exact HB.
    - specialize (IH (n + 1)%nat ltac:(lia)). replace (n + 1 + 1)%nat with (n + 2)%nat in IH by lia. set (w1 := f (n + 1)%nat) in *. set (w2 := f (n + 2)%nat) in *.
      assert (f n = g n - a1 * w1 - a2 * w2) as -> by (rewrite Hg; fold w1 w2; ring). unfold V in IH |- *. rewrite HV. specialize (HM n). set (x := g n) in *. clearbody x w1 w2.
      pose proof (HVC w1 w2) as HC1. unfold V in HC1.
      assert (x * x <= M * M) as Hx. { assert (x * x = Rabs x * Rabs x) as -> by (rewrite <- Rabs_mult; symmetry; apply Rabs_pos_eq; nra). pose proof (Rabs_pos x). nra. }
      assert (2 * x * (l1 * w1 - a2 * w2) <= D / 4 * (w1 * w1 + w2 * w2) + 4 / D * (l1 * l1 + a2 * a2) * (x * x)) as HL.
      { assert (D / 4 * (w1 * w1 + w2 * w2) + 4 / D * (l1 * l1 + a2 * a2) * (x * x) - 2 * x * (l1 * w1 - a2 * w2) =
          D / 4 * ((w1 - 4 / D * l1 * x) * (w1 - 4 / D * l1 * x)) + D / 4 * ((w2 + 4 / D * a2 * x) * (w2 + 4 / D * a2 * x))) as X by (field; lra).
        assert (forall z : R, 0 <= z * z) as Hz by (intros; nra). assert (0 <= D / 4) as HD4 by lra.
        pose proof (Rmult_le_pos _ _ HD4 (Hz (w1 - 4 / D * l1 * x))). pose proof (Rmult_le_pos _ _ HD4 (Hz (w2 + 4 / D * a2 * x))). lra. }
      set (v := w1 * w1 + 2 * q * w1 * w2 + r * (w2 * w2)) in *. set (n2 := w1 * w1 + w2 * w2) in *.
      assert (rho * v <= D / 4 * n2) as Hv. { unfold rho. apply Rle_trans with (D / (4 * C) * (C * n2)); [apply Rmult_le_compat_l; [left; exact Hrho|exact HC1]|]. apply Req_le. field. lra. }
      assert (E * (M * M) = rho * B) as HEB by (unfold B; field; lra).
      assert (E * (x * x) <= E * (M * M)) as HEx by (apply Rmult_le_compat_l; lra). unfold E in HEx at 1.
      assert ((1 - rho) * v <= (1 - rho) * B) as Hc by (apply Rmult_le_compat_l; lra).
      clear - Hv HL Hc HEB HEx. nra. }
  intros n. specialize (HI L n ltac:(lia)). pose proof (HVe (f n) (f (n + 1)%nat)) as X.
  assert (f n * f n <= E / (rho * e) * (M * M)) as Hfn.
  { apply Rmult_le_reg_l with e; auto. apply Rle_trans with B; [lra|]. apply Req_le. unfold B. field. lra. }
  rewrite <- (sqrt_square M HM0), <- sqrt_mult_alt; [|left; apply Rdiv_lt_0_compat; nra]. rewrite <- sqrt_Rsqr_abs. apply sqrt_le_1_alt. exact Hfn.
Qed.
Lemma Rabs_5 p q r s t : Rabs (p + q + r + s + t) <= Rabs p + Rabs q + Rabs r + Rabs s + Rabs t.
Proof. pose proof (Rabs_triang (p + q + r + s) t). pose proof (Rabs_triang (p + q + r) s). pose proof (Rabs_triang (p + q) r). pose proof (Rabs_triang p q). lra. Qed.
Lemma h_bounded l M : 0 <= M -> (forall x, In x l -> Rabs x <= M) -> forall n, Rabs (h l n) <= M.
Proof. intros HM H n. unfold h. destruct (nth_in_or_default n l 0) as [Hi| ->]; [auto|]. rewrite Rabs_R0. exact HM. Qed.
Lemma bounded_output c : proper c -> 0 < c_K1 c -> 0 < c_K2 c -> let b := fst (coefficientsR c) in let a := snd (coefficientsR c) in
  exists G, forall xs M, 0 <= M -> (forall x, In x xs -> Rabs x <= M) -> forall y, In y (outputsR b a xs) -> Rabs y <= G * M.
Proof.
  intros HC K1 K2 b a. pose proof (sections_ok c HC) as (_ & _ & _ & A0 & A1 & A2 & _ & _ & _ & R0 & R1 & R2).
  pose proof HC as (_ & _ & _ & HQ & HQ'). destruct (jury _ _ K1 HQ) as (J1 & J2). destruct (jury _ _ K2 HQ') as (J3 & J4). rewrite <- A1, <- A2 in *. rewrite <- R1, <- R2 in *.
  set (s := filter_sections arR c) in *. destruct (section_bounded _ _ J1 J2) as (G1 & HG1 & B1). destruct (section_bounded _ _ J3 J4) as (G2 & HG2 & B2).
  set (S := Rabs (v0 b) + Rabs (v1 b) + Rabs (v2 b) + Rabs (v3 b) + Rabs (v4 b)). exists (S * (G2 * G1)). intros xs M HM HX y Hy. unfold outputsR in Hy.
  destruct (tracks_run b a xs rest [] [] [] (tracks_rest b a)) as (W & _ & _ & _ & _ & TX & TY). rewrite !app_nil_r in TX, TY.
  set (U := fun n => h W n + ra1 s * h W (n + 1) + ra2 s * h W (n + 2)).
  assert (forall n, h (rev xs) n = U n + pa1 s * U (n + 1)%nat + pa2 s * U (n + 2)%nat) as HU.
  { intros n. rewrite TX. unfold U, conv, a, coefficientsR. fold s. cbn [filter_product snd v0 v1 v2 v3 v4 arR ar_add ar_mul]. rewrite A0, R0.
    rewrite <- !Nat.add_assoc. cbn [Nat.add]. ring. }
  assert (forall n, (length W <= n)%nat -> h W n = 0) as HW by (intros; unfold h; now apply nth_overflow).
  assert (forall n, Rabs (U n) <= G1 * M) as BU.
  { apply (B1 U (h (rev xs)) (length W) M); auto.
    - intros n Hn. unfold U. rewrite !HW by lia. ring.
    - apply h_bounded; auto. intros x Hx. apply HX. now apply in_rev. }
  assert (forall n, Rabs (h W n) <= G2 * (G1 * M)) as BW by (apply (B2 (h W) U (length W) (G1 * M)); auto).
  apply in_rev in Hy. apply In_nth with (d := 0) in Hy. destruct Hy as (n & _ & <-). change (nth n ?l 0) with (h l n). rewrite TY. unfold conv.
  set (m := G2 * (G1 * M)) in *. replace (S * (G2 * G1) * M) with (S * m) by (unfold m; ring). unfold S.
  assert (forall t k, Rabs (t * h W k) <= Rabs t * m) as HT by (intros; rewrite Rabs_mult; apply Rmult_le_compat_l; [apply Rabs_pos|auto]).
  pose proof (HT (v0 b) n). pose proof (HT (v1 b) (n + 1)%nat). pose proof (HT (v2 b) (n + 2)%nat). pose proof (HT (v3 b) (n + 3)%nat). pose proof (HT (v4 b) (n + 4)%nat).
  eapply Rle_trans; [apply Rabs_5|]. lra.
Qed.

(** * Instability *)
Lemma outside k q (d := 1 + k / q + k * k) (a1 := 2 * (k * k - 1) / d) (a2 := (1 - k / q + k * k) / d) : k < 0 -> 1 / 2 < q ->
  0 < d /\ 1 < a2 /\ a1 * a1 < 4 * a2.
Proof.
  intros Hk Hq. set (x := k / q) in *. assert (x * q = k) as Ex by (unfold x; field; lra). assert (x < 0) as Hx by nra. assert (2 * k < x) as Hx2 by nra.
  assert (0 < d) as Hd. { change (0 < 1 + x + k * k). clearbody x. pose proof (Rle_0_sqr (1 + k)) as X. unfold Rsqr in X. lra. }
  assert (a1 * d = 2 * (k * k - 1)) as E1 by (unfold a1; field; lra). assert (a2 * d = 1 - x + k * k) as E2 by (unfold a2; field; lra).
  clearbody a1 a2. assert (d = 1 + x + k * k) as Ed by reflexivity. clearbody d. clearbody x. split; auto. split.
  - apply Rmult_lt_reg_r with d; auto. lra.
  - apply Rmult_lt_reg_r with (d * d); [nra|]. replace (a1 * a1 * (d * d)) with (a1 * d * (a1 * d)) by ring. replace (4 * a2 * (d * d)) with (4 * (a2 * d) * d) by ring.
    rewrite E1, E2, Ed. assert (x * x < 4 * (k * k)) by nra. nra.
Qed.
Lemma unstable_pole c : proper c -> 1 / 2 < c_Q1 c -> c_K1 c < 0 -> exists u v, pole (snd (coefficientsR c)) u v /\ 1 < u * u + v * v.
Proof.
  intros HC HQ HK. pose proof (sections_ok c HC) as (_ & _ & _ & _ & A1 & A2 & _). destruct (outside _ _ HK HQ) as (_ & H1 & H2). rewrite <- A1, <- A2 in *.
  set (a1 := pa1 _) in *. set (a2 := pa2 _) in *. exists (- a1 / 2), (sqrt (4 * a2 - a1 * a1) / 2).
  pose proof (sqrt_sqrt (4 * a2 - a1 * a1) ltac:(lra)) as E. set (t := sqrt _) in *. clearbody t. split; [|nra].
  apply pole_iff; auto. left. fold a1 a2. unfold quadratic. split; nra.
Qed.

Definition impulse (n : nat) : list R := 1 :: repeat 0 n.
Lemma before_impulse N n k : (n <= N)%nat -> before (impulse N) n k = if (n =? k)%nat then 1 else 0.
Proof.
  intros Hn. unfold before, impulse. destruct (Nat.ltb_spec n k), (Nat.eqb_spec n k); try lia; auto.
  - subst. rewrite Nat.sub_diag. reflexivity.
  - destruct (n - k)%nat as [|m] eqn:E; [lia|]. cbn [nth]. apply nth_repeat.
Qed.
Lemma before_bounded l M n k : (forall y, In y l -> Rabs y <= M) -> 0 <= M -> Rabs (before l n k) <= M.
Proof.
  intros H HM. unfold before. destruct (n <? k)%nat; [rewrite Rabs_R0; auto|]. destruct (nth_in_or_default (n - k) l 0) as [Hi| ->]; [auto|]. rewrite Rabs_R0. auto.
Qed.
Lemma before_shift l n k : before l (S n) (S k) = before l n k.
Proof. unfold before. cbn [Nat.sub Nat.ltb Nat.leb]. reflexivity. Qed.
Section Impulse.
Variable c : coeff_inputs R.
Hypothesis HC : proper c.
Hypothesis HQ : 1 / 2 < c_Q1 c.
Hypothesis HK : c_K1 c < 0.
Hypothesis HV : c_Vh c <> 1.
Let b := fst (coefficientsR c).
Let a := snd (coefficientsR c).
Let s := filter_sections arR c.
Let a1 := pa1 s. Let a2 := pa2 s. Let r1 := ra1 s. Let r2 := ra2 s.
(** the response of everything but the unstable section, up to sample 4 *)
Let t0 := v0 b. Let t1 := v1 b - a1 * t0. Let t2 := v2 b - a1 * t1 - a2 * t0. Let t3 := v3 b - a1 * t2 - a2 * t1. Let t4 := v4 b - a1 * t3 - a2 * t2.
Lemma a_facts : 0 < 1 + c_K1 c / c_Q1 c + c_K1 c * c_K1 c /\ 1 < a2 /\ a1 * a1 < 4 * a2.
Proof.
  pose proof (sections_ok c HC) as (_ & _ & _ & _ & A1 & A2 & _). destruct (outside _ _ HK HQ) as (H0 & H1 & H2). unfold a1, a2, s. now rewrite A1, A2.
Qed.
Lemma not_cancelled : ~ (t3 = 0 /\ t4 = 0).
Proof.
  intros (H3 & H4). destruct a_facts as (Hd & H1 & H2). pose proof (sections_ok c HC) as (P0 & P1 & P2 & _ & A1 & A2 & B0 & B1 & B2 & _). fold s in P0, P1, P2, A1, A2, B0, B1, B2. fold a1 in A1. fold a2 in A2.
  set (d := 1 + c_K1 c / c_Q1 c + c_K1 c * c_K1 c) in *. set (k := c_K1 c) in *. set (x := k / c_Q1 c) in *.
  assert (v0 b = pb0 s /\ v1 b = pb1 s - 2 * pb0 s /\ v2 b = pb2 s - 2 * pb1 s + pb0 s /\ v3 b = pb1 s - 2 * pb2 s /\ v4 b = pb2 s) as (E0 & E1 & E2 & E3 & E4).
  { unfold b, coefficientsR. fold s. cbn [filter_product fst v0 v1 v2 v3 v4 arR ar_add ar_mul]. rewrite B0, B1, B2. repeat split; ring. }
  assert (0 < 1 + a1 + a2) as Hp. { assert (-2 * a2 < a1 \/ a1 <= -2 * a2) as [|] by lra; nra. }
  (* the quotient is a multiple of (1 - z)^2 *)
  assert (t0 + t1 + t2 = 0) as S0.
  { apply Rmult_eq_reg_l with (1 + a1 + a2); [|lra]. rewrite Rmult_0_r. assert (v0 b + v1 b + v2 b + v3 b + v4 b = 0) as Hs by (rewrite E0, E1, E2, E3, E4; ring).
    rewrite <- Hs. unfold t4 in H4. rewrite H3 in H4. unfold t3 in H3. replace (v0 b) with t0 by reflexivity. replace (v1 b) with (t1 + a1 * t0) by (unfold t1; ring).
    replace (v2 b) with (t2 + a1 * t1 + a2 * t0) by (unfold t2; ring). replace (v3 b) with (a1 * t2 + a2 * t1) by lra. replace (v4 b) with (a2 * t2) by lra. ring. }
  assert (t1 + 2 * t2 = 0) as S1.
  { apply Rmult_eq_reg_l with (1 + a1 + a2); [|lra]. rewrite Rmult_0_r. assert (v1 b + 2 * v2 b + 3 * v3 b + 4 * v4 b = 0) as Hs by (rewrite E1, E2, E3, E4; ring).
    unfold t4 in H4. rewrite H3 in H4. unfold t3 in H3.
    replace (v1 b) with (t1 + a1 * t0) in Hs by (unfold t1; ring).
    replace (v2 b) with (t2 + a1 * t1 + a2 * t0) in Hs by (unfold t2; ring). replace (v3 b) with (a1 * t2 + a2 * t1) in Hs by lra. replace (v4 b) with (a2 * t2) in Hs by lra.
    assert (t0 = - t1 - t2) as Et by lra. rewrite Et in Hs. rewrite <- Hs. ring. }
  assert (t2 = t0 /\ t1 = -2 * t0) as (Q2 & Q1) by lra.
  assert (pb1 s = a1 * t0 /\ pb2 s = a2 * t0) as (F1 & F2).
  { split.
    - assert (v1 b = t1 + a1 * t0) as X by (unfold t1; ring). rewrite E1, <- E0 in X. unfold t0 in *. lra.
    - unfold t4 in H4. rewrite H3, E4, Q2 in H4. lra. }
  assert (pb0 s = t0) as F0 by (unfold t0; auto).
  (* comparing with the section itself *)
  rewrite P0 in F0. rewrite P1, A1 in F1. rewrite P2, A2 in F2. set (y := c_Vb c * k / c_Q1 c) in *.
  assert (c_Vh c + y + k * k = t0 * d) as G0 by (rewrite <- F0; field; lra).
  assert (2 * (k * k - c_Vh c) = 2 * (k * k - 1) * t0) as G1 by (apply (Rmult_eq_compat_r d) in F1; field_simplify in F1; lra).
  assert (c_Vh c - y + k * k = (1 - x + k * k) * t0) as G2.
  { apply (Rmult_eq_compat_r d) in F2. replace ((c_Vh c - y + k * k) / d * d) with (c_Vh c - y + k * k) in F2 by (field; lra). replace ((1 - x + k * k) / d * t0 * d) with ((1 - x + k * k) * t0) in F2 by (field; lra). exact F2. }
  assert (d = 1 + x + k * k) as Ed by reflexivity. rewrite Ed in G0. assert (2 * (c_Vh c + k * k) = 2 * (1 + k * k) * t0) as G3 by lra.
  assert (4 * (k * k) = 4 * (k * k) * t0) as G4 by lra. assert (t0 = 1) as T1 by (assert (0 < k * k) by nra; apply Rmult_eq_reg_l with (4 * (k * k)); lra). rewrite T1 in G1. apply HV. lra.
Qed.
Let D4 := t4 * t4 + a1 * t4 * t3 + a2 * (t3 * t3).
Lemma D4_pos : 0 < D4.
Proof.
  destruct a_facts as (_ & H1 & H2). unfold D4. replace (t4 * t4 + a1 * t4 * t3 + a2 * (t3 * t3)) with ((t4 + a1 / 2 * t3) * (t4 + a1 / 2 * t3) + (a2 - a1 * a1 / 4) * (t3 * t3)) by field.
  destruct (Req_dec t3 0) as [E3|N3].
  - rewrite E3. destruct (Req_dec t4 0) as [E4|N4]; [exfalso; apply not_cancelled; auto|]. assert (0 < t4 * t4) by nra. nra.
  - assert (0 < t3 * t3) by nra. assert (0 <= (t4 + a1 / 2 * t3) * (t4 + a1 / 2 * t3)) by apply Rle_0_sqr. assert (0 < a2 - a1 * a1 / 4) by lra. nra.
Qed.
Lemma impulse_unbounded G : exists N y, In y (outputsR b a (impulse N)) /\ G < Rabs y.
Proof.
  destruct a_facts as (_ & H1 & H2). pose proof D4_pos as HD. set (G0 := Rmax G 0). set (g := G0 * (1 + Rabs r1 + Rabs r2)).
  assert (0 <= g) as Hg by (unfold g; apply Rmult_le_pos; [apply Rmax_r|]; pose proof (Rabs_pos r1); pose proof (Rabs_pos r2); lra).
  destruct (Pow_x_infinity a2 ltac:(rewrite Rabs_pos_eq; lra) ((2 * (g * g) + 1) / D4)) as (k & Hk). specialize (Hk k (le_n k)).
  exists (k + 5)%nat. set (N := (k + 5)%nat). set (ys := outputsR b a (impulse N)).
  destruct (Exists_dec (fun y => G < Rabs y) ys) as [HE|HE]; [intros y; apply Rlt_dec| |].
  { apply Exists_exists in HE. exact HE. }
  exfalso. assert (forall y, In y ys -> Rabs y <= G0) as HB.
  { intros y Hy. apply Rle_trans with G; [|apply Rmax_l]. apply Rnot_lt_le. intros L. apply HE. apply Exists_exists. eauto. }
  assert (forall n, (n <= N)%nat -> convolved a ys n = convolved b (impulse N) n) as HDE.
  { intros n Hn. apply difference_equation; [apply (leading c HC)|]. unfold impulse. cbn [length]. rewrite repeat_length. lia. }
  assert (v0 a = 1 /\ v1 a = r1 + a1 /\ v2 a = r2 + a1 * r1 + a2 /\ v3 a = a1 * r2 + a2 * r1 /\ v4 a = a2 * r2) as (E0 & E1 & E2 & E3 & E4).
  { pose proof (sections_ok c HC) as (_ & _ & _ & A0 & _ & _ & _ & _ & _ & R0 & _). unfold a, coefficientsR, r1, r2, a1, a2. fold s in A0, R0 |- *. cbn [filter_product snd v0 v1 v2 v3 v4 arR ar_add ar_mul]. rewrite A0, R0. repeat split; ring. }
  set (v := fun n => before ys n 0 + r1 * before ys n 1 + r2 * before ys n 2).
  assert (forall n, Rabs (v n) <= g) as Hv.
  { intros n. unfold v, g. pose proof (before_bounded ys G0 n 0 HB (Rmax_r _ _)). pose proof (before_bounded ys G0 n 1 HB (Rmax_r _ _)). pose proof (before_bounded ys G0 n 2 HB (Rmax_r _ _)).
    eapply Rle_trans; [apply Rabs_triang|]. eapply Rle_trans; [apply Rplus_le_compat_r, Rabs_triang|]. rewrite !Rabs_mult. pose proof (Rabs_pos r1). pose proof (Rabs_pos r2). nra. }
  assert (forall n, (S (S n) <= N)%nat -> v (S (S n)) + a1 * v (S n) + a2 * v n = convolved b (impulse N) (S (S n))) as HR.
  { intros n Hn. rewrite <- HDE by auto. unfold convolved, v. rewrite E0, E1, E2, E3, E4. rewrite !before_shift. change (before ys (S (S n)) 0) with (before ys (S (S n)) 0).
    replace (before ys (S n) 0) with (before ys (S (S n)) 1) by apply before_shift. replace (before ys n 0) with (before ys (S (S n)) 2) by (rewrite !before_shift; reflexivity). rewrite ?before_shift. ring. }
  assert (v 0%nat = t0) as V0.
  { pose proof (HDE 0%nat ltac:(unfold N; lia)) as X. unfold convolved in X. rewrite !before_impulse in X by lia. cbn [Nat.eqb] in X. unfold before in X. cbn [Nat.ltb Nat.leb Nat.sub] in X.
    unfold v, before. cbn [Nat.ltb Nat.leb Nat.sub]. rewrite E0 in X. unfold t0. lra. }
  assert (v 1%nat = t1) as V1.
  { pose proof (HDE 1%nat ltac:(unfold N; lia)) as X. unfold convolved in X. rewrite !before_impulse in X by (unfold N; lia). cbn [Nat.eqb] in X. rewrite E0, E1 in X.
    pose proof V0 as V0'. unfold v in V0' |- *. unfold before in *. cbn [Nat.ltb Nat.leb Nat.sub] in *. unfold t1. rewrite <- V0'. lra. }
  assert (v 2%nat = t2) as V2.
  { pose proof (HR 0%nat ltac:(unfold N; lia)) as X. unfold convolved in X. rewrite !before_impulse in X by (unfold N; lia). cbn [Nat.eqb] in X. rewrite V0, V1 in X. unfold t2. lra. }
  assert (v 3%nat = t3) as V3.
  { pose proof (HR 1%nat ltac:(unfold N; lia)) as X. unfold convolved in X. rewrite !before_impulse in X by (unfold N; lia). cbn [Nat.eqb] in X. rewrite V2, V1 in X. unfold t3. lra. }
  assert (v 4%nat = t4) as V4.
  { pose proof (HR 2%nat ltac:(unfold N; lia)) as X. unfold convolved in X. rewrite !before_impulse in X by (unfold N; lia). cbn [Nat.eqb] in X. rewrite V3, V2 in X. unfold t4. lra. }
  assert (forall j, (j <= k)%nat -> v (4 + j)%nat * v (4 + j)%nat - v (5 + j)%nat * v (3 + j)%nat = a2 ^ j * D4) as HJ.
  { induction j as [|j IH]; intros Hj.
    - pose proof (HR 3%nat ltac:(unfold N; lia)) as X. unfold convolved in X. rewrite !before_impulse in X by (unfold N; lia). cbn [Nat.eqb] in X. cbn [Nat.add pow]. rewrite V4, V3 in *. unfold D4.
      replace (v 5%nat) with (- a1 * t4 - a2 * t3) by lra. ring.
    - specialize (IH ltac:(lia)). pose proof (HR (4 + j)%nat ltac:(unfold N; lia)) as X. unfold convolved in X. rewrite !before_impulse in X by (unfold N; lia). cbn [Nat.eqb Nat.add] in X.
      pose proof (HR (3 + j)%nat ltac:(unfold N; lia)) as Y. unfold convolved in Y. rewrite !before_impulse in Y by (unfold N; lia). cbn [Nat.eqb Nat.add] in Y.
      cbn [pow]. rewrite Rmult_assoc, <- IH. replace (4 + S j)%nat with (S (S (S (S (S j))))) by lia. replace (5 + S j)%nat with (S (S (S (S (S (S j)))))) by lia. replace (3 + S j)%nat with (S (S (S (S j)))) by lia. cbn [Nat.add].
      replace (v (S (S (S (S (S (S j))))))) with (- a1 * v (S (S (S (S (S j))))) - a2 * v (S (S (S (S j))))) by lra.
      replace (v (S (S (S (S (S j)))))) with (- a1 * v (S (S (S (S j)))) - a2 * v (S (S (S j)))) by lra. ring. }
  specialize (HJ k (le_n k)). assert (Rabs (a2 ^ k * D4) <= 2 * (g * g)) as HJ'.
  { rewrite <- HJ. pose proof (Hv (4 + k)%nat) as X1. pose proof (Hv (5 + k)%nat) as X2. pose proof (Hv (3 + k)%nat) as X3. unfold Rminus. eapply Rle_trans; [apply Rabs_triang|]. rewrite Rabs_Ropp, !Rabs_mult.
    pose proof (Rabs_pos (v (4 + k)%nat)). pose proof (Rabs_pos (v (5 + k)%nat)). pose proof (Rabs_pos (v (3 + k)%nat)).
    assert (Rabs (v (4 + k)%nat) * Rabs (v (4 + k)%nat) <= g * g) by (apply Rmult_le_compat; auto). assert (Rabs (v (5 + k)%nat) * Rabs (v (3 + k)%nat) <= g * g) by (apply Rmult_le_compat; auto). lra. }
  rewrite Rabs_mult, (Rabs_pos_eq D4) in HJ' by lra. apply Rge_le in Hk. apply (Rmult_le_compat_r D4) in Hk; [|lra]. unfold Rdiv in Hk. rewrite Rmult_assoc, Rinv_l in Hk by lra. lra.
Qed.
End Impulse.

(** * Rates *)
Lemma rate_proper rate : proper (coeff_inputsR rate) /\ 1 / 2 < c_Q1 (coeff_inputsR rate) /\ c_Vh (coeff_inputsR rate) <> 1.
Proof.
  unfold proper. cbn [coeff_inputsR c_one c_two c_mtwo c_Q1 c_Q2 c_Vh]. split; [repeat split; lra|]. split; [lra|].
  intros E. pose proof (Rpower_lt 10 0 (3.999843853973347 / 20) ltac:(lra) ltac:(lra)) as X. rewrite Rpower_O in X by lra. lra.
Qed.
Lemma angle_pos f rate : 0 < f -> 2 * f < rate -> 0 < tan (PI * f / rate).
Proof.
  intros Hf Hr. pose proof PI_RGT_0. apply tan_gt_0.
  - apply Rmult_lt_0_compat; [nra|apply Rinv_0_lt_compat; lra].
  - apply Rmult_lt_reg_r with rate; [lra|]. unfold Rdiv. rewrite Rmult_assoc, Rinv_l by lra. nra.
Qed.
Lemma angle_neg f rate : 0 < f -> f < rate < 2 * f -> tan (PI * f / rate) < 0.
Proof.
  intros Hf Hr. pose proof PI_RGT_0 as HP. assert (PI / 2 < PI * f / rate < PI) as (L & U).
  { split; apply Rmult_lt_reg_r with rate; try lra; unfold Rdiv; rewrite (Rmult_assoc (PI * f)), Rinv_l by lra; nra. }
  unfold tan. assert (0 < sin (PI * f / rate)) as HS by (apply sin_gt_0; lra). assert (cos (PI * f / rate) < 0) as HC by (apply cos_lt_0; lra).
  apply Rinv_lt_0_compat in HC. unfold Rdiv. nra.
Qed.
Lemma stable_rate rate : 3364 <= rate -> 0 < c_K1 (coeff_inputsR rate) /\ 0 < c_K2 (coeff_inputsR rate).
Proof. intros H. cbn [coeff_inputsR c_K1 c_K2]. split; apply angle_pos; lra. Qed.
Lemma unstable_rate rate : 1682 <= rate <= 3363 -> c_K1 (coeff_inputsR rate) < 0.
Proof. intros H. cbn [coeff_inputsR c_K1]. apply angle_neg; lra. Qed.

Lemma outputs_app b a xs ys : outputsR b a (xs ++ ys) = outputsR b a xs ++ snd (filter_run arR b a (fst (filter_run arR b a rest xs)) ys).
Proof. unfold outputsR. rewrite filter_run_app. destruct (filter_run arR b a rest xs) as (s1, o1). cbn [fst snd]. destruct (filter_run arR b a s1 ys). reflexivity. Qed.
Lemma outputs_unique b a xs ys : v0 a = 1 -> length ys = length xs -> (forall n, (n < length xs)%nat -> convolved a ys n = convolved b xs n) -> ys = outputsR b a xs.
Proof.
  intros Ha HL H. assert (length (outputsR b a xs) = length xs) as HL' by apply filter_run_length.
  assert (forall n, (n < length xs)%nat -> convolved a ys n = convolved a (outputsR b a xs) n) as HE by (intros n Hn; rewrite difference_equation; auto).
  set (zs := outputsR b a xs) in *. clearbody zs. assert (forall n m, (m < n)%nat -> (m < length xs)%nat -> nth m ys 0 = nth m zs 0) as HI.
  { induction n as [|n IH]; intros m Hm Hl; [lia|]. assert (forall k, (1 <= k)%nat -> before ys m k = before zs m k) as HB.
    { intros k Hk. unfold before. destruct (Nat.ltb_spec m k); auto. apply IH; lia. }
    specialize (HE m Hl). unfold convolved in HE. rewrite (HB 1%nat), (HB 2%nat), (HB 3%nat), (HB 4%nat) in HE by lia. rewrite Ha in HE. unfold before in HE. cbn [Nat.ltb Nat.leb] in HE. rewrite Nat.sub_0_r in HE. lra. }
  apply nth_ext with (d := 0) (d' := 0); [lia|]. intros n Hn. apply (HI (S n)); lia.
Qed.
Lemma transfer_function c z : proper c -> c_K1 c > 0 -> c_K2 c > 0 -> z <> -1 ->
  let s1 := bilinear (c_K1 c) z in let s2 := bilinear (c_K2 c) z in
  poly (fst (coefficientsR c)) z * (resonance (c_Q1 c) s1 * resonance (c_Q2 c) s2) =
  poly (snd (coefficientsR c)) z * ((1 + c_K2 c / c_Q2 c + c_K2 c * c_K2 c) * shelf_num c s1 * s2 ^ 2).
Proof.
  intros HC H1 H2 Hz s1 s2. apply transfer; auto; try lra.
  - pose proof (d_pos c HC ltac:(lra)). lra.
  - pose proof (d'_pos c HC ltac:(lra)). lra.
Qed.
Lemma stable_from_3364 rate : 3364 <= rate -> let (b, a) := coefficientsR (coeff_inputsR rate) in
  exists G, forall xs M, 0 <= M -> (forall x, In x xs -> Rabs x <= M) -> forall y, In y (outputsR b a xs) -> Rabs y <= G * M.
Proof.
  intros H. destruct (stable_rate rate H) as (H1 & H2). pose proof (bounded_output _ (proj1 (rate_proper rate)) H1 H2) as X. cbv zeta in X.
  destruct (coefficientsR (coeff_inputsR rate)) as (b, a). exact X.
Qed.
Lemma unbounded_below_3364 rate : 1682 <= rate <= 3363 -> let (b, a) := coefficientsR (coeff_inputsR rate) in
  forall G, exists n y, In y (outputsR b a (1 :: repeat 0 n)) /\ G < Rabs y.
Proof.
  intros H. pose proof (rate_proper rate) as (H1 & H2 & H3). pose proof (impulse_unbounded _ H1 H2 (unstable_rate rate H) H3) as X.
  destruct (coefficientsR (coeff_inputsR rate)) as (b, a). exact X.
Qed.
