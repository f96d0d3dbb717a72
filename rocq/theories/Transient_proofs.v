(** How fast the weighting filter forgets, and how soon its response to a sinusoid is that sinusoid: explicit bounds. *)
From Coq Require Import List Arith NArith ZArith Bool Lia Reals Lra Psatz.
From Flocq Require Import Core.
From Verif Require Import Prelude Float Env Filter Spec_real Spec_filter Spec_coeff Spec_exact Spec_response Filter_proofs Kweight_proofs Coeff_proofs Calibration_proofs Gain_proofs Tight_proofs Bound_proofs Response_proofs Tail_proofs.
Import ListNotations.
Local Open Scope R_scope.

(** * A recursion without input *)
Section Decay.
Variables (c1 d1 r1 c2 d2 r2 rho X Y : R).
Hypothesis C1 : c1 * c1 + d1 * d1 = r1 * r1.
Hypothesis C2 : c2 * c2 + d2 * d2 = r2 * r2.
Hypothesis R1 : 0 <= r1 < 1.
Hypothesis R2 : 0 <= r2 < 1.
Hypothesis X1 : 1 <= X.
Hypothesis Y1 : 1 <= Y.
Hypothesis Q1 : / (1 - r1) <= X.
Hypothesis Q2 : / (1 - r2) <= Y.
Hypothesis Hrho : 1 < rho.
Hypothesis HX : (rho - 1) * (2 * X) <= 1.
Hypothesis HY : (rho - 1) * (2 * Y) <= 1.
Lemma scaled r x : 0 <= r < 1 -> 1 <= x -> / (1 - r) <= x -> (rho - 1) * (2 * x) <= 1 -> 0 <= rho * r < 1 /\ / (1 - rho * r) <= 2 * x.
Proof.
  intros Hr Hx Hq Hs. assert (1 <= x * (1 - r)) as A. { apply Rmult_le_reg_r with (/ (1 - r)); [apply Rinv_0_lt_compat; lra|]. rewrite Rmult_assoc, Rinv_r by lra. lra. }
  assert (1 <= 2 * x * (1 - rho * r)) as B. { assert ((rho - 1) * (2 * x) * r <= 1 * 1) by (apply Rmult_le_compat; nra). nra. }
  assert (0 < 1 - rho * r) as Hp by nra. split; [nra|]. apply Rmult_le_reg_r with (1 - rho * r); auto. rewrite Rinv_l by lra. lra.
Qed.
Lemma pole_bound c d r : c * c + d * d = r * r -> 0 <= r -> Rabs c <= r.
Proof. intros H Hr. apply Rabs_le. split; nra. Qed.
Lemma forgotten (a : arr5 R) : v0 a = 1 -> v1 a = -2 * c2 + -2 * c1 -> v2 a = r2 * r2 + (-2 * c1) * (-2 * c2) + r1 * r1 -> v3 a = -2 * c1 * (r2 * r2) + r1 * r1 * (-2 * c2) -> v4 a = r1 * r1 * (r2 * r2) ->
  forall (d : nat -> R) M, (forall n, v0 a * d (n + 4)%nat + v1 a * d (n + 3)%nat + v2 a * d (n + 2)%nat + v3 a * d (n + 1)%nat + v4 a * d n = 0) ->
  (forall n, (n < 4)%nat -> Rabs (d n) <= M) -> forall n, Rabs (d n) * rho ^ n <= 16 * rho ^ 7 * (2 * X) ^ 2 * (2 * Y) ^ 2 * M.
Proof.
  intros E0 E1 E2 E3 E4 d M HD HM N. set (r := rho). assert (1 < r) as HR1 by exact Hrho. assert (0 <= M) as HM0. { pose proof (HM 0%nat ltac:(lia)). pose proof (Rabs_pos (d 0%nat)). lra. }
  destruct (scaled r1 X R1 X1 Q1 HX) as (S1 & T1). destruct (scaled r2 Y R2 Y1 Q2 HY) as (S2 & T2). fold r in S1, T1, S2, T2.
  pose proof (pole_bound c1 d1 r1 C1 ltac:(lra)) as B1. pose proof (pole_bound c2 d2 r2 C2 ltac:(lra)) as B2.
  assert (0 < r ^ 3) as Hr3 by (apply pow_lt; lra). assert (0 < r ^ 4) as Hr4 by (apply pow_lt; lra).
  set (F := fun n => if (n <=? N)%nat then d (N - n)%nat * r ^ (N - n) else 0).
  set (U := fun n => F n - 2 * (r * c2) * F (n + 1)%nat + (r * r2) * (r * r2) * F (n + 2)%nat).
  set (g := fun n => U n - 2 * (r * c1) * U (n + 1)%nat + (r * r1) * (r * r1) * U (n + 2)%nat).
  assert (forall n, (N + 1 <= n)%nat -> F n = 0) as HF. { intros n Hn. unfold F. destruct (Nat.leb_spec n N); [lia|reflexivity]. }
  assert (forall n, (N + 1 <= n)%nat -> U n = 0) as HU. { intros n Hn. unfold U. rewrite !HF by lia. ring. }
  assert (forall n, g n = v0 a * F n + v1 a * r * F (n + 1)%nat + v2 a * r ^ 2 * F (n + 2)%nat + v3 a * r ^ 3 * F (n + 3)%nat + v4 a * r ^ 4 * F (n + 4)%nat) as Hg.
  { intros n. unfold g, U. rewrite E0, E1, E2, E3, E4. rewrite <- !Nat.add_assoc. cbn [Nat.add]. ring. }
  set (S := 16 * r ^ 4). assert (0 <= S) as HS by (unfold S; lra).
  assert (Rabs (v1 a) <= 4 /\ Rabs (v2 a) <= 6 /\ Rabs (v3 a) <= 4 /\ Rabs (v4 a) <= 1) as (A1 & A2 & A3 & A4).
  { apply Rabs_le_inv in B1. apply Rabs_le_inv in B2. rewrite E1, E2, E3, E4. assert (0 <= r1 * r1 <= 1) by nra. assert (0 <= r2 * r2 <= 1) by nra. assert (-1 <= c1 * c2 <= 1) by nra.
    set (p := r1 * r1) in *. set (q := r2 * r2) in *. clearbody p q. repeat split; apply Rabs_le; nra. }
  assert (forall n, Rabs (g n) <= S * r ^ 3 * M) as BG.
  { intros n. rewrite Hg. destruct (le_lt_dec (n + 4) N) as [L|L].
    - unfold F. rewrite !(proj2 (Nat.leb_le _ _)) by lia. destruct (Nat.le_exists_sub (n + 4) N L) as (j & -> & _).
      replace (j + (n + 4) - n)%nat with (j + 4)%nat by lia. replace (j + (n + 4) - (n + 1))%nat with (j + 3)%nat by lia. replace (j + (n + 4) - (n + 2))%nat with (j + 2)%nat by lia.
      replace (j + (n + 4) - (n + 3))%nat with (j + 1)%nat by lia. replace (j + (n + 4) - (n + 4))%nat with j by lia.
      match goal with |- Rabs ?x <= _ => replace x with (r ^ (j + 4) * (v0 a * d (j + 4)%nat + v1 a * d (j + 3)%nat + v2 a * d (j + 2)%nat + v3 a * d (j + 1)%nat + v4 a * d j)) by (rewrite !pow_add; ring) end.
      rewrite HD, Rmult_0_r, Rabs_R0. repeat apply Rmult_le_pos; auto; lra.
    - assert (forall k, (n <= k)%nat -> Rabs (F k) <= r ^ 3 * M) as BF.
      { intros k Hk. unfold F. destruct (Nat.leb_spec k N) as [Lk|_]; [|rewrite Rabs_R0; apply Rmult_le_pos; lra].
        assert (r ^ (N - k) <= r ^ 3) by (apply Rle_pow; [lra|lia]). assert (0 < r ^ (N - k)) by (apply pow_lt; lra). specialize (HM (N - k)%nat ltac:(lia)).
        rewrite Rabs_mult, (Rabs_pos_eq (r ^ _)) by lra. pose proof (Rabs_pos (d (N - k)%nat)). rewrite (Rmult_comm (r ^ 3)). apply Rmult_le_compat; lra. }
      set (W := r ^ 3 * M) in *. assert (0 <= W) as HW by (unfold W; apply Rmult_le_pos; lra).
      assert (forall v e k m, Rabs v <= m -> (e <= 4)%nat -> (n <= k)%nat -> Rabs (v * r ^ e * F k) <= m * r ^ 4 * W) as T.
      { intros v e k m Hv He Hk. rewrite !Rabs_mult. assert (0 < r ^ e) by (apply pow_lt; lra). assert (r ^ e <= r ^ 4) by (apply Rle_pow; [lra|auto]). rewrite (Rabs_pos_eq (r ^ e)) by lra.
        pose proof (Rabs_pos v). pose proof (Rabs_pos (F k)). apply Rmult_le_compat; auto. apply Rmult_le_pos; lra. apply Rmult_le_compat; lra. }
      pose proof (T (v0 a) 0%nat n 1 ltac:(rewrite E0, Rabs_R1; lra) ltac:(lia) ltac:(lia)) as T0. pose proof (T (v1 a) 1%nat (n + 1)%nat 4 A1 ltac:(lia) ltac:(lia)) as T1'. pose proof (T (v2 a) 2%nat (n + 2)%nat 6 A2 ltac:(lia) ltac:(lia)) as T2'.
      pose proof (T (v3 a) 3%nat (n + 3)%nat 4 A3 ltac:(lia) ltac:(lia)) as T3. pose proof (T (v4 a) 4%nat (n + 4)%nat 1 A4 ltac:(lia) ltac:(lia)) as T4.
      rewrite pow_O, Rmult_1_r in T0. rewrite pow_1 in T1'. replace (S * r ^ 3 * M) with (S * W) by (unfold W; ring). unfold S.
      eapply Rle_trans; [apply Rabs_triang|]. eapply Rle_trans; [apply Rplus_le_compat_r, Rabs_triang|]. eapply Rle_trans; [apply Rplus_le_compat_r, Rplus_le_compat_r, Rabs_triang|].
      eapply Rle_trans; [apply Rplus_le_compat_r, Rplus_le_compat_r, Rplus_le_compat_r, Rabs_triang|]. lra. }
  set (i1 := / (1 - r * r1)) in *. set (i2 := / (1 - r * r2)) in *.
  assert (1 <= i1) as I1 by (apply (q_pos (r * r1)); lra). assert (1 <= i2) as I2 by (apply (q_pos (r * r2)); lra).
  assert (0 <= S * r ^ 3 * M) as P0 by (repeat apply Rmult_le_pos; lra).
  assert (forall n, Rabs (U n) <= S * r ^ 3 * M * i1 * i1) as BU.
  { apply (value_bound (r * c1) (r * d1) (r * r1) U g (N + 1) (S * r ^ 3 * M)); auto. replace (r * c1 * (r * c1) + r * d1 * (r * d1)) with (r * r * (c1 * c1 + d1 * d1)) by ring. rewrite C1. ring. }
  assert (0 <= S * r ^ 3 * M * i1 * i1) as P1 by (repeat apply Rmult_le_pos; lra).
  assert (Rabs (F 0%nat) <= S * r ^ 3 * M * i1 * i1 * i2 * i2) as BF.
  { apply (value_bound (r * c2) (r * d2) (r * r2) F U (N + 1) (S * r ^ 3 * M * i1 * i1)); auto. replace (r * c2 * (r * c2) + r * d2 * (r * d2)) with (r * r * (c2 * c2 + d2 * d2)) by ring. rewrite C2. ring. }
  unfold F in BF. rewrite (proj2 (Nat.leb_le 0 N)), Nat.sub_0_r, Rabs_mult, (Rabs_pos_eq (r ^ N)) in BF by (try lia; apply pow_le; lra).
  eapply Rle_trans; [exact BF|]. replace (S * r ^ 3 * M * i1 * i1 * i2 * i2) with (S * r ^ 3 * M * ((i1 * i1) * (i2 * i2))) by ring.
  replace (16 * r ^ 7 * (2 * X) ^ 2 * (2 * Y) ^ 2 * M) with (S * r ^ 3 * M * (((2 * X) * (2 * X)) * ((2 * Y) * (2 * Y)))) by (unfold S; ring).
  apply Rmult_le_compat_l; auto. apply Rmult_le_compat; try (apply Rle_0_sqr); apply Rmult_le_compat; lra.
Qed.
End Decay.

(** * The weighting filter *)
Definition faster (rate : N) : R := 1 + 117 / IZR (Z.of_N rate).
Lemma faster_soon rate n : audio_rate rate -> IZR (Z.of_N rate) <= 2 * INR n -> 10 ^ 24 <= faster rate ^ n.
Proof.
  intros HR Hn. pose proof (audio_real rate HR) as (R1 & R2). unfold faster. set (r := IZR (Z.of_N rate)) in *. clearbody r.
  assert (0 < 117 / r) as P by (apply Rdiv_lt_0_compat; lra). assert (117 / r * r = 117) as E by (field; lra). set (x := 117 / r) in *. assert (x <= 0.0054) as X by nra. clearbody x.
  assert (exp (x - x * x) <= 1 + x) as A.
  { pose proof (exp_ineq1_le (- (x - x * x))) as B. rewrite exp_Ropp in B. pose proof (exp_pos (x - x * x)) as C. set (y := exp _) in *. clearbody y.
    assert ((1 - x + x * x) * y <= 1) as D. { apply Rmult_le_reg_r with (/ y); [now apply Rinv_0_lt_compat|]. rewrite Rmult_assoc, Rinv_r by lra. lra. }
    assert (1 <= (1 - x + x * x) * (1 + x)) as F by nra. apply Rmult_le_reg_l with (1 - x + x * x); nra. }
  assert (exp (INR n * (x - x * x)) <= (1 + x) ^ n) as B.
  { clear Hn. induction n as [|n IH]; [cbn [INR pow]; rewrite Rmult_0_l, exp_0; lra|]. rewrite S_INR, Rmult_plus_distr_r, Rmult_1_l, exp_plus, Rmult_comm. cbn [pow]. pose proof (exp_pos (x - x * x)). pose proof (exp_pos (INR n * (x - x * x))). apply Rmult_le_compat; lra. }
  eapply Rle_trans; [|exact B]. apply Rle_trans with (exp (INR 58)).
  - assert (forall k, exp (INR k) = exp 1 ^ k) as EK. { induction k as [|k IH]; [cbn [INR pow]; apply exp_0|]. rewrite S_INR, exp_plus, IH. cbn [pow]. ring. }
    rewrite EK. apply Rle_trans with (2.69 ^ 58); [|apply pow_incr; pose proof e_bound; lra]. replace 2.69 with (269 * / 100) by lra. rewrite Rpow_mult_distr, pow_inv.
    apply Rmult_le_reg_r with (100 ^ 58); [apply pow_lt; lra|]. rewrite Rmult_assoc, Rinv_l by (apply pow_nonzero; lra). rewrite Rmult_1_r, !pow_IZR, <- mult_IZR. apply IZR_le. now vm_compute.
  - destruct (Rle_lt_or_eq_dec (INR 58) (INR n * (x - x * x))) as [H|H]; [|apply Rlt_le, exp_increasing; auto|rewrite <- H; apply Rle_refl].
    replace (INR 58) with 58 by (cbn; lra). assert (117 <= 2 * INR n * x) by nra. nra.
Qed.
Section Rate.
Variable rate : N.
Hypothesis HR : audio_rate rate.
Let r := IZR (Z.of_N rate).
Let c := coeff_inputsR r.
Let a := snd (coefficientsR c).
Let b := fst (coefficientsR c).
Lemma forgets (d : nat -> R) M : (forall n, v0 a * d (n + 4)%nat + v1 a * d (n + 3)%nat + v2 a * d (n + 2)%nat + v3 a * d (n + 1)%nat + v4 a * d n = 0) ->
  (forall n, (n < 4)%nat -> Rabs (d n) <= M) -> forall n, Rabs (d n) * faster rate ^ n <= 10 ^ 9 * (r / 48000) ^ 4 * M.
Proof.
  intros HD HM. pose proof (audio_real rate HR) as (R1 & R2). fold r in R1, R2. pose proof PI_digits.
  destruct (input_facts rate) as (Pr & Q1 & Q2 & _). destruct (tangents rate HR) as ((X1 & X2) & (Y1 & Y2) & X3 & Y3). cbv zeta in *. fold r c in Pr, Q1, Q2, X1, X2, X3, Y1, Y2, Y3.
  pose proof (over_bound (c_K1 c) _ 0.7071752369554196 r (PI * 1681.974450955533) 0.25 ltac:(lra) ltac:(lra) R1 ltac:(lra) eq_refl X1 X2) as A.
  pose proof (over_bound (c_K2 c) _ 0.5003270373238773 r (PI * 38.13547087602444) 0.0061 ltac:(lra) ltac:(lra) R1 ltac:(lra) eq_refl Y1 Y2) as B.
  assert (forall q F lo, 0 < q -> 0 < F -> 0 < lo -> lo <= 0.99 * (PI * F) -> q / (0.99 * (PI * F)) <= q / lo) as L.
  { intros q F lo Hq HF Hlo HL. unfold Rdiv. apply Rmult_le_compat_l; [lra|]. apply Rinv_le_contravar; auto. }
  pose proof (L 0.7071752369554196 1681.974450955533 5231 ltac:(lra) ltac:(lra) ltac:(lra) ltac:(lra)) as L1.
  pose proof (L 0.5003270373238773 38.13547087602444 118.6 ltac:(lra) ltac:(lra) ltac:(lra) ltac:(lra)) as L2.
  destruct (section_poles (c_K1 c) (c_Q1 c) ltac:(lra) ltac:(rewrite Q1; lra)) as (c1 & d1 & r1 & m1 & S1). destruct (section_poles (c_K2 c) (c_Q2 c) ltac:(lra) ltac:(rewrite Q2; lra)) as (c2 & d2 & r2 & m2 & S2).
  pose proof (p_gap _ _ _ _ _ _ S1) as G1. pose proof (p_gap _ _ _ _ _ _ S2) as G2. rewrite Q1 in G1. rewrite Q2 in G2.
  set (s := r / 48000). assert (0.459 <= s <= 16) as Hs by (unfold s; lra).
  assert (/ (1 - r1) <= 9.06 * s) as H1. { eapply Rle_trans; [exact G1|]. eapply Rle_trans; [exact A|]. unfold s. nra. }
  assert (/ (1 - r2) <= 204.9 * s) as H2. { eapply Rle_trans; [exact G2|]. eapply Rle_trans; [exact B|]. unfold s. nra. }
  pose proof (sections_ok c Pr) as (_ & _ & _ & A0 & A1 & A2 & _ & _ & _ & B0 & B1 & B2).
  pose proof (p_a1 _ _ _ _ _ _ S1) as E1. pose proof (p_a2 _ _ _ _ _ _ S1) as E2. pose proof (p_a1 _ _ _ _ _ _ S2) as E3. pose proof (p_a2 _ _ _ _ _ _ S2) as E4.
  rewrite <- A1 in E1. rewrite <- A2 in E2. rewrite <- B1 in E3. rewrite <- B2 in E4.
  assert (faster rate = 1 + 117 / r) as EF by reflexivity. assert (0 < 117 / r) as P by (apply Rdiv_lt_0_compat; lra). assert (117 / r * s = 117 / 48000) as ES by (unfold s; field; lra).
  assert (117 / r <= 0.0054) as X. { apply Rmult_le_reg_r with s; [lra|]. rewrite ES. nra. }
  intros n. refine (Rle_trans _ _ _ (forgotten c1 d1 r1 c2 d2 r2 (faster rate) (9.06 * s) (204.9 * s) (p_cd _ _ _ _ _ _ S1) (p_cd _ _ _ _ _ _ S2) (p_r _ _ _ _ _ _ S1) (p_r _ _ _ _ _ _ S2) ltac:(lra) ltac:(lra) H1 H2 ltac:(lra) ltac:(rewrite EF; nra) ltac:(rewrite EF; nra) a _ _ _ _ _ d M HD HM n) _).
  1-5: unfold a, coefficientsR; cbn [filter_product snd v0 v1 v2 v3 v4 arR ar_add ar_mul]; rewrite ?A0, ?B0, ?E1, ?E2, ?E3, ?E4; ring.
  assert (0 <= M) as HM0. { pose proof (HM 0%nat ltac:(lia)). pose proof (Rabs_pos (d 0%nat)). lra. }
  apply Rmult_le_compat_r; auto. assert (0 < faster rate <= 1.0054) as HF by (rewrite EF; lra). assert (faster rate ^ 7 <= 1.0054 ^ 7) as F7 by (apply pow_incr; lra).
  assert (1.0054 ^ 7 <= 1.04) as F8 by (cbn; lra). replace (16 * faster rate ^ 7 * (2 * (9.06 * s)) ^ 2 * (2 * (204.9 * s)) ^ 2) with (16 * (2 * 9.06) ^ 2 * (2 * 204.9) ^ 2 * faster rate ^ 7 * s ^ 4) by ring.
  apply Rmult_le_compat_r; [apply pow_le; lra|]. set (z := faster rate ^ 7) in *. clearbody z. cbn. lra.
Qed.
(** gain *)
Lemma power_4 v v' : shelf_power c v * high_pass_power c v' <= 4.
Proof.
  destruct (input_facts rate) as (Pr & Q1 & Q2 & V1 & V2). destruct (tangents rate HR) as ((X1 & X2) & (Y1 & Y2) & X3 & Y3). cbv zeta in *. fold r c in Pr, Q1, Q2, V1, V2, X1, X2, X3, Y1, Y2, Y3.
  pose proof Vh_digits. pose proof Vb_digits. pose proof Vb_upper.
  assert (0 <= shelf_power c v <= 3) as A.
  { unfold shelf_power, resonance_power. rewrite Q1, V1, V2. assert (0 <= v ^ 2) as Hv by (apply pow2_ge_0).
    replace ((v / 0.7071752369554196) ^ 2) with (v ^ 2 * (1 / 0.7071752369554196) ^ 2) by (unfold Rdiv; ring). replace ((Vb / 0.7071752369554196 * v) ^ 2) with (v ^ 2 * (Vb * Vb) * (1 / 0.7071752369554196) ^ 2) by (unfold Rdiv; ring).
    set (z := v ^ 2) in *. clearbody z. set (w := Vb * Vb) in *. clearbody w. assert (1.9996 <= (1 / 0.7071752369554196) ^ 2 <= 1.9997) as K by (cbn [pow]; lra). set (k := (1 / 0.7071752369554196) ^ 2) in *. clearbody k.
    assert (0 < (1 - z) ^ 2 + z * k) as D by nra. split.
    - apply Rmult_le_pos; [|left; now apply Rinv_0_lt_compat]. assert (0 <= z * w * k) by (repeat apply Rmult_le_pos; lra). pose proof (pow2_ge_0 (1 - Vh * z)). lra.
    - apply Rmult_le_reg_r with ((1 - z) ^ 2 + z * k); auto. unfold Rdiv. rewrite Rmult_assoc, Rinv_l, Rmult_1_r by lra.
      assert (w * k <= 3.17) as WK by nra. assert (z * w * k <= 3.17 * z) by nra. assert (Vh * Vh <= 2.52) by nra. assert ((1 - Vh * z) ^ 2 <= 1 - 3.1696 * z + 2.52 * (z * z)) by nra. nra. }
  assert (0 <= high_pass_power c v' <= 1.05) as B.
  { unfold high_pass_power, resonance_power. rewrite Q2. set (K := c_K2 c) in *. assert (0 <= v' ^ 2) as Hv by (apply pow2_ge_0).
    replace ((v' / 0.5003270373238773) ^ 2) with (v' ^ 2 * (1 / 0.5003270373238773) ^ 2) by (unfold Rdiv; ring). replace (v' ^ 4) with (v' ^ 2 * v' ^ 2) by ring.
    set (z := v' ^ 2) in *. clearbody z. assert (3.9 <= (1 / 0.5003270373238773) ^ 2) as Kk by (cbn [pow]; lra). set (k := (1 / 0.5003270373238773) ^ 2) in *. clearbody k.
    assert (0 < (1 - z) ^ 2 + z * k) as D by nra. assert (0 < K <= 0.0061) as HK by lra. assert (0 <= 1 + K / 0.5003270373238773 + K ^ 2 <= 1.0123) as G by (split; nra). set (g := 1 + _ + _) in *. clearbody g.
    assert (0 <= g ^ 2 <= 1.0248) as G2 by (split; nra). split.
    - apply Rmult_le_pos; [|left; now apply Rinv_0_lt_compat]. apply Rmult_le_pos; nra.
    - apply Rmult_le_reg_r with ((1 - z) ^ 2 + z * k); auto. unfold Rdiv. rewrite Rmult_assoc, Rinv_l, Rmult_1_r by lra. assert (g ^ 2 * (z * z) <= 1.0248 * (z * z)) by (apply Rmult_le_compat_r; nra). nra. }
  nra.
Qed.
Lemma response_soon f : 0 <= f -> 2 * f < r -> forall p q, exists p' q', p' ^ 2 + q' ^ 2 = power_gain r f * (p ^ 2 + q ^ 2) /\
  forall N n, (n < N)%nat -> r <= 2 * INR n -> Rabs (nth n (outputsR b a (first N (sinusoid r f p q))) 0 - sinusoid r f p' q' n) <= sqrt (p ^ 2 + q ^ 2) / 10 ^ 8.
Proof.
  intros H0 H1 p q. pose proof (audio_real rate HR) as (R1 & R2). fold r in R1, R2. destruct (input_facts rate) as (Pr & _). destruct (tangents rate HR) as ((X1 & X2) & (Y1 & Y2) & X3 & Y3). cbv zeta in *. fold r c in Pr, X1, X2, X3, Y1, Y2, Y3.
  assert (0 < c_K1 c) as K1 by lra. assert (0 < c_K2 c) as K2 by lra. destruct (half_angle f r ltac:(lra) H0 H1) as (X0 & X4).
  set (x := PI * f / r) in *. assert (cos x <> 0) as HX. { apply Rgt_not_eq. apply cos_gt_0; pose proof PI_RGT_0; lra. }
  pose proof (gain c Pr K1 K2 x HX) as HN. pose proof (power_4 (tan x / c_K1 c) (tan x / c_K2 c)) as H4. rewrite <- HN in H4.
  set (p' := hr c x * p + hi c x * q). set (q' := hr c x * q - hi c x * p). exists p', q'. split.
  { unfold power_gain. fold x c. rewrite <- HN. unfold p', q'. ring. }
  intros N n Hn Hs. rewrite wave_sinusoid. fold x. replace (first N (sinusoid r f p q)) with (first N (wave x p q)) by (unfold first; apply map_ext; intros; symmetry; apply wave_sinusoid).
  rewrite outputs_first by auto. clear N Hn. set (A := sqrt (p ^ 2 + q ^ 2)). assert (A * A = p ^ 2 + q ^ 2) as EA by (apply sqrt_sqrt; nra). assert (0 <= A) as HA by apply sqrt_pos.
  assert (Rabs p + Rabs q <= 1.415 * A) as HM. { pose proof (Rabs_pos p). pose proof (Rabs_pos q). rewrite <- (pow2_abs p), <- (pow2_abs q) in EA. set (P := Rabs p) in *. set (Q := Rabs q) in *. clearbody P Q A. pose proof (Rle_0_sqr (P - Q)) as S. unfold Rsqr in S. destruct (Rle_lt_dec (P + Q) (1.415 * A)) as [|L]; auto. nra. }
  set (M := Rabs p + Rabs q) in *. assert (0 <= M) as HM0 by (unfold M; pose proof (Rabs_pos p); pose proof (Rabs_pos q); lra).
  assert (p' * p' + q' * q' <= (2 * A) * (2 * A)) as HP. { replace (p' * p' + q' * q') with ((hr c x * hr c x + hi c x * hi c x) * (p ^ 2 + q ^ 2)) by (unfold p', q'; ring). rewrite <- EA. nra. }
  set (y := fun k => nth k (outputsR b a (first (S k) (wave x p q))) 0). change (nth n (outputsR b a (first (S n) (wave x p q))) 0) with (y n).
  assert (Rabs (y n - wave x p' q' n) * faster rate ^ n <= 10 ^ 9 * (r / 48000) ^ 4 * (30 * A)) as HF.
  { apply (forgets (fun k => y k - wave x p' q' k)).
    - intros k. assert (fir a y k = fir b (wave x p q) k) as E1.
      { set (l := first (k + 5) (wave x p q)). assert (length l = (k + 5)%nat) as Hl by apply first_length. pose proof (difference_equation b a l (k + 4) (leading c Pr) ltac:(lia)) as D. unfold convolved, before in D.
        rewrite !(proj2 (Nat.ltb_ge (k + 4) _)) in D by lia.
        replace (k + 4 - 0)%nat with (k + 4)%nat in D by lia. replace (k + 4 - 1)%nat with (k + 3)%nat in D by lia. replace (k + 4 - 2)%nat with (k + 2)%nat in D by lia.
        replace (k + 4 - 3)%nat with (k + 1)%nat in D by lia. replace (k + 4 - 4)%nat with k in D by lia.
        unfold l in D.
        rewrite (outputs_first b a _ (k + 4) (k + 5)), (outputs_first b a _ (k + 3) (k + 5)), (outputs_first b a _ (k + 2) (k + 5)), (outputs_first b a _ (k + 1) (k + 5)), (outputs_first b a _ k (k + 5)) in D by lia. rewrite !first_nth in D by lia. exact D. }
      pose proof (steady c Pr K1 K2 x HX p q k) as E2. fold a b p' q' in E2. unfold fir in E1, E2. cbv beta. lra.
    - intros k Hk. cbv beta. unfold Rminus. eapply Rle_trans; [apply Rabs_triang|]. rewrite Rabs_Ropp.
      assert (Rabs (y k) <= 19.5 * M) as Y. { unfold y. apply (output_19 rate HR (first (S k) (wave x p q)) M HM0).
        - intros z Hz. unfold first in Hz. apply in_map_iff in Hz. destruct Hz as (j & <- & _). apply wave_bound.
        - apply nth_In. fold r c b a. rewrite outputs_length, first_length. lia. }
      assert (Rabs (wave x p' q' k) <= 2 * A). { eapply Rle_trans; [apply wave_sqrt|]. rewrite <- (sqrt_square (2 * A)) by lra. now apply sqrt_le_1_alt. }
      lra. }
  pose proof (faster_soon rate n HR Hs) as HG. assert ((r / 48000) ^ 4 <= 16 ^ 4) as H16 by (apply pow_incr; lra).
  set (w := Rabs (y n - wave x p' q' n)) in *. assert (0 <= w) as W0 by apply Rabs_pos. clearbody w. set (g := faster rate ^ n) in *. clearbody g. set (s4 := (r / 48000) ^ 4) in *. clearbody s4.
  assert (w * 10 ^ 24 <= w * g) by (apply Rmult_le_compat_l; auto). assert (10 ^ 9 * s4 * (30 * A) <= 10 ^ 9 * 16 ^ 4 * (30 * A)) by (apply Rmult_le_compat_r; [lra|]; apply Rmult_le_compat_l; [cbn; lra|auto]).
  cbn [pow] in *. lra.
Qed.
End Rate.
