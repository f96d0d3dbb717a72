(** Decimal values of the exact taps. *)
From Coq Require Import List Arith NArith ZArith Bool Lia Reals Lra Psatz.
From Coq Require Rtrigo_facts.
From Flocq Require Import Core.
From Verif Require Import Prelude Float Env Spec Spec_real Spec_interp Coeff_proofs.
Import ListNotations.
Local Open Scope R_scope.

(** * Cosines of multiples of 7.5 degrees *)
Lemma cos_poly6 x : 0 <= x <= 1.6 -> x <= PI / 2 -> 1 - x ^ 2 / 2 + x ^ 4 / 24 - x ^ 6 / 720 + x ^ 8 / 40320 - x ^ 10 / 3628800 <= cos x
  <= 1 - x ^ 2 / 2 + x ^ 4 / 24 - x ^ 6 / 720 + x ^ 8 / 40320 - x ^ 10 / 3628800 + x ^ 12 / 479001600.
Proof.
  intros H HP. pose proof (cos_bound x 2) as B. pose proof PI_digits. specialize (B ltac:(lra) ltac:(lra)). unfold cos_approx, cos_term in B.
  cbn [sum_f_R0 Nat.mul Nat.add] in B.
  assert (forall n, INR (fact (S (S n))) = INR (S (S n)) * INR (S n) * INR (fact n)) as F by (intros n; rewrite !fact_simpl, !mult_INR; ring).
  rewrite !F in B. rewrite !INR_IZR_INZ in B. cbn [fact Nat.mul Nat.add] in B. cbn [Z.of_nat Pos.of_succ_nat Pos.succ] in B. cbn [pow] in *. lra.
Qed.
Lemma sin_abs_all d : Rabs (sin d) <= Rabs d.
Proof.
  destruct (Rle_dec (Rabs d) 1) as [H|H]; [now apply sin_abs|]. pose proof (SIN_bound d). apply Rle_trans with 1; [apply Rabs_le; lra|lra].
Qed.
Lemma cos_lipschitz x y : Rabs (cos x - cos y) <= Rabs (x - y).
Proof.
  rewrite form2. rewrite !Rabs_mult. replace (Rabs (-2)) with 2 by (rewrite Rabs_left; lra). pose proof (sin_abs_all ((x - y) / 2)) as A. pose proof (SIN_bound ((x + y) / 2)) as B.
  assert (Rabs (sin ((x + y) / 2)) <= 1) as B' by (apply Rabs_le; lra). replace (Rabs (x - y)) with (2 * Rabs ((x - y) / 2)).
  - pose proof (Rabs_pos (sin ((x - y) / 2))). nra.
  - unfold Rdiv. rewrite Rabs_mult, (Rabs_pos_eq (/ 2)) by lra. field.
Qed.
Definition cosT : list Z := [10000000; 9914449; 9659258; 9238795; 8660254; 7933533; 7071068; 6087614; 5000000; 3826834; 2588190; 1305262; 0; -1305262; -2588190; -3826834; -5000000; -6087614; -7071068; -7933533; -8660254; -9238795; -9659258; -9914449; -10000000]%Z.
Definition tapT4 : list Z := [1000000; 896465; 625774; 288683; 0; -161459; -181130; -103457; 0; 69158; 80139; 46265; 0; -30108; -33704; -18526; 0; 10360; 10359; 4896; 0; -1632; -986; -167; 0]%Z.
Definition tapT2 : list Z := [1000000; 633897; 0; -204130; 0; 114168; 0; -73155; 0; 48902; 0; -32714; 0; 21289; 0; -13100; 0; 7326; 0; -3462; 0; 1154; 0; -118; 0]%Z.
Definition approx (t : list Z) (s : R) (i : nat) : R := IZR (nth i t 0%Z) / s.
(** at a decimal near the angle *)
Lemma cos_at i r c : 0 <= r -> r <= 1.570796326 -> Rabs (2 * PI * i / 48 - r) <= / 10 ^ 8 ->
  c - 3 * / 10 ^ 7 <= 1 - r ^ 2 / 2 + r ^ 4 / 24 - r ^ 6 / 720 + r ^ 8 / 40320 - r ^ 10 / 3628800 ->
  1 - r ^ 2 / 2 + r ^ 4 / 24 - r ^ 6 / 720 + r ^ 8 / 40320 - r ^ 10 / 3628800 + r ^ 12 / 479001600 <= c + 3 * / 10 ^ 7 ->
  Rabs (cos (2 * PI * i / 48) - c) <= 4 * / 10 ^ 7.
Proof.
  intros H0 H1 HR L U. pose proof PI_digits.
  pose proof (cos_lipschitz (2 * PI * i / 48) r) as C.
  assert (Rabs (cos r - c) <= 3 * / 10 ^ 7) as K.
  { pose proof (cos_poly6 r ltac:(lra) ltac:(lra)). apply Rabs_le. lra. }
  replace (cos (2 * PI * i / 48) - c) with ((cos (2 * PI * i / 48) - cos r) + (cos r - c)) by ring. eapply Rle_trans; [apply Rabs_triang|]. lra.
Qed.
Ltac cases i n := match n with O => idtac | S ?m => destruct i as [|i]; [|cases i m] end.
Lemma cos_12 i : (i <= 12)%nat -> Rabs (cos (2 * PI * INR i / 48) - approx cosT (10 ^ 7) i) <= 4 * / 10 ^ 7.
Proof.
  intros Hi. pose proof PI_digits as HP. rewrite INR_IZR_INZ. unfold approx.
  cases i 13%nat; [..|lia]; clear Hi; cbn [Z.of_nat Pos.of_succ_nat Pos.succ cosT nth].
  - replace (2 * PI * 0 / 48) with 0 by field. rewrite cos_0. apply Rabs_le. lra.
  - apply cos_at with 0.130899694; lra || (apply Rabs_le; lra).
  - apply cos_at with 0.261799388; lra || (apply Rabs_le; lra).
  - apply cos_at with 0.392699082; lra || (apply Rabs_le; lra).
  - apply cos_at with 0.523598775; lra || (apply Rabs_le; lra).
  - apply cos_at with 0.654498469; lra || (apply Rabs_le; lra).
  - apply cos_at with 0.785398163; lra || (apply Rabs_le; lra).
  - apply cos_at with 0.916297857; lra || (apply Rabs_le; lra).
  - apply cos_at with 1.047197551; lra || (apply Rabs_le; lra).
  - apply cos_at with 1.178097245; lra || (apply Rabs_le; lra).
  - apply cos_at with 1.308996939; lra || (apply Rabs_le; lra).
  - apply cos_at with 1.439896633; lra || (apply Rabs_le; lra).
  - replace (2 * PI * 12 / 48) with (PI / 2) by field. rewrite cos_PI2. apply Rabs_le. lra.
Qed.
Lemma cos_24 i : (i <= 24)%nat -> Rabs (cos (2 * PI * INR i / 48) - approx cosT (10 ^ 7) i) <= 4 * / 10 ^ 7.
Proof.
  intros Hi. destruct (Nat.le_gt_cases i 12) as [H|H]; [now apply cos_12|].
  pose proof (cos_12 (24 - i) ltac:(lia)) as C. rewrite minus_INR in C by lia.
  replace (2 * PI * (INR 24 - INR i) / 48) with (PI - 2 * PI * INR i / 48) in C by (rewrite (INR_IZR_INZ 24); cbn [Z.of_nat Pos.of_succ_nat Pos.succ]; field).
  rewrite Rtrigo_facts.cos_pi_minus in C.
  assert (approx cosT (10 ^ 7) (24 - i) = - approx cosT (10 ^ 7) i) as E.
  { unfold approx. assert (nth (24 - i) cosT 0 = - nth i cosT 0)%Z as ->; [|rewrite opp_IZR; field].
    do 25 (destruct i as [|i]; [reflexivity|]). lia. }
  rewrite E in C. replace (cos (2 * PI * INR i / 48) - approx cosT (10 ^ 7) i) with (- (- cos (2 * PI * INR i / 48) - - approx cosT (10 ^ 7) i)) by ring.
  rewrite Rabs_Ropp. exact C.
Qed.

(** * Sines of multiples of 45 degrees *)
Definition eighth (r : nat) : R := match r with 0%nat | 4%nat => 0 | 1%nat | 3%nat => sqrt 2 / 2 | 2%nat => 1 | 6%nat => -1 | _ => - (sqrt 2 / 2) end.
Lemma sqrt2_digits : 1.4142135623 <= sqrt 2 <= 1.4142135624.
Proof.
  pose proof (sqrt_sqrt 2 ltac:(lra)) as S. pose proof (sqrt_pos 2) as P. split.
  - destruct (Rle_dec 1.4142135623 (sqrt 2)) as [|N]; auto. exfalso. assert (sqrt 2 * sqrt 2 < 1.4142135623 * 1.4142135623) by nra. lra.
  - destruct (Rle_dec (sqrt 2) 1.4142135624) as [|N]; auto. exfalso. assert (1.4142135624 * 1.4142135624 < sqrt 2 * sqrt 2) by nra. lra.
Qed.
Lemma sin_PI4' : sin (PI * 1 / 4) = sqrt 2 / 2.
Proof.
  replace (PI * 1 / 4) with (PI / 4) by field. rewrite sin_PI4. apply Rmult_eq_reg_r with (sqrt 2); [|pose proof sqrt2_digits; lra].
  assert (sqrt 2 * sqrt 2 = 2) as E by (apply sqrt_sqrt; lra). replace (sqrt 2 / 2 * sqrt 2) with (sqrt 2 * sqrt 2 / 2) by field. rewrite E.
  field. pose proof sqrt2_digits; lra.
Qed.
Lemma sin_eighth r : (r < 8)%nat -> sin (PI * INR r / 4) = eighth r.
Proof.
  intros H. rewrite INR_IZR_INZ. pose proof sin_PI4' as S. cases r 8%nat; [..|lia]; clear H; cbn [Z.of_nat Pos.of_succ_nat Pos.succ eighth].
  - replace (PI * 0 / 4) with 0 by field. apply sin_0.
  - exact S.
  - replace (PI * 2 / 4) with (PI / 2) by field. apply sin_PI2.
  - rewrite <- S, <- sin_PI_x. f_equal. field.
  - replace (PI * 4 / 4) with PI by field. apply sin_PI.
  - rewrite <- S, <- neg_sin. f_equal. field.
  - replace (PI * 6 / 4) with (PI / 2 + PI) by field. rewrite neg_sin, sin_PI2. reflexivity.
  - replace (PI * 7 / 4) with (PI * 3 / 4 + PI) by field. rewrite neg_sin. f_equal. rewrite <- S, <- sin_PI_x. f_equal. field.
Qed.
Lemma sin_eighths i : sin (PI * INR i / 4) = eighth (i mod 8).
Proof.
  rewrite <- sin_eighth by (apply Nat.mod_upper_bound; lia). rewrite (Nat.div_mod i 8) at 1 by lia. rewrite plus_INR, mult_INR.
  replace (PI * (INR 8 * INR (i / 8) + INR (i mod 8)) / 4) with (PI * INR (i mod 8) / 4 + 2 * INR (i / 8) * PI) by (rewrite (INR_IZR_INZ 8); cbn [Z.of_nat Pos.of_succ_nat Pos.succ]; field).
  apply sin_period.
Qed.

(** * The taps *)
(** tap [24 - i] and [24 + i] *)
Definition tap_at (factor i : nat) : R := (1 + cos (2 * PI * INR i / 48)) / 2 * sincR (INR i / INR factor).
Lemma sinc_even x : sincR (- x) = sincR x.
Proof.
  unfold sincR. destruct (Req_EM_T (- x) 0), (Req_EM_T x 0); try lra. replace (PI * - x) with (- (PI * x)) by ring. rewrite sin_neg.
  pose proof PI_RGT_0. field. split; auto. lra.
Qed.
Lemma tap_below factor i : (0 < factor)%nat -> (i <= 24)%nat -> tapR factor (24 - i) = tap_at factor i.
Proof.
  intros Hf Hi. pose proof (lt_0_INR _ Hf). unfold tapR, tap_at, hannR. rewrite minus_INR by lia. rewrite (INR_IZR_INZ 24). cbn [Z.of_nat Pos.of_succ_nat Pos.succ].
  replace (2 * PI * (24 - INR i) / 48) with (PI - 2 * PI * INR i / 48) by field. rewrite Rtrigo_facts.cos_pi_minus.
  replace ((24 - INR i - 24) / INR factor) with (- (INR i / INR factor)) by (field; lra). rewrite sinc_even. f_equal. field.
Qed.
Lemma tap_above factor i : (0 < factor)%nat -> tapR factor (24 + i) = tap_at factor i.
Proof.
  intros Hf. pose proof (lt_0_INR _ Hf). unfold tapR, tap_at, hannR. rewrite plus_INR. rewrite (INR_IZR_INZ 24). cbn [Z.of_nat Pos.of_succ_nat Pos.succ].
  replace (2 * PI * (24 + INR i) / 48) with (2 * PI * INR i / 48 + PI) by field. rewrite neg_cos.
  replace ((24 + INR i - 24) / INR factor) with (INR i / INR factor) by (field; lra). f_equal. field.
Qed.
Definition sinc_at (factor i : nat) : R := match i with O => 1 | _ => eighth ((if (factor =? 4)%nat then i else 2 * i) mod 8) * INR factor * / INR i * / PI end.
Lemma sinc_values factor i : factor = 4%nat \/ factor = 2%nat -> sincR (INR i / INR factor) = sinc_at factor i.
Proof.
  intros HF. assert (0 < INR factor) as PF by (apply lt_0_INR; lia). unfold sincR. destruct i as [|i].
  - destruct (Req_EM_T (INR 0 / INR factor) 0) as [_|n]; [reflexivity|]. exfalso. apply n. cbn [INR]. field. lra.
  - set (x := S i). assert (0 < INR x) as PX by (apply lt_0_INR; unfold x; lia). pose proof PI_RGT_0.
    destruct (Req_EM_T (INR x / INR factor) 0) as [e|_].
    { exfalso. apply (Rmult_eq_compat_r (INR factor)) in e. unfold Rdiv in e. rewrite Rmult_assoc, Rinv_l in e by lra. lra. }
    assert (sin (PI * (INR x / INR factor)) = eighth ((if (factor =? 4)%nat then x else 2 * x) mod 8)) as E.
    { rewrite <- sin_eighths. f_equal. destruct HF as [->| ->]; cbn [Nat.eqb]; rewrite ?mult_INR, ?(INR_IZR_INZ 4), ?(INR_IZR_INZ 2); cbn [Z.of_nat Pos.of_succ_nat Pos.succ]; field. }
    unfold sinc_at, x. fold x. rewrite E. field. repeat split; lra.
Qed.
Lemma inv_PI : 0.318309886183 <= / PI <= 0.318309886184.
Proof.
  pose proof PI_digits. assert (0 < / PI) by (apply Rinv_0_lt_compat; lra). assert (/ PI * PI = 1) by (apply Rinv_l; lra). split; nra.
Qed.
Lemma near_mul h h0 g g0 a b : Rabs (h - h0) <= a -> Rabs (g - g0) <= b -> Rabs h <= 1 -> Rabs g0 <= 1 -> Rabs (h * g - h0 * g0) <= a + b.
Proof.
  intros H1 H2 H3 H4. replace (h * g - h0 * g0) with ((h - h0) * g0 + h * (g - g0)) by ring. eapply Rle_trans; [apply Rabs_triang|]. rewrite !Rabs_mult.
  pose proof (Rabs_pos (h - h0)). pose proof (Rabs_pos (g - g0)). pose proof (Rabs_pos h). pose proof (Rabs_pos g0). nra.
Qed.
Lemma sqrt2_PI : 0.4501581580 <= sqrt 2 * / PI <= 0.4501581582.
Proof. pose proof sqrt2_digits. pose proof inv_PI. split; nra. Qed.
Ltac sinc_value i := unfold sinc_at;
  match goal with |- context [eighth ?r] => let r' := eval vm_compute in r in change r with r' end; cbn [eighth]; rewrite !INR_IZR_INZ; cbn [Z.of_nat Pos.of_succ_nat Pos.succ].
Ltac vanish := match goal with |- context [sinc_at ?F ?i] => replace (sinc_at F i) with 0 by (sinc_value i; ring) end; apply Rabs_le; lra.
Ltac fits i g0 := match goal with C : Rabs _ <= 4 * _ |- _ =>
  match goal with |- Rabs (?h * ?g - ?t) <= _ => 
    assert (Rabs (g - g0) <= / 10 ^ 8) as HG by (pose proof inv_PI; pose proof sqrt2_PI; sinc_value i; unfold Rdiv; apply Rabs_le; lra);
    match type of C with Rabs (_ - ?c0) <= _ => 
      assert (Rabs (h - (1 + c0) / 2) <= 3 * / 10 ^ 7) as HH by (apply Rabs_le_inv in C; apply Rabs_le; lra);
      pose proof (near_mul h _ g g0 _ _ HH HG ltac:(apply Rabs_le; lra) ltac:(apply Rabs_le; lra)) as N; set (p := h * g) in *; clearbody p; apply Rabs_le_inv in N; apply Rabs_le; lra
    end
  end end.
Lemma tap4_near i : (i <= 24)%nat -> Rabs (tap_at 4 i - approx tapT4 (10 ^ 6) i) <= 2 * / 10 ^ 6.
Proof.
  intros Hi. pose proof (cos_24 i Hi) as C. pose proof (COS_bound (2 * PI * INR i / 48)) as CB. unfold tap_at. rewrite sinc_values by tauto. set (c := cos (2 * PI * INR i / 48)) in *. clearbody c.
  unfold approx in *. cases i 25%nat; [..|lia]; clear Hi; cbn [cosT tapT4 nth] in *.
  - apply Rabs_le_inv in C. cbn [sinc_at]. apply Rabs_le. lra.
  - fits 1 (0.900316316).
  - fits 2 (0.636619772).
  - fits 3 (0.300105439).
  - vanish.
  - fits 5 (-0.180063263).
  - fits 6 (-0.212206591).
  - fits 7 (-0.128616617).
  - vanish.
  - fits 9 (0.100035146).
  - fits 10 (0.127323954).
  - fits 11 (0.081846938).
  - vanish.
  - fits 13 (-0.069255101).
  - fits 14 (-0.090945682).
  - fits 15 (-0.060021088).
  - vanish.
  - fits 17 (0.052959783).
  - fits 18 (0.070735530).
  - fits 19 (0.047385069).
  - vanish.
  - fits 21 (-0.042872206).
  - fits 22 (-0.057874525).
  - fits 23 (-0.039144188).
  - vanish.
Qed.
Lemma tap2_near i : (i <= 24)%nat -> Rabs (tap_at 2 i - approx tapT2 (10 ^ 6) i) <= 2 * / 10 ^ 6.
Proof.
  intros Hi. pose proof (cos_24 i Hi) as C. pose proof (COS_bound (2 * PI * INR i / 48)) as CB. unfold tap_at. rewrite sinc_values by tauto. set (c := cos (2 * PI * INR i / 48)) in *. clearbody c.
  unfold approx in *. cases i 25%nat; [..|lia]; clear Hi; cbn [cosT tapT2 nth] in *.
  - apply Rabs_le_inv in C. cbn [sinc_at]. apply Rabs_le. lra.
  - fits 1 (0.636619772).
  - vanish.
  - fits 3 (-0.212206591).
  - vanish.
  - fits 5 (0.127323954).
  - vanish.
  - fits 7 (-0.090945682).
  - vanish.
  - fits 9 (0.070735530).
  - vanish.
  - fits 11 (-0.057874525).
  - vanish.
  - fits 13 (0.048970752).
  - vanish.
  - fits 15 (-0.042441318).
  - vanish.
  - fits 17 (0.037448222).
  - vanish.
  - fits 19 (-0.033506304).
  - vanish.
  - fits 21 (0.030315227).
  - vanish.
  - fits 23 (-0.027679121).
  - vanish.
Qed.
