(** How large the exact weighting filter makes its values, at rates from 22050 to 768000 Hz. *)
From Coq Require Import List Arith NArith ZArith Bool Lia Reals Lra Psatz.
From Flocq Require Import Core.
From Verif Require Import Prelude Float Env Filter Spec_real Spec_filter Spec_coeff Spec_exact Filter_proofs Kweight_proofs Coeff_proofs Calibration_proofs Gain_proofs Tight_proofs.
Import ListNotations.
Local Open Scope R_scope.

Definition swell (rate : N) : R := 3450000 * (IZR (Z.of_N rate) / 48000) ^ 4.
Lemma over_bound K th q r c kmax : 0 < q -> 0 < r -> 22050 <= r -> 0 < c -> th = c / r -> 0.99 * th <= K -> K <= kmax ->
  q * (1 + K / q + K * K) / K <= (q / (0.99 * c) + (1 + q * kmax) / 22050) * r.
Proof.
  intros Hq Hr Hr' Hc Et HK Hm. assert (0 < th) as Ht by (subst; now apply Rdiv_lt_0_compat). assert (0 < K) by lra.
  replace (q * (1 + K / q + K * K) / K) with (q / K + (1 + q * K)) by (field; lra).
  assert (q / K <= q / (0.99 * c) * r) as A.
  { replace (q / (0.99 * c) * r) with (q / (0.99 * th)) by (subst th; field; lra). unfold Rdiv. apply Rmult_le_compat_l; [lra|]. apply Rinv_le_contravar; lra. }
  assert (1 + q * K <= (1 + q * kmax) / 22050 * r) as B.
  { assert (q * K <= q * kmax) by (apply Rmult_le_compat_l; lra). assert (0 <= q * K) by nra. assert (1 + q * kmax <= (1 + q * kmax) / 22050 * r) by nra. lra. }
  lra.
Qed.
Lemma small_tan x : 0 < x <= 0.006 -> tan x <= 0.0061.
Proof. intros Hx. pose proof (tan_poly x ltac:(lra)) as (_ & H). assert (x ^ 2 <= 0.000036) by nra. assert (x ^ 4 <= 0.000036 * 0.000036) by (replace (x ^ 4) with (x ^ 2 * x ^ 2) by ring; nra). nra. Qed.
Section Rate.
Variable rate : N.
Hypothesis HR : audio_rate rate.
Let r := IZR (Z.of_N rate).
Let c := coeff_inputsR r.
Let b := fst (coefficientsR c).
Let a := snd (coefficientsR c).
Lemma tangents : let th1 := PI * 1681.974450955533 / r in let th2 := PI * 38.13547087602444 / r in
  0.99 * th1 <= c_K1 c <= 0.25 /\ 0.99 * th2 <= c_K2 c <= 0.0061 /\ 0 < th1 /\ 0 < th2.
Proof.
  pose proof (audio_real rate HR) as (R1 & R2). fold r in R1, R2. pose proof PI_digits. cbv zeta.
  assert (forall F B, 0 <= B -> 38 <= F -> PI * F <= B * 22050 -> 0 < PI * F / r <= B) as A.
  { intros F B B0 HF HB. split; [apply Rdiv_lt_0_compat; nra|]. apply Rmult_le_reg_r with r; [lra|]. unfold Rdiv. rewrite Rmult_assoc, Rinv_l by lra. assert (B * 22050 <= B * r) by (apply Rmult_le_compat_l; lra). lra. }
  pose proof (A 1681.974450955533 0.2398 ltac:(lra) ltac:(lra) ltac:(lra)) as A1. pose proof (A 38.13547087602444 0.006 ltac:(lra) ltac:(lra) ltac:(lra)) as A2.
  assert (0 < PI * 38.13547087602444 / r <= 0.2398) as A3 by lra. pose proof (tan_value _ A1). pose proof (tan_value _ A3). pose proof (small_tan _ A2).
  unfold c, coeff_inputsR. cbn [c_K1 c_K2]. lra.
Qed.
Lemma input_facts : proper c /\ c_Q1 c = 0.7071752369554196 /\ c_Q2 c = 0.5003270373238773 /\ c_Vh c = Vh /\ c_Vb c = Vb.
Proof.
  split; [|repeat split; reflexivity]. apply rate_proper.
Qed.
Lemma shelf_ro : 4 * c_Q1 c * c_Q1 c * (1 + c_K1 c * c_K1 c) <= 1.459 * 1.459.
Proof.
  destruct input_facts as (_ & -> & _). destruct tangents as ((X1 & X2) & _ & X3 & _). cbv zeta in *. assert (0 <= c_K1 c) by lra.
  set (K := c_K1 c) in *. clearbody K. assert (K * K <= 0.0625) by nra. lra.
Qed.
Lemma high_ro : 4 * c_Q2 c * c_Q2 c * (1 + c_K2 c * c_K2 c) <= 1.001 * 1.001.
Proof.
  destruct input_facts as (_ & _ & -> & _). destruct tangents as (_ & (X1 & X2) & _ & X3). cbv zeta in *. assert (0 <= c_K2 c) by lra.
  set (K := c_K2 c) in *. clearbody K. assert (K * K <= 0.0061 * 0.0061) by nra. lra.
Qed.
Lemma gain_19 : gain c 1.459 1.001 <= 19.5.
Proof.
  destruct input_facts as (_ & Q1 & _ & V1 & V2). unfold gain. rewrite Q1, V1, V2. pose proof Vh_digits. pose proof Vb_upper. pose proof Vb_digits.
  assert (1.258 <= Vb) by nra. destruct tangents as ((X1 & X2) & _ & X3 & _). cbv zeta in *. assert (0 <= c_K1 c) by lra. set (K := c_K1 c) in *. clearbody K.
  assert (Rabs (Vb - Vh) <= 0.327) by (apply Rabs_le; lra). assert (Rabs (1 - Vh) <= 0.585) by (apply Rabs_le; lra).
  assert (0 <= 1 + K / 0.7071752369554196 + K * K <= 1.4161) as D.
  { assert (K * K <= 0.0625) by nra. assert (0 <= K * K) by nra. assert (0 <= K / 0.7071752369554196 <= 0.3536) by lra. lra. }
  set (d := 1 + K / _ + K * K) in *. clearbody d. pose proof (Rabs_pos (Vb - Vh)). pose proof (Rabs_pos (1 - Vh)). set (v := Rabs (Vb - Vh)) in *. set (w := Rabs (1 - Vh)) in *. clearbody v w.
  assert (w * d <= 0.585 * 1.4161) by (apply Rmult_le_compat; lra). nra.
Qed.
Lemma keeps_swell : keeps c <= swell rate.
Proof.
  pose proof (audio_real rate HR) as (R1 & R2). fold r in R1, R2. pose proof PI_digits.
  destruct input_facts as (_ & Q1 & Q2 & _). destruct tangents as ((X1 & X2) & (Y1 & Y2) & X3 & Y3). cbv zeta in *. unfold keeps, swell. fold r. rewrite Q1, Q2.
  pose proof (over_bound (c_K1 c) _ 0.7071752369554196 r (PI * 1681.974450955533) 0.25 ltac:(lra) ltac:(lra) R1 ltac:(lra) eq_refl X1 X2) as A.
  pose proof (over_bound (c_K2 c) _ 0.5003270373238773 r (PI * 38.13547087602444) 0.0061 ltac:(lra) ltac:(lra) R1 ltac:(lra) eq_refl Y1 Y2) as B.
  assert (forall q F lo, 0 < q -> 0 < F -> 0 < lo -> q * / lo <= 1 -> lo <= 0.99 * (PI * F) -> q / (0.99 * (PI * F)) <= q / lo) as L.
  { intros q F lo Hq HF Hlo _ HL. unfold Rdiv. apply Rmult_le_compat_l; [lra|]. apply Rinv_le_contravar; auto. }
  pose proof (L 0.7071752369554196 1681.974450955533 5231 ltac:(lra) ltac:(lra) ltac:(lra) ltac:(lra) ltac:(lra)) as L1.
  pose proof (L 0.5003270373238773 38.13547087602444 118.6 ltac:(lra) ltac:(lra) ltac:(lra) ltac:(lra) ltac:(lra)) as L2.
  assert (0 < c_K1 c) as P1 by lra. assert (0 < c_K2 c) as P2 by lra.
  assert (forall q K, 0 < q -> 0 < K -> 0 <= q * (1 + K / q + K * K) / K) as Pos.
  { intros q K Hq HK. apply Rmult_le_pos; [|apply Rlt_le, Rinv_0_lt_compat; lra]. apply Rmult_le_pos; [lra|]. assert (0 < K / q) by (now apply Rdiv_lt_0_compat). nra. }
  pose proof (Pos 0.7071752369554196 (c_K1 c) ltac:(lra) P1) as N1. pose proof (Pos 0.5003270373238773 (c_K2 c) ltac:(lra) P2) as N2.
  set (X := 0.7071752369554196 * _ / _) in *. set (Y := 0.5003270373238773 * _ / c_K2 c) in *. clearbody X Y.
  assert (X <= 9.06 * (r / 48000)) as AX by nra. assert (Y <= 204.9 * (r / 48000)) as AY by nra.
  set (s := r / 48000) in *. assert (0 <= s) by (unfold s; lra). clearbody s.
  assert (X * X <= (9.06 * s) * (9.06 * s)) as XX by (apply Rmult_le_compat; auto). assert (Y * Y <= (204.9 * s) * (204.9 * s)) as YY by (apply Rmult_le_compat; auto).
  assert (X * X * (Y * Y) <= ((9.06 * s) * (9.06 * s)) * ((204.9 * s) * (204.9 * s))) as XY by (apply Rmult_le_compat; auto; nra).
  replace ((9.06 * s) * (9.06 * s) * ((204.9 * s) * (204.9 * s))) with ((9.06 * 9.06 * (204.9 * 204.9)) * s ^ 4) in XY by ring. assert (0 <= s ^ 4) by (apply pow_le; lra). nra.
Qed.
Lemma output_19 xs M : 0 <= M -> (forall x, In x xs -> Rabs x <= M) -> forall y, In y (outputsR b a xs) -> Rabs y <= 19.5 * M.
Proof.
  intros HM HX y Hy. destruct input_facts as (Pr & Q1 & Q2 & V1 & V2). destruct tangents as ((X1 & X2) & (Y1 & Y2) & X3 & Y3). cbv zeta in *. pose proof Vh_digits.
  pose proof (outputs_gain c Pr ltac:(lra) ltac:(lra) ltac:(rewrite Q1; lra) ltac:(rewrite Q2; lra) 1.459 1.001 ltac:(lra) ltac:(lra) shelf_ro high_ro xs M HM HX ltac:(rewrite V1; lra) y Hy) as G.
  pose proof gain_19. nra.
Qed.
Lemma kept_swell xs M : 0 <= M -> (forall x, In x xs -> Rabs x <= M) ->
  let st := fst (filter_run arR b a rest xs) in Rabs (v1 st) <= M * swell rate /\ Rabs (v2 st) <= M * swell rate /\ Rabs (v3 st) <= M * swell rate /\ Rabs (v4 st) <= M * swell rate.
Proof.
  intros HM HX. destruct input_facts as (Pr & Q1 & Q2 & V1 & V2). destruct tangents as ((X1 & X2) & (Y1 & Y2) & X3 & Y3). cbv zeta in *. pose proof Vh_digits.
  pose proof (kept_bound c Pr ltac:(lra) ltac:(lra) ltac:(rewrite Q1; lra) ltac:(rewrite Q2; lra) 1.459 1.001 ltac:(lra) ltac:(lra) shelf_ro high_ro xs M HM HX ltac:(rewrite V1; lra)) as G. cbv zeta in G. fold b a in G.
  assert (M * keeps c <= M * swell rate) by (apply Rmult_le_compat_l; [lra|apply keeps_swell]). lra.
Qed.
Lemma swell_range : 1 <= swell rate <= 230000000000.
Proof.
  pose proof (audio_real rate HR) as (R1 & R2). unfold swell. fold r. fold r in R1, R2. set (s := r / 48000). assert (0.459 <= s <= 16) as (S1 & S2) by (unfold s; lra). clearbody s.
  assert (0.459 ^ 4 <= s ^ 4) by (apply pow_incr; lra). assert (s ^ 4 <= 16 ^ 4) by (apply pow_incr; lra). lra.
Qed.
End Rate.
