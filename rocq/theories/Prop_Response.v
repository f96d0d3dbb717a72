(** C66, C67, C68: the response to sinusoids. *)
From Coq Require Import List Arith NArith ZArith Reals Lra.
From Flocq Require IEEE754.BinarySingleNaN.
From Verif Require Import Prelude Float Env Filter Ebur128 Spec Spec_real Spec_filter Spec_coeff Spec_response
  Response_proofs Calibration_proofs Reading_proofs Instance Instance_coeff Response_examples.
Import ListNotations.
Local Open Scope R_scope.

(** * C66: the weighting filter in exact arithmetic *)
(** A sinusoid becomes a sinusoid of the same frequency, its power changed by [power_gain], and a transient that decays
    geometrically. *)
Theorem C66_response : forall rate f, 3364 <= rate -> 0 <= f -> 2 * f < rate -> let (b, a) := coefficientsR (coeff_inputsR rate) in
  exists G q, 0 <= G /\ 0 < q < 1 /\ forall p r, exists p' r', p' ^ 2 + r' ^ 2 = power_gain rate f * (p ^ 2 + r ^ 2) /\
    forall N n, (n < N)%nat -> Rabs (nth n (outputsR b a (first N (sinusoid rate f p r))) 0 - sinusoid rate f p' r' n) <= G * (Rabs p + Rabs r) * q ^ n.
Proof. exact response. Qed.
(** The mean square of the last [w] of [N] outputs: the power times [power_gain], up to an incomplete period and the transient. *)
Theorem C66_level : forall rate f, 3364 <= rate -> 0 < f -> 2 * f < rate -> let (b, a) := coefficientsR (coeff_inputsR rate) in
  exists G q, 0 <= G /\ 0 < q < 1 /\ forall p r N w, (0 < w <= N)%nat ->
    Rabs (mean_power w (outputsR b a (first N (sinusoid rate f p r))) - power_gain rate f * ((p ^ 2 + r ^ 2) / 2)) <=
    (p ^ 2 + r ^ 2) * (power_gain rate f / (2 * INR w * sin (2 * PI * f / rate)) + G * q ^ (N - w)).
Proof. exact level. Qed.
Example C66_example : 3364 <= 48000 /\ 0 < 997 /\ 2 * 997 < 48000 /\ 1.1723 <= power_gain 48000 997 <= 1.1726.
Proof. repeat split; try lra; apply gain_48000. Qed.

(** * C67: calibration *)
(** The constant of the loudness formula cancels the gain at 997 Hz: there, a signal of power [z] has a loudness of [10 log10 z]. *)
Theorem C67_at_48000 : forall z, 0 < z -> Rabs (lufs (power_gain 48000 997 * z) - 10 * (ln z / ln 10)) <= 0.002.
Proof. exact calibration_48000. Qed.
Theorem C67_from_32000 : forall rate z, 32000 <= rate -> 0 < z -> Rabs (lufs (power_gain rate 997 * z) - 10 * (ln z / ln 10)) <= 0.1.
Proof. exact calibration_from_32000. Qed.
(** a full-scale sine in one channel, -3.01 LUFS *)
Example C67_example : Rabs (lufs (power_gain 48000 997 * / 2) + 3.01) <= 0.003.
Proof. exact full_scale. Qed.

(** * C68: analyzers that hear a sinusoid *)
(** Channel [c] received samples within [d] of a sinusoid, the other channels are silent.  The mean square over the last [w]
    frames, which C58 ties to the reported loudness, is the channel's weight times the power of the sinusoid times [power_gain], up to
    the transient, [d], the rounding noise of C62 and an incomplete period. *)
Theorem C68_mean_square : forall rate f, (6728 <= rate)%N -> 0 < f -> 2 * f < IZR (Z.of_N rate) -> exists G q, 0 <= G /\ 0 < q < 1 /\
  forall P E c e t xs ws W p r d w, is_64bit P -> tan_accurate E -> powf_accurate E -> heard P E c e t xs ws -> e_rate e = rate -> 0 <= W ->
  Forall (fun y => BinarySingleNaN.is_finite y = true) (nth c (signals t) []) -> Forall (fun x => Rabs (real x) <= W) xs -> Forall (fun w => Rabs (real w) <= W) ws ->
  (forall j, j <> c -> Forall (fun y => real y = 0) (nth j (signals t) [])) ->
  (forall n, (n < length xs)%nat -> Rabs (real (nth n xs f64_zero) - sinusoid (IZR (Z.of_N rate)) f p r n) <= d) -> (0 < w <= length xs)%nat ->
  let z := power_gain (IZR (Z.of_N rate)) f * (p ^ 2 + r ^ 2) in let dev := G * ((Rabs p + Rabs r) * q ^ (length xs - w) + d + noise P W) in
  exists m, mean_square w (e_cmap e) (signals t) = weight (nth c (e_cmap e) Unused) * m /\
    Rabs (m - z / 2) <= dev * (2 * sqrt z + dev) + z / (2 * INR w * sin (2 * PI * f / IZR (Z.of_N rate))).
Proof. exact heard_sinusoid. Qed.
Example C68_example : tan_accurate env2 /\ powf_accurate env2 /\ exists e t, heard x86_64 env2 0 e t [f64_one] [f64_one] /\ e_rate e = 48000%N /\
  Forall (fun y => BinarySingleNaN.is_finite y = true) (nth 0 (signals t) []) /\ (forall j, j <> 0%nat -> Forall (fun y => real y = 0) (nth j (signals t) [])) /\
  Forall (fun x => Rabs (real x) <= 1) [f64_one] /\ (forall n, (n < length [f64_one])%nat -> Rabs (real (nth n [f64_one] f64_zero) - sinusoid 48000 997 1 0 n) <= 0).
Proof. exact (conj env2_tan (conj env2_powf sinusoid_case)). Qed.

(** * Assumptions *)
Print Assumptions C66_response.
Print Assumptions C66_level.
Print Assumptions C67_at_48000.
Print Assumptions C67_from_32000.
Print Assumptions C68_mean_square.
