(** C80: what sinusoids read. *)
From Coq Require Import List Arith NArith ZArith Reals.
From Flocq Require Import IEEE754.BinarySingleNaN.
From Verif Require Import Prelude Float Env Filter Ebur128 Spec Spec_real Spec_filter Spec_coeff Spec_accuracy Spec_exact Spec_normal Spec_response Spec_sine
  Instance_exact Sine_proofs Sine_examples Transient_proofs.
Import ListNotations.
Local Open Scope R_scope.

(** * C80: sinusoids *)
(** The response of the weighting filter, started from rest, to a sinusoid is from half a second on the sinusoid that has the
    amplitude of the filter's gain at that frequency, up to 10^-8 of the amplitude. *)
Theorem C80_settles : forall rate f p q, audio_rate rate -> let r := IZR (Z.of_N rate) in 0 <= f -> 2 * f < r ->
  exists p' q', p' ^ 2 + q' ^ 2 = power_gain r f * (p ^ 2 + q ^ 2) /\
  forall N n, (n < N)%nat -> r <= 2 * INR n ->
    Rabs (nth n (outputsR (fst (coefficientsR (coeff_inputsR r))) (snd (coefficientsR (coeff_inputsR r))) (first N (sinusoid r f p q))) 0 - sinusoid r f p' q' n) <= sqrt (p ^ 2 + q ^ 2) / 10 ^ 8.
Proof. exact (fun rate f p q HR H0 H1 => response_soon rate HR f H0 H1 p q). Qed.
Example C80_settles_example : audio_rate 48000 /\ 0 <= 997 /\ 2 * 997 < IZR (Z.of_N 48000).
Proof. exact settles_case. Qed.
(** A reading over a window that begins half a second or more after the sinusoids: the sum of the powers of the channels with the
    filter's gain, up to the part of a period in the window. *)
Theorem C80_reading : forall P E M f delta e t ts n xss q w v, is_64bit P -> log10_accurate E -> tan_precise E -> powf_accurate E ->
  audio_rate (e_rate e) -> 0 <= M <= 2 ^ 370 -> 0 <= delta <= M -> heard_all P E M e t xss -> plays_sines (e_rate e) f delta (e_cmap e) ts n xss ->
  reads_last e q w -> ask P E e q = Ret (AValue (Ok v)) ->
  let r := IZR (Z.of_N (e_rate e)) in 0 < f -> 2 * f < r -> / 100 <= power_gain r f -> r + 2 * INR w <= 2 * INR n -> odd_period (e_rate e) f w <= / 10 ->
  let z := power_gain r f * sine_power (e_cmap e) ts in let d := gain_error P (e_rate e) M delta (e_cmap e) in
  / 10 ^ 29 <= z -> 5 * d <= sqrt z ->
  is_finite v = true /\ Rabs (real v - lufs z) <= 14 * (d / sqrt z) + 6 * odd_period (e_rate e) f w + / 10 ^ 5 + tolerance (w + e_channels e + 4).
Proof. exact sine_reading. Qed.
(** At 997 Hz the momentary and the short-term loudness are the sum of the powers in dB: within 0.11 LU from 32 kHz on, within
    0.005 LU at 48 kHz. *)
Theorem C80_calibrated : forall P E M delta e t ts n xss q w v, is_64bit P -> log10_accurate E -> tan_precise E -> powf_accurate E ->
  (32000 <= e_rate e <= 768000)%N -> 0 <= M <= 2 ^ 370 -> 0 <= delta <= M -> heard_all P E M e t xss -> plays_sines (e_rate e) 997 delta (e_cmap e) ts n xss ->
  (q = QMomentary /\ w = 4 * hop e \/ q = QShortterm /\ w = 30 * hop e)%nat -> ask P E e q = Ret (AValue (Ok v)) -> IZR (Z.of_N (e_rate e)) / 2 + INR w <= INR n ->
  let a := sine_power (e_cmap e) ts in let d := gain_error P (e_rate e) M delta (e_cmap e) in
  / 10 ^ 29 <= a -> 5 * d <= sqrt a ->
  is_finite v = true /\ Rabs (real v - 10 * (ln a / ln 10)) <= 14 * (d / sqrt a) + 0.11 /\
  (e_rate e = 48000%N -> Rabs (real v - 10 * (ln a / ln 10)) <= 14 * (d / sqrt a) + 0.005).
Proof. exact sine_calibrated. Qed.
Example C80_calibrated_example : log10_accurate env4 /\ tan_precise env4 /\ powf_accurate env4 /\
  exists e t n v, heard_all x86_64 env4 1 e t [sine_samples n; sine_samples n] /\ (32000 <= e_rate e <= 768000)%N /\
  plays_sines (e_rate e) 997 (/ 2 ^ 50) (e_cmap e) [(0, 0.07); (0, 0.07)] n [sine_samples n; sine_samples n] /\
  ask x86_64 env4 e QMomentary = Ret (AValue (Ok v)) /\ let r := IZR (Z.of_N (e_rate e)) in 0 < 997 /\ 2 * 997 < r /\ / 100 <= power_gain r 997 /\ r / 2 + INR (4 * hop e) <= INR n /\ odd_period (e_rate e) 997 (4 * hop e) <= / 10 /\
  let a := sine_power (e_cmap e) [(0, 0.07); (0, 0.07)] in let d := gain_error x86_64 (e_rate e) 1 (/ 2 ^ 50) (e_cmap e) in
  / 10 ^ 29 <= a /\ 5 * d <= sqrt a /\ a <= power_gain r 997 * a.
Proof. exact (conj env4_log10 (conj env4_tan (conj env4_powf sine_case))). Qed.
(** The test signals 1 and 2 of EBU Tech 3341, at 997 Hz: a sine with the peak level of L dBFS in both front channels reads L LUFS. *)
Theorem C80_stereo : forall P E M delta e t p q p' q' A n xss qu w v, is_64bit P -> log10_accurate E -> tan_precise E -> powf_accurate E ->
  e_rate e = 48000%N -> e_cmap e = [Left; Right] -> 0 <= M <= 2 ^ 370 -> 0 <= delta <= M -> heard_all P E M e t xss ->
  plays_sines (e_rate e) 997 delta (e_cmap e) [(p, q); (p', q')] n xss -> p ^ 2 + q ^ 2 = A ^ 2 -> p' ^ 2 + q' ^ 2 = A ^ 2 ->
  (qu = QMomentary /\ w = 4 * hop e \/ qu = QShortterm /\ w = 30 * hop e)%nat -> ask P E e qu = Ret (AValue (Ok v)) -> 24000 + INR w <= INR n ->
  / 10 ^ 14 <= A -> 10 * filter_error P 48000 M + 200 * delta <= A ->
  is_finite v = true /\ Rabs (real v - 20 * (ln A / ln 10)) <= 20 * ((filter_error P 48000 M + 19.5 * delta) / A) + 0.005.
Proof. exact sine_stereo. Qed.
Example C80_stereo_example : exists e t n v, heard_all x86_64 env4 1 e t [sine_samples n; sine_samples n] /\ e_rate e = 48000%N /\ e_cmap e = [Left; Right] /\
  plays_sines (e_rate e) 997 (/ 2 ^ 50) (e_cmap e) [(0, 0.07); (0, 0.07)] n [sine_samples n; sine_samples n] /\
  ask x86_64 env4 e QMomentary = Ret (AValue (Ok v)) /\ 24000 + INR (4 * hop e) <= INR n /\ 10 * filter_error x86_64 48000 1 + 200 * / 2 ^ 50 <= 0.07 /\ 0 ^ 2 + 0.07 ^ 2 = 0.07 ^ 2 /\ / 10 ^ 14 <= 0.07.
Proof. exact stereo_case. Qed.

(** * Assumptions *)
Print Assumptions C80_settles.
Print Assumptions C80_reading.
Print Assumptions C80_calibrated.
Print Assumptions C80_stereo.
