(** Properties of the weighting filter in exact arithmetic: C15, C16.
    [outputsR b a xs] runs the code of Filter.process (Filter.filter_run) over the real numbers;
    [coefficientsR] is the code of filter_coefficients over the real numbers. *)
From Coq Require Import List Arith Reals Lra.
From Verif Require Import Filter Filter_proofs Spec_filter Kweight_proofs.
Import ListNotations.
Local Open Scope R_scope.

(** * C15: difference equation *)
Theorem C15_difference_equation : forall b a xs n, v0 a = 1 -> (n < length xs)%nat -> convolved a (outputsR b a xs) n = convolved b xs n.
Proof. exact difference_equation. Qed.
Theorem C15_one_output_per_sample : forall b a xs, length (outputsR b a xs) = length xs.
Proof. intros b a xs. apply filter_run_length. Qed.
(** the memory carries over: filtering in pieces is filtering at once *)
Theorem C15_pieces : forall b a xs ys, outputsR b a (xs ++ ys) =
  outputsR b a xs ++ snd (filter_run arR b a (fst (filter_run arR b a rest xs)) ys).
Proof. exact outputs_app. Qed.
(** these equations have no other solution *)
Theorem C15_unique : forall b a xs ys, v0 a = 1 -> length ys = length xs -> (forall n, (n < length xs)%nat -> convolved a ys n = convolved b xs n) ->
  ys = outputsR b a xs.
Proof. exact outputs_unique. Qed.
Theorem C15_coefficients : forall rate, v0 (snd (coefficientsR (coeff_inputsR rate))) = 1.
Proof. intros rate. apply leading. apply rate_proper. Qed.
Example C15_example : let a := {| v0 := 1; v1 := 2; v2 := 0; v3 := 0; v4 := 3 |} in let b := {| v0 := 5; v1 := 7; v2 := 0; v3 := 0; v4 := 0 |} in
  v0 a = 1 /\ outputsR b a [1; 0; 1] = [5; -3; 11].
Proof. split; [reflexivity|]. unfold outputsR. cbn. repeat f_equal; ring. Qed.

(** * C16: coefficients *)
(** product of the sections of BS.1770: the bilinear transforms of a high shelf and of a high pass
    (the latter with gain [1 + K / Q + K^2], as in the tables of the standard) *)
Theorem C16_transfer_function : forall c z, proper c -> c_K1 c > 0 -> c_K2 c > 0 -> z <> -1 ->
  let s1 := bilinear (c_K1 c) z in let s2 := bilinear (c_K2 c) z in
  poly (fst (coefficientsR c)) z * (resonance (c_Q1 c) s1 * resonance (c_Q2 c) s2) =
  poly (snd (coefficientsR c)) z * ((1 + c_K2 c / c_Q2 c + c_K2 c * c_K2 c) * shelf_num c s1 * s2 ^ 2).
Proof. exact transfer_function. Qed.
Theorem C16_rejects_dc : forall c, proper c -> let b := fst (coefficientsR c) in v0 b + v1 b + v2 b + v3 b + v4 b = 0.
Proof. exact dc. Qed.
Theorem C16_poles_inside : forall c, proper c -> 0 < c_K1 c -> 0 < c_K2 c -> forall u v, pole (snd (coefficientsR c)) u v -> u * u + v * v < 1.
Proof. exact stable_poles. Qed.
(** from 3364 Hz on: bounded input, bounded output *)
Theorem C16_stable : forall rate, 3364 <= rate -> let (b, a) := coefficientsR (coeff_inputsR rate) in
  exists G, forall xs M, 0 <= M -> (forall x, In x xs -> Rabs x <= M) -> forall y, In y (outputsR b a xs) -> Rabs y <= G * M.
Proof. exact stable_from_3364. Qed.
Theorem C16_parameters : forall rate, proper (coeff_inputsR rate) /\ (3364 <= rate -> 0 < c_K1 (coeff_inputsR rate) /\ 0 < c_K2 (coeff_inputsR rate)).
Proof. intros rate. split; [apply rate_proper|apply stable_rate]. Qed.
(** between 1682 and 3363 Hz: a pole outside the unit circle, and the response to a single sample
    of 1 grows beyond every bound *)
Theorem C16_pole_refuted : forall rate, 1682 <= rate <= 3363 -> exists u v, pole (snd (coefficientsR (coeff_inputsR rate))) u v /\ 1 < u * u + v * v.
Proof. intros rate H. apply unstable_pole; [apply rate_proper|apply rate_proper|now apply unstable_rate]. Qed.
Theorem C16_unbounded_refuted : forall rate, 1682 <= rate <= 3363 -> let (b, a) := coefficientsR (coeff_inputsR rate) in
  forall G, exists n y, In y (outputsR b a (1 :: repeat 0 n)) /\ G < Rabs y.
Proof. exact unbounded_below_3364. Qed.
Example C16_example : let c := coeff_inputsR 48000 in proper c /\ 0 < c_K1 c /\ 0 < c_K2 c /\ c_K1 (coeff_inputsR 2000) < 0.
Proof. split; [apply rate_proper|]. assert (3364 <= 48000) as H by lra. destruct (stable_rate _ H). repeat split; auto. apply unstable_rate. lra. Qed.

(** * Assumptions *)
Print Assumptions C15_difference_equation.
Print Assumptions C15_one_output_per_sample.
Print Assumptions C15_pieces.
Print Assumptions C15_unique.
Print Assumptions C15_coefficients.
Print Assumptions C16_transfer_function.
Print Assumptions C16_rejects_dc.
Print Assumptions C16_poles_inside.
Print Assumptions C16_stable.
Print Assumptions C16_parameters.
Print Assumptions C16_pole_refuted.
Print Assumptions C16_unbounded_refuted.
