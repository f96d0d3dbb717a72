(** C61, C62, C63: the weighting filter as computed against the filter in exact arithmetic. *)
From Coq Require Import List NArith ZArith Reals Lra.
From Flocq Require IEEE754.BinarySingleNaN.
From Verif Require Import Prelude Float Env Filter Ebur128 Spec Spec_real Spec_filter Spec_coeff Heard_proofs Instance_coeff Instance.
Import ListNotations.
Local Open Scope R_scope.

(** * C61: the coefficients *)
(** From 6728 Hz on they are finite and closer than 2^-37 to those defined with exact arithmetic and the real
    tan and power functions. *)
Theorem C61_coefficients : forall P E e, is_64bit P -> tan_accurate E -> powf_accurate E -> reachable P E e -> (6728 <= e_rate e)%N ->
  let (b, a) := coefficientsR (coeff_inputsR (IZR (Z.of_N (e_rate e)))) in
  all_finite (f_b (e_filter e)) /\ all_finite (f_a (e_filter e)) /\ all_close (/ 2 ^ 37) (f_b (e_filter e)) b /\ all_close (/ 2 ^ 37) (f_a (e_filter e)) a.
Proof. exact analyzer_coefficients. Qed.
Example C61_example : tan_accurate env2 /\ powf_accurate env2 /\ exists e, reachable x86_64 env2 e /\ e_rate e = 48000%N.
Proof. exact (conj env2_tan (conj env2_powf reachable_case)). Qed.

(** * C62: rounding acts like noise at the input and the output *)
(** [W] bounds the samples and the values the filter keeps. *)
Theorem C62_noise : forall P E c e t xs ws W, is_64bit P -> tan_accurate E -> powf_accurate E -> heard P E c e t xs ws -> (6728 <= e_rate e)%N -> 0 <= W ->
  Forall (fun y => BinarySingleNaN.is_finite y = true) (nth c (signals t) []) -> Forall (fun x => Rabs (real x) <= W) xs -> Forall (fun w => Rabs (real w) <= W) ws ->
  let (b, a) := coefficientsR (coeff_inputsR (IZR (Z.of_N (e_rate e)))) in
  exists ds es, length ds = length xs /\ length es = length xs /\ length (nth c (signals t) []) = length xs /\
    Forall (fun d => Rabs d <= noise P W) ds /\ Forall (fun d => Rabs d <= noise P W) es /\
    outputsR b a (map2 Rplus (map real xs) ds) = map2 Rminus (map real (nth c (signals t) [])) es.
Proof. exact heard_noise. Qed.
(** so the error does not grow with the length of the programme *)
Theorem C62_error : forall rate, (6728 <= rate)%N -> exists G, forall P E c e t xs ws W,
  is_64bit P -> tan_accurate E -> powf_accurate E -> heard P E c e t xs ws -> e_rate e = rate -> 0 <= W ->
  Forall (fun y => BinarySingleNaN.is_finite y = true) (nth c (signals t) []) -> Forall (fun x => Rabs (real x) <= W) xs -> Forall (fun w => Rabs (real w) <= W) ws ->
  let (b, a) := coefficientsR (coeff_inputsR (IZR (Z.of_N rate))) in
  forall n, (n < length xs)%nat -> Rabs (real (nth n (nth c (signals t) []) f64_zero) - nth n (outputsR b a (map real xs)) 0) <= G * noise P W.
Proof. exact heard_error. Qed.
Example C62_example : tan_accurate env2 /\ powf_accurate env2 /\
  exists e t, heard x86_64 env2 0 e t [f64_one] [f64_one] /\ e_rate e = 48000%N /\ exists y, nth 0 (signals t) [] = [y] /\ BinarySingleNaN.is_finite y = true.
Proof. exact (conj env2_tan (conj env2_powf heard_case)). Qed.

(** * C63: in exact arithmetic the filter is linear, time-invariant and causal *)
Theorem C63_sum : forall b a xs ys, length ys = length xs -> outputsR b a (map2 Rplus xs ys) = map2 Rplus (outputsR b a xs) (outputsR b a ys).
Proof. exact outputs_sum. Qed.
Theorem C63_scale : forall b a k xs, outputsR b a (map (Rmult k) xs) = map (Rmult k) (outputsR b a xs).
Proof. exact outputs_scale. Qed.
Theorem C63_delay : forall b a k xs, outputsR b a (repeat 0 k ++ xs) = repeat 0 k ++ outputsR b a xs.
Proof. exact outputs_delay. Qed.
Theorem C63_causal : forall b a xs ys, firstn (length xs) (outputsR b a (xs ++ ys)) = outputsR b a xs.
Proof. exact outputs_causal. Qed.
Example C63_example : let b := {| v0 := 1; v1 := 2; v2 := 0; v3 := 0; v4 := 0 |} in let a := {| v0 := 1; v1 := -1; v2 := 0; v3 := 0; v4 := 0 |} in
  outputsR b a [1; 0; 1] = [1; 3; 4].
Proof. cbn. repeat f_equal; lra. Qed.

(** * Assumptions *)
Print Assumptions C61_coefficients.
Print Assumptions C62_noise.
Print Assumptions C62_error.
Print Assumptions C63_sum.
Print Assumptions C63_scale.
Print Assumptions C63_delay.
Print Assumptions C63_causal.
