(** Vocabulary for the response of the weighting filter to sinusoids (C66 - C68). *)
From Coq Require Import List Arith Reals.
From Verif Require Import Filter Spec_real Spec_filter.
Import ListNotations.
Local Open Scope R_scope.

(** sample [n] of a sinusoid of [f] Hz at [rate] samples per second, and its first [n] samples *)
Definition sinusoid (rate f p q : R) (n : nat) : R :=
  p * cos (2 * PI * f / rate * INR n) + q * sin (2 * PI * f / rate * INR n).
Definition first (n : nat) (x : nat -> R) : list R := map x (seq 0 n).

(** squares of the absolute values of the analog prototypes at the frequency [v], in units of their corner frequencies:
    [1 + i v / q - v^2], [(1 + i v Vb / Q1 - v^2 Vh) / (1 + i v / Q1 - v^2)] and [- v^2 / (1 + i v / Q2 - v^2)],
    the latter with the gain of the standard's table *)
Definition resonance_power (q v : R) : R := (1 - v ^ 2) ^ 2 + (v / q) ^ 2.
Definition shelf_power (c : coeff_inputs R) (v : R) : R :=
  ((1 - c_Vh c * v ^ 2) ^ 2 + (c_Vb c / c_Q1 c * v) ^ 2) / resonance_power (c_Q1 c) v.
Definition high_pass_power (c : coeff_inputs R) (v : R) : R :=
  (1 + c_K2 c / c_Q2 c + c_K2 c ^ 2) ^ 2 * v ^ 4 / resonance_power (c_Q2 c) v.
(** the factor by which the power of a sinusoid of [f] Hz grows; the bilinear transform maps [f] to [tan (PI f / rate)] *)
Definition power_gain (rate f : R) : R :=
  let c := coeff_inputsR rate in
  shelf_power c (tan (PI * f / rate) / c_K1 c) * high_pass_power c (tan (PI * f / rate) / c_K2 c).
(** the mean square of the last [w] values *)
Definition mean_power (w : nat) (ys : list R) : R := total (map (fun y => y * y) (skipn (length ys - w) ys)) / INR w.
