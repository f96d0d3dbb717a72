(** Vocabulary of the accuracy properties: reported values in LUFS against exact real arithmetic (C58 - C60). *)
From Coq Require Import List NArith ZArith Reals.
From Flocq Require IEEE754.BinarySingleNaN.
From Verif Require Import Float Env Spec_real Spec_history.
Import ListNotations.
Local Open Scope R_scope.

(** what is assumed of log10: an absolute error of at most 2^-42 (for values below 2^9 that is twice the spacing of
    f64, so an error of two units in the last place is allowed for), and the usual special cases *)
Definition log10_accurate (E : ext) : Prop :=
  (forall x, positive x -> BinarySingleNaN.is_finite (e_log10 E x) = true /\
                           Rabs (real (e_log10 E x) - ln (real x) / ln 10) <= / 2 ^ 42) /\
  e_log10 E f64_inf = f64_inf /\ e_log10 E f64_zero = f64_neg f64_inf /\ log10_nan E.

(** the error allowed, in LU, after [n] roundings *)
Definition tolerance (n : nat) : R := 10 * INR n * roundoff + / 10 ^ 11.
Definition close (n : nat) (v : f64) (V : R) : Prop :=
  BinarySingleNaN.is_finite v = true /\ Rabs (real v - V) <= tolerance n.

(** number of roundings on the way to the loudness of a programme, to a relative threshold, to a loudness range *)
Definition programme_effort (ls : list (list (N * f64))) : nat := length (concat ls) + 3 * length ls + 102.
Definition range_effort (l : list (N * f64)) : nat := length l + 1000.

(** the mean energy of some blocks, as a real number *)
Definition amount (n : N) : R := IZR (Z.of_N n).
Definition exact_sum (l : list (N * f64)) : R := total (map (fun b => amount (fst b) * real (snd b)) l).
Definition exact_mean (l : list (N * f64)) : R := exact_sum l / amount (population l).

(** The measurements as BS.1770 and EBU Tech 3342 word them, in real arithmetic: the mean energy of the blocks that are at
    most 10 LU below the mean energy of all blocks; the distance of two percentiles of the blocks that are at most 20 LU
    below it (10 LU: a tenth of the energy; 20 LU: a hundredth) *)
Definition textbook_passing (k : R) (l : list (N * f64)) : list (N * f64) :=
  List.filter (fun b => if Rle_dec (exact_mean l / k) (real (snd b)) then true else false) l.
Definition textbook_programme (l : list (N * f64)) : R := lufs (exact_mean (textbook_passing 10 l)).
Definition textbook_range (l : list (N * f64)) : R :=
  let r := expand (textbook_passing 100 l) in lufs (real (high_percentile r)) - lufs (real (low_percentile r)).
(** no block is so close to the gate ([d] LU below the mean) that an error of [t] LU decides whether it passes *)
Definition clear_of_gate (d t : R) (l : list (N * f64)) : Prop :=
  forall n x, In (n, x) l -> n <> 0%N -> 0 < real x -> t < Rabs (lufs (real x) - (lufs (exact_mean l) - d)).
