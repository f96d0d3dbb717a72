(** Specification of energies as real numbers. *)
From Coq Require Import List Arith Reals.
From Flocq Require IEEE754.BinarySingleNaN.
From Verif Require Import Prelude Float Filter Spec.
Import ListNotations.

(** * Energies as real numbers *)

(** weights of ITU-R BS.1770 / EBU R 128 for the roles *)
Definition weight (ch : Filter.channel) : R :=
  match ch with
  | Unused => 0
  | LeftSurround | RightSurround | Mp060 | Mm060 | Mp090 | Mm090 => 141 / 100
  | DualMono => 2
  | _ => 1
  end.
Definition real (x : f64) : R := BinarySingleNaN.B2R x.
Definition total (l : list R) : R := fold_right Rplus 0%R l.
(** the mean over the last [w] frames of the weighted sum of squares of all channels *)
Definition mean_square (w : nat) (roles : list Filter.channel) (ss : list (list f64)) : R :=
  (total (map (fun '(ch, ys) => weight ch * total (map (fun y => real y * real y) (recent w ys))) (combine roles ss)) / INR w)%R.
(** [x] is the nonnegative number [X] up to [n] rounding errors of a factor 1 +- 2^-53 each and
    an underflow of [d] halves of the smallest subnormal *)
Definition roundoff : R := (/ 2 ^ 53)%R.
Definition underflow : R := (/ 2 ^ 1075)%R.
Definition nearly (n : nat) (d : R) (x X : R) : Prop :=
  ((1 - roundoff) ^ n * X - d * underflow <= x <= (1 + roundoff) ^ n * (X + d * underflow))%R.

(** * Decibels *)

(** the energy [z] dB above 1, and the loudness of an energy in LUFS *)
Definition decibel (z : R) : R := Rpower 10 (z / 10).
Definition lufs (x : R) : R := (10 * (ln x / ln 10) - 691 / 1000)%R.
