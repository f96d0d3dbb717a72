(** Vocabulary for the readings of sinusoids (C80). *)
From Coq Require Import List Arith NArith ZArith Reals.
From Verif Require Import Prelude Float Env Filter Spec_real Spec_response.
Import ListNotations.
Local Open Scope R_scope.

(** the channels [xss] are [n] samples of sinusoids of [f] Hz, up to [delta] (the rounding of the samples), where a channel counts;
    [ts] has the amplitudes of the cosine and the sine of each channel *)
Definition plays_sines (rate : N) (f delta : R) (roles : list Filter.channel) (ts : list (R * R)) (n : nat) (xss : list (list f64)) : Prop :=
  length ts = length roles /\
  forall c, (c < length roles)%nat -> nth c roles Unused <> Unused ->
    Forall2 (fun x y => Rabs (real y - x) <= delta) (first n (sinusoid (IZR (Z.of_N rate)) f (fst (nth c ts (0, 0))) (snd (nth c ts (0, 0))))) (nth c xss []).
(** the sum of the powers of the sinusoids, with the weights of their channels *)
Definition sine_power (roles : list Filter.channel) (ts : list (R * R)) : R :=
  total (map (fun '(ch, (p, q)) => weight ch * ((p ^ 2 + q ^ 2) / 2)) (combine roles ts)).
(** the part of a period that a window of [w] frames may have too much, as a fraction of the window *)
Definition odd_period (rate : N) (f : R) (w : nat) : R := / (INR w * sin (2 * PI * f / IZR (Z.of_N rate))).
