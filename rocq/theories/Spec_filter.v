(** The weighting filter in exact arithmetic: the code of Filter.v read over the real numbers, and
    what it should be (ITU-R BS.1770, Annex 1: a high shelf followed by a high pass). *)
From Coq Require Import List Arith Reals.
From Verif Require Import Filter.
Import ListNotations.
Local Open Scope R_scope.

(** real arithmetic for Filter.filter_step and Filter.filter_product *)
Definition arR : arith R := {| ar_add := Rplus; ar_sub := Rminus; ar_mul := Rmult; ar_div := Rdiv |}.
Definition rest : arr5 R := {| v0 := 0; v1 := 0; v2 := 0; v3 := 0; v4 := 0 |}.

(** src/filter.rs 65-71, 85-87: the parameters, with the decimal literals and tan and powf taken
    as real numbers and functions *)
Definition coeff_inputsR (rate : R) : coeff_inputs R :=
  let Vh := Rpower 10 (3.999843853973347 / 20) in
  {| c_zero := 0; c_one := 1; c_two := 2; c_mtwo := -2;
     c_K1 := tan (PI * 1681.974450955533 / rate); c_Q1 := 0.7071752369554196;
     c_Vh := Vh; c_Vb := Rpower Vh 0.4996667741545416;
     c_K2 := tan (PI * 38.13547087602444 / rate); c_Q2 := 0.5003270373238773 |}.
(** src/filter.rs 64-110 in real arithmetic *)
Definition coefficientsR (c : coeff_inputs R) : arr5 R * arr5 R := filter_product arR (filter_sections arR c).
(** the outputs for the input [xs], starting with an empty memory *)
Definition outputsR (b a : arr5 R) (xs : list R) : list R := snd (filter_run arR b a rest xs).

(** * Specification *)

(** the value [k] samples before sample [n]; 0 before the start *)
Definition before (xs : list R) (n k : nat) : R := if (n <? k)%nat then 0 else nth (n - k) xs 0.
(** [c_0 x_n + c_1 x_(n-1) + ... + c_4 x_(n-4)] *)
Definition convolved (c : arr5 R) (xs : list R) (n : nat) : R :=
  v0 c * before xs n 0 + v1 c * before xs n 1 + v2 c * before xs n 2 + v3 c * before xs n 3 + v4 c * before xs n 4.

(** the polynomial in [z], the unit delay *)
Definition poly (c : arr5 R) (z : R) : R := v0 c + v1 c * z + v2 c * z ^ 2 + v3 c * z ^ 3 + v4 c * z ^ 4.
(** the analog prototypes of the two sections, numerator and denominator *)
Definition shelf_num (c : coeff_inputs R) (s : R) : R := c_Vh c * s ^ 2 + c_Vb c / c_Q1 c * s + 1.
Definition resonance (q s : R) : R := s ^ 2 + s / q + 1.
(** the bilinear transform with [K = tan (PI f / rate)] *)
Definition bilinear (k z : R) : R := (1 - z) / (k * (1 + z)).

(** [u + i v] is a pole: a root of [a_0 l^4 + a_1 l^3 + a_2 l^2 + a_3 l + a_4] *)
Definition pole (a : arr5 R) (u v : R) : Prop :=
  let re2 := u * u - v * v in let im2 := 2 * u * v in
  let re3 := re2 * u - im2 * v in let im3 := re2 * v + im2 * u in
  let re4 := re2 * re2 - im2 * im2 in let im4 := 2 * re2 * im2 in
  v0 a * re4 + v1 a * re3 + v2 a * re2 + v3 a * u + v4 a = 0 /\ v0 a * im4 + v1 a * im3 + v2 a * im2 + v3 a * v = 0.

(** parameters of a filter: positive Q, and the constants the code computes with *)
Definition proper (c : coeff_inputs R) : Prop :=
  c_one c = 1 /\ c_two c = 2 /\ c_mtwo c = -2 /\ 0 < c_Q1 c /\ 0 < c_Q2 c.
