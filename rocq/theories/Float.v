(** binary64 / binary32 arithmetic as used by the Rust code.
    `f64` and `f32` are Flocq's IEEE-754 binary formats with a single NaN
    (the sign and payload of NaNs are not modelled); every operation rounds to
    nearest, ties to even, as Rust does. *)
From Coq Require Import ZArith NArith Bool Lia.
From Flocq Require Import Core.Core IEEE754.BinarySingleNaN.
Local Open Scope Z_scope.

#[global] Instance Hprec64 : FLX.Prec_gt_0 53 := eq_refl.
#[global] Instance Hmax64 : Prec_lt_emax 53 1024 := eq_refl.
#[global] Instance Hprec32 : FLX.Prec_gt_0 24 := eq_refl.
#[global] Instance Hmax32 : Prec_lt_emax 24 128 := eq_refl.

Definition f64 := binary_float 53 1024.
Definition f32 := binary_float 24 128.

(** * f64 operators `+ - * /`, comparisons, `abs`, unary minus *)
Definition f64_add (x y : f64) : f64 := Bplus mode_NE x y.
Definition f64_sub (x y : f64) : f64 := Bminus mode_NE x y.
Definition f64_mul (x y : f64) : f64 := Bmult mode_NE x y.
Definition f64_div (x y : f64) : f64 := Bdiv mode_NE x y.
Definition f64_abs (x : f64) : f64 := Babs x.
Definition f64_neg (x : f64) : f64 := Bopp x.
Definition f64_lt (x y : f64) : bool := Bltb x y.
Definition f64_le (x y : f64) : bool := Bleb x y.
Definition f64_gt (x y : f64) : bool := Bltb y x.
Definition f64_ge (x y : f64) : bool := Bleb y x.
Definition f64_is_nan (x : f64) : bool := is_nan x.

Definition f64_zero : f64 := B754_zero false.
Definition f64_nan : f64 := B754_nan.
Definition f64_inf : f64 := B754_infinity false.
Definition f64_neg_inf : f64 := B754_infinity true.

(** [m * 2^e], rounded.  Used for literals and integer conversions. *)
Definition f64_bin (m e : Z) : f64 := binary_normalize 53 1024 _ _ mode_NE m e false.
(** integer `as f64` *)
Definition f64_of_Z (z : Z) : f64 := f64_bin z 0.
Definition f64_of_N (n : N) : f64 := f64_of_Z (Z.of_N n).
Definition f64_of_nat (n : nat) : f64 := f64_of_Z (Z.of_nat n).

Definition f64_one : f64 := f64_of_Z 1.
Definition f64_two : f64 := f64_of_Z 2.
Definition f64_ten : f64 := f64_of_Z 10.
(** f64::EPSILON = 2^-52 *)
Definition f64_epsilon : f64 := f64_bin 1 (-52).

(** `x as u64` / `x as usize`: truncates, saturates, NaN becomes 0. *)
Definition f64_to_N (max : N) (x : f64) : N :=
  match x with
  | B754_nan => 0%N
  | B754_infinity true => 0%N
  | B754_infinity false => max
  | _ => let z := Btrunc x in
         if z <? 0 then 0%N else N.min (Z.to_N z) max
  end.

(** * f32 *)
Definition f32_add (x y : f32) : f32 := Bplus mode_NE x y.
Definition f32_mul (x y : f32) : f32 := Bmult mode_NE x y.
Definition f32_div (x y : f32) : f32 := Bdiv mode_NE x y.
(** `f32::mul_add`: one rounding *)
Definition f32_fma (x y z : f32) : f32 := Bfma mode_NE x y z.
Definition f32_abs (x : f32) : f32 := Babs x.
Definition f32_gt (x y : f32) : bool := Bltb y x.
Definition f32_zero : f32 := B754_zero false.
Definition f32_bin (m e : Z) : f32 := binary_normalize 24 128 _ _ mode_NE m e false.
Definition f32_of_Z (z : Z) : f32 := f32_bin z 0.

(** * conversions `as f64`, `as f32` *)
Definition f64_of_f32 (x : f32) : f64 :=
  match x with
  | B754_zero s => B754_zero s
  | B754_infinity s => B754_infinity s
  | B754_nan => B754_nan
  | B754_finite s m e _ => binary_normalize 53 1024 _ _ mode_NE (cond_Zopp s (Zpos m)) e s
  end.
Definition f32_of_f64 (x : f64) : f32 :=
  match x with
  | B754_zero s => B754_zero s
  | B754_infinity s => B754_infinity s
  | B754_nan => B754_nan
  | B754_finite s m e _ => binary_normalize 24 128 _ _ mode_NE (cond_Zopp s (Zpos m)) e s
  end.

(** * flush to zero
    With MXCSR.FTZ set an operation whose result would be subnormal returns a
    zero of the same sign. Simplification: the hardware decides tininess on
    the rounded-to-unbounded-exponent result; here the IEEE result is tested.
    The two differ only for exact results in (2^-1022 - 2^-1076, 2^-1022)
    (and the analogous f32 sliver). *)
Definition flush64 (x : f64) : f64 :=
  match x with
  | B754_finite s m e _ => if Zpos m <? 2 ^ 52 then B754_zero s else x
  | _ => x
  end.
Definition flush32 (x : f32) : f32 :=
  match x with
  | B754_finite s m e _ => if Zpos m <? 2 ^ 23 then B754_zero s else x
  | _ => x
  end.

Arguments f64_add : simpl never.
Arguments f64_sub : simpl never.
Arguments f64_mul : simpl never.
Arguments f64_div : simpl never.
Arguments f64_abs : simpl never.
Arguments f64_neg : simpl never.
Arguments f64_lt : simpl never.
Arguments f64_le : simpl never.
Arguments f64_gt : simpl never.
Arguments f64_ge : simpl never.
Arguments f64_is_nan : simpl never.
Arguments f64_bin : simpl never.
Arguments f64_of_Z : simpl never.
Arguments f64_of_N : simpl never.
Arguments f64_of_nat : simpl never.
Arguments f64_to_N : simpl never.
Arguments f32_add : simpl never.
Arguments f32_mul : simpl never.
Arguments f32_div : simpl never.
Arguments f32_fma : simpl never.
Arguments f32_abs : simpl never.
Arguments f32_gt : simpl never.
Arguments f32_bin : simpl never.
Arguments f32_of_Z : simpl never.
Arguments f64_of_f32 : simpl never.
Arguments f32_of_f64 : simpl never.
Arguments flush64 : simpl never.
Arguments flush32 : simpl never.
