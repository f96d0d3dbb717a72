(** Vocabulary of the comparison with the C reference interpolator and true peak (C84). *)
From Coq Require Import List Arith NArith ZArith Reals.
From Flocq Require IEEE754.BinarySingleNaN.
From Verif Require Import Prelude Float Env Utils Cref Cref_filter Cref_interp Ebur128 Spec Spec_real Spec_interp.
Import ListNotations.
Local Open Scope R_scope.

(** what is assumed of C's sin and cos, as of Rust's: errors of at most 2^-50 *)
Definition csin_accurate (L : libc) : Prop := forall x, BinarySingleNaN.is_finite x = true -> Rabs (real x) <= 38 ->
  BinarySingleNaN.is_finite (c_sin L x) = true /\ Rabs (real (c_sin L x) - sin (real x)) <= / 2 ^ 50.
Definition ccos_accurate (L : libc) : Prop := forall x, BinarySingleNaN.is_finite x = true -> Rabs (real x) <= 7 ->
  BinarySingleNaN.is_finite (c_cos L x) = true /\ Rabs (real (c_cos L x) - cos (real x)) <= / 2 ^ 50.

(** what the C interpolator, which computes in f64 and rounds to f32 at the end, adds *)
Definition fir_noise_c (M : R) : R := / 2 ^ 22 * M + / 2 ^ 124.
(** channel [c] of a list of frames *)
Definition channel_of (c : nat) (frames : list (list f32)) : list f32 := map (fun fr => nth c fr f32_zero) frames.
(** A C true peak object created for [rate] and [C] channels after calls of true_peak_check_<type>_c (of any types) on [past],
    all the frames so far as f32 samples.  [past] are all the frames of these calls. *)
Inductive fed_c (P : platform) (L : libc) (rate : N) (C : nat) : ctrue_peak -> list (list f32) -> Prop :=
| fed_create tp : true_peak_create_c L rate C = Some tp -> fed_c P L rate C tp []
| fed_check tp past T (t : ctype T) frames peaks tp' peaks' : fed_c P L rate C tp past -> Forall (fun fr => length fr = C) frames ->
    true_peak_check_c P t tp (length frames) (concat frames) peaks = Ret (tp', peaks') ->
    fed_c P L rate C tp' (past ++ map (map (resampled_c P t)) frames).
(** The same with the peaks, which are kept from call to call, starting at zero *)
Inductive metered_c (P : platform) (L : libc) (rate : N) (C : nat) : ctrue_peak -> list (list f32) -> list f64 -> Prop :=
| metered_create tp : true_peak_create_c L rate C = Some tp -> metered_c P L rate C tp [] (repeat f64_zero C)
| metered_check tp past T (t : ctype T) frames peaks tp' peaks' : metered_c P L rate C tp past peaks -> Forall (fun fr => length fr = C) frames ->
    true_peak_check_c P t tp (length frames) (concat frames) peaks = Ret (tp', peaks') ->
    metered_c P L rate C tp' (past ++ map (map (resampled_c P t)) frames) peaks'.
(** A new analyzer to which frames were only added: nothing seeded, reset or changed in between.  The log is the one of [logged]. *)
Inductive added (P : platform) (E : ext) : ebur128 -> log -> Prop :=
| added_new channels rate m e : ebur128_new P E channels rate m = Ret (Ok e) -> supported m rate -> added P E e (empty_log (N.to_nat channels))
| added_step e a r e' lg : added P E e lg -> admissible e (OpAdd a) -> step P E e (OpAdd a) = Ret (r, e') ->
    added P E e' (log_after P E e (OpAdd a) lg).
