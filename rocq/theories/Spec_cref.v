(** Vocabulary of the comparison with the C reference code of tests/c (C81 - C84). *)
From Coq Require Import List NArith ZArith Bool Reals Sorted Permutation.
From Flocq Require IEEE754.BinarySingleNaN.
From Verif Require Import Prelude Float Env Tables Utils History Cref Spec Spec_real Spec_history Spec_accuracy.
Import ListNotations.

(** * The two mathematical libraries *)

(** what is assumed of C's log: an error of at most 2^-43 (values of log stay below 2^10, where that is one unit in the
    last place) and 2^-51 at 10, and the usual special cases *)
Definition log_accurate (L : libc) : Prop :=
  (forall x, positive x -> BinarySingleNaN.is_finite (c_log L x) = true /\
                           (Rabs (real (c_log L x) - ln (real x)) <= / 2 ^ 43)%R) /\
  (Rabs (real (c_log L (f64_of_Z 10)) - ln 10) <= / 2 ^ 51)%R /\
  c_log L f64_inf = f64_inf /\ c_log L f64_zero = f64_neg f64_inf /\ c_log L f64_nan = f64_nan.
(** contract of qsort with a comparison that orders all numbers *)
Definition qsort_contract (L : libc) : Prop :=
  forall l, Forall (fun x => f64_is_nan x = false) l ->
    Permutation l (c_qsort L l) /\ StronglySorted (fun a b => f64_le a b = true) (c_qsort L l).
(** Rust's powf is C's pow *)
Definition same_pow (E : ext) (L : libc) : Prop := forall x y, e_powf E x y = c_pow L x y.
(** Rust's log10 is C's log(x) / log(10): what the C code computes, and the Rust code when it is compiled as a test
    (src/utils.rs 31) *)
Definition same_log (E : ext) (L : libc) : Prop := forall x, e_log10 E x = f64_div (c_log L x) (c_log L (f64_of_Z 10)).
(** Run with this library, examples/generate_histogram_bins.rs writes the src/histogram_bins.rs that is in the
    repository. *)
Definition regenerates (E : ext) : Prop := generate_histogram_bins E = (ENERGIES, BOUNDARIES).

(** * The histories *)

(** The C history after `history_init_c`, `history_create_c` and one `history_add_c` for each energy *)
Definition recorded_c (L : libc) (use_histogram : bool) (max : N) (xs : list f64) : outcome chistory :=
  ofold (history_add_c (history_init_c L)) (history_create_c use_histogram max) xs.
(** two readings that are the same, or finite and at most 2^-34 (6e-11) apart *)
Definition same_reading (a b : f64) : Prop :=
  a = b \/ (BinarySingleNaN.is_finite a = true /\ BinarySingleNaN.is_finite b = true /\ (Rabs (real a - real b) <= / 2 ^ 34)%R).
Definition no_nan (xs : list f64) : Prop := Forall (fun x => f64_is_nan x = false) xs.
