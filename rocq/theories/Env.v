(** The parts of the environment the code depends on. *)
From Coq Require Import ZArith NArith List Bool Sorted Permutation Lia.
From Verif Require Import Prelude Float.
Import ListNotations.

(** Target and feature selection made at compile time.
    [p_ftz]: x86/x86_64 with sse2 (src/filter.rs 376-428).
    [p_fma]: cargo feature `precision-true-peak` (src/utils.rs 345-357).
    [p_usize_max]: usize::MAX.
    [p_sum_neg0]: whether `iter().sum::<f64>()` starts from -0.0 (newer std)
    or from 0.0. *)
Record platform := {
  p_ftz : bool;
  p_fma : bool;
  p_usize_max : N;
  p_sum_neg0 : bool;
}.

Definition usize64_max : N := 18446744073709551615%N.
Definition usize32_max : N := 4294967295%N.
Definition u32_max : N := 4294967295%N.

(** x86_64 with default features *)
Definition x86_64 : platform :=
  {| p_ftz := true; p_fma := false; p_usize_max := usize64_max; p_sum_neg0 := false |}.
(** a 64-bit target without SSE2, e.g. aarch64 *)
Definition aarch64 : platform :=
  {| p_ftz := false; p_fma := false; p_usize_max := usize64_max; p_sum_neg0 := false |}.
(** 32-bit x86 with SSE2 *)
Definition i686 : platform :=
  {| p_ftz := true; p_fma := false; p_usize_max := usize32_max; p_sum_neg0 := false |}.

(** libm and the std algorithms the crate calls.  They are oracles: arbitrary
    functions of their arguments, constrained only by the contracts below where
    a theorem asks for them.
    [e_bsearch l x] is `l.binary_search(&x).unwrap_or_else(identity)`.
    [e_sort l] is `sort_unstable_by` with the comparator of
    src/history.rs 479-487: the rearranged vector and the final value of
    `contains_nan`. *)
Record ext := {
  e_tan : f64 -> f64;
  e_sin : f64 -> f64;
  e_cos : f64 -> f64;
  e_log10 : f64 -> f64;
  e_powf : f64 -> f64 -> f64;
  e_bsearch : list N -> N -> nat;
  e_sort : list f64 -> list f64 * bool;
}.

(** The comparator of src/history.rs 479-487 as "a is not greater than b":
    IEEE order on numbers, every NaN equal to every NaN and above all numbers. *)
Definition cmp_le (a b : f64) : bool :=
  f64_le a b || f64_is_nan b.

(** Contract of `slice::binary_search` (std documentation): on a sorted slice
    the result is the index of some equal element, or, if there is none, the
    insertion point that keeps the slice sorted. *)
Definition bsearch_contract (e : ext) : Prop :=
  forall l x, StronglySorted N.le l ->
    nth_error l (e_bsearch e l x) = Some x \/
    (~ In x l /\ (e_bsearch e l x <= length l)%nat /\
     (forall y, In y (firstn (e_bsearch e l x) l) -> (y < x)%N) /\
     (forall y, In y (skipn (e_bsearch e l x) l) -> (x < y)%N)).

(** Contract of `slice::sort_unstable_by` for that comparator (a total
    preorder): a sorted permutation.  `contains_nan` is set exactly when a
    comparison involving a NaN is made; with one element no comparison is made,
    with two or more a comparison sort compares every element at least once. *)
Definition sort_contract (e : ext) : Prop :=
  forall l,
    Permutation l (fst (e_sort e l)) /\
    StronglySorted (fun a b => cmp_le a b = true) (fst (e_sort e l)) /\
    (snd (e_sort e l) = true <-> (2 <= length l)%nat /\ existsb f64_is_nan l = true).

(** Arithmetic inside `ftz::with_ftz`: flushed when the platform has FTZ. *)
Definition ftz64 (P : platform) (x : f64) : f64 := if p_ftz P then flush64 x else x.
Definition ftz32 (P : platform) (x : f32) : f32 := if p_ftz P then flush32 x else x.
Arguments ftz64 : simpl never.
Arguments ftz32 : simpl never.

(** `iter().sum::<f64>()` *)
Definition sum_f64 (P : platform) (l : list f64) : f64 :=
  fold_left f64_add l (if p_sum_neg0 P then f64_neg f64_zero else f64_zero).
