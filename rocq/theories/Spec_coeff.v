(** Vocabulary for the filter coefficients as real numbers (C61). *)
From Coq Require Import ZArith NArith List Reals.
From Flocq Require IEEE754.BinarySingleNaN.
From Verif Require Import Prelude Float Env Filter Ebur128 Spec Spec_real.
Import ListNotations.
Local Open Scope R_scope.

(** what is assumed of tan and powf in the ranges the code uses them in: errors of at most 2^-50 and 2^-48 (that is 4 and
    2 units in the last place of the largest results) *)
Definition tan_accurate (E : ext) : Prop := forall x, BinarySingleNaN.is_finite x = true -> 0 < real x < 1 ->
  BinarySingleNaN.is_finite (e_tan E x) = true /\ Rabs (real (e_tan E x) - tan (real x)) <= / 2 ^ 50.
Definition powf_accurate (E : ext) : Prop := forall x y, BinarySingleNaN.is_finite x = true -> BinarySingleNaN.is_finite y = true ->
  1 <= real x <= 10 -> 0 <= real y <= 1 ->
  BinarySingleNaN.is_finite (e_powf E x y) = true /\ Rabs (real (e_powf E x y) - Rpower (real x) (real y)) <= / 2 ^ 48.

(** five coefficients in f64 and as real numbers, all closer than [d] *)
Definition all_close (d : R) (c : arr5 f64) (C : arr5 R) : Prop :=
  Rabs (real (v0 c) - v0 C) <= d /\ Rabs (real (v1 c) - v1 C) <= d /\ Rabs (real (v2 c) - v2 C) <= d /\
  Rabs (real (v3 c) - v3 C) <= d /\ Rabs (real (v4 c) - v4 C) <= d.
Definition all_finite (c : arr5 f64) : Prop :=
  BinarySingleNaN.is_finite (v0 c) = true /\ BinarySingleNaN.is_finite (v1 c) = true /\ BinarySingleNaN.is_finite (v2 c) = true /\
  BinarySingleNaN.is_finite (v3 c) = true /\ BinarySingleNaN.is_finite (v4 c) = true.

(** * Rounding in the filter *)
(** the value the filter keeps for each sample ("direct form II") *)
Fixpoint kept (P : platform) (b a : arr5 f64) (memory : arr5 f64) (xs : list f64) : list f64 :=
  match xs with
  | [] => []
  | x :: xs => let memory := fst (filter_step (ar64_ftz P) b a memory x) in v0 memory :: kept P b a memory xs
  end.
(** the same for audio that is filtered in pieces of [ks] samples *)
Fixpoint kept_pieces (P : platform) (E : ext) (rate : N) (ks : list nat) (memory : arr5 f64) (xs : list reading) : list f64 :=
  match ks with
  | [] => []
  | k :: ks =>
      let '(b, a) := filter_coefficients E (f64_of_N rate) in
      kept P b a memory (map r_64 (firstn k xs)) ++
      kept_pieces P E rate ks (fst (weigh P E rate memory (firstn k xs))) (skipn k xs)
  end.
(** An analyzer that heard audio in channel [c], never marked Unused, since its construction or last reset; its filter was not
    seeded and its window and parameters not changed.  Noted are the K-weighted signals ([taped]), the samples of
    the channel and the values its filter kept. *)
Inductive heard (P : platform) (E : ext) (c : nat) : ebur128 -> list track -> list f64 -> list f64 -> Prop :=
| heard_new channels rate m e :
    ebur128_new P E channels rate m = Ret (Ok e) -> supported m rate -> (c < N.to_nat channels)%nat ->
    heard P E c e (blank (N.to_nat channels)) [] []
| heard_reset e t xs ws r e' :
    heard P E c e t xs ws -> step P E e OpReset = Ret (r, e') -> heard P E c e' (blank (e_channels e)) [] []
| heard_add e t xs ws a r e' cols :
    heard P E c e t xs ws -> admissible e (OpAdd a) -> step P E e (OpAdd a) = Ret (r, e') -> input P (e_channels e) a = Some cols ->
    nth c (e_cmap e) Unused <> Unused ->
    heard P E c e' (tape_after P E e (OpAdd a) t) (xs ++ map r_64 (nth c cols []))
      (ws ++ kept_pieces P E (e_rate e) (pieces (frames_of cols) (hop e) (frames_of (signals t)) (frames_of cols))
               (fst (nth c t (zero5, []))) (nth c cols []))
| heard_other e t xs ws o r e' :
    heard P E c e t xs ws -> admissible e o -> step P E e o = Ret (r, e') ->
    (forall a, o <> OpAdd a) -> (forall a, o <> OpSeed a) -> o <> OpReset -> (forall w, o <> OpSetMaxWindow w) ->
    (forall n r, o <> OpChangeParameters n r) -> heard P E c e' t xs ws.
(** the noise: relative to the largest value the filter kept, and what flushing small values to zero adds *)
Definition noise (P : platform) (W : R) : R := / 2 ^ 34 * W + (if p_ftz P then / 2 ^ 1000 else / 2 ^ 43).
