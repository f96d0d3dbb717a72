(** Vocabulary for a programme with a gain applied to it (C76). *)
From Coq Require Import List Arith NArith ZArith Reals.
From Verif Require Import Prelude Float Env Filter Ebur128 Spec Spec_real Spec_accuracy Spec_exact Spec_programme.
Import ListNotations.
Local Open Scope R_scope.

(** the channels [yss] are [g] times the channels [xss], up to [delta] (the rounding of the samples), where a channel counts *)
Definition amplified (g delta : R) (roles : list Filter.channel) (xss yss : list (list f64)) : Prop :=
  length xss = length roles /\
  forall c, (c < length roles)%nat -> nth c roles Unused <> Unused ->
    Forall2 (fun x y => Rabs (real y - g * real x) <= delta) (nth c xss []) (nth c yss []).
(** what [rms_error] becomes: the filter's gain is at most 19.5 *)
Definition gain_error (P : platform) (rate : N) (M delta : R) (roles : list Filter.channel) : R :=
  sqrt (total (map weight roles)) * (filter_error P rate M + 19.5 * delta).
(** the energies after a gain of [g] *)
Definition louder (g : R) (l : list R) : list R := map (Rmult (g * g)) l.
(** the gain of so many LU *)
Definition gain_of (x : R) : R := Rpower 10 (x / 20).
(** the queries that read the last [w] frames *)
Definition reads_last (e : ebur128) (q : Spec.query) (w : nat) : Prop :=
  (q = QMomentary /\ w = 4 * hop e)%nat \/ (q = QShortterm /\ w = 30 * hop e)%nat \/
  exists ms, (ms <= 4294967295)%N /\ q = QWindow ms /\ w = N.to_nat (e_rate e * ms / 1000) /\ (1 <= w)%nat.
