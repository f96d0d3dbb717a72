(** Specification of recorded blocks, gating and loudness range. *)
From Coq Require Import List Arith NArith ZArith Bool Reals Sorted Permutation.
From Flocq Require IEEE754.BinarySingleNaN.
From Verif Require Import Prelude Float Env Tables Utils History Filter Ebur128 Spec Spec_real.
Import ListNotations.

(** * The bins *)

(** The 1001 bounds and the 1000 centres of the histogram bins.  The bounds are the energies
    -70.0, -69.9, ..., +30.0 LUFS, the centres -69.95, -69.85, ..., +29.95 LUFS (C19). *)
Definition bound (i : nat) : f64 := nth i BOUNDARIES f64_zero.
Definition centre (i : nat) : f64 := nth i ENERGIES f64_zero.
(** the bin an energy belongs to: the outermost bins also take what lies beyond them, the
    lowest one also NaN *)
Definition in_bin (i : nat) (x : f64) : bool :=
  (i <? 1000) && ((i =? 0) || f64_ge x (bound i)) && ((i =? 999) || negb (f64_ge x (bound (i + 1)))).
(** the absolute gate: everything that is not below -70 LUFS *)
Definition measurable (x : f64) : bool := negb (f64_lt x (bound 0)).

(** * What a history holds *)

(** Pairs of a number of blocks and their energy: every block on its own in a list history, the
    bin centres with their counts in a histogram. *)
Definition contents (h : history) : list (N * f64) :=
  match h with
  | HQueue q => map (fun x => (1%N, x)) (q_queue q)
  | HHistogram c => combine c ENERGIES
  end.
Definition population (l : list (N * f64)) : N := fold_right (fun b n => (fst b + n)%N) 0%N l.
(** the energies of all blocks added up (in f64, in this order) *)
Definition energy_sum (l : list (N * f64)) : f64 :=
  fold_left (fun t '(n, x) => f64_add t (f64_mul (f64_of_N n) x)) l f64_zero.
Definition mean_energy (l : list (N * f64)) : f64 := f64_div (energy_sum l) (f64_of_N (population l)).
Definition at_least (g : f64) (l : list (N * f64)) : list (N * f64) := List.filter (fun b => f64_ge (snd b) g) l.
(** counters are u64 *)
Definition countable (l : list (N * f64)) : Prop := (population l < 18446744073709551616)%N.

(** * Gated loudness *)

(** -10 dB and -20 dB as the code computes them, powf(10, -1) and powf(10, -2) *)
Definition tenth (E : ext) : f64 := e_powf E (f64_of_Z 10) (f64_of_Z (-1)).
Definition hundredth (E : ext) : f64 := e_powf E (f64_of_Z 10) (f64_of_Z (-2)).
(** what is assumed of powf where it matters: these two values to 50 bits *)
Definition powf_contract (E : ext) : Prop :=
  (BinarySingleNaN.is_finite (tenth E) = true /\ (Rabs (real (tenth E) - 1 / 10) <= / 2 ^ 50)%R) /\
  (BinarySingleNaN.is_finite (hundredth E) = true /\ (Rabs (real (hundredth E) - 1 / 100) <= / 2 ^ 50)%R).

(** Several histories: their sums are added up *)
Definition sum_all (ls : list (list (N * f64))) : f64 :=
  fold_left (fun t l => f64_add t (energy_sum l)) ls f64_zero.
Definition mean_all (ls : list (list (N * f64))) : f64 := f64_div (sum_all ls) (f64_of_N (population (concat ls))).
(** the relative gate: 10 dB below the mean of everything recorded *)
Definition gate (E : ext) (ls : list (list (N * f64))) : f64 := f64_mul (mean_all ls) (tenth E).
Definition passing (E : ext) (ls : list (list (N * f64))) : list (N * f64) := at_least (gate E ls) (concat ls).
(** number and energy of the blocks that pass the relative gate *)
Definition gated (E : ext) (ls : list (list (N * f64))) : option (N * f64) :=
  if (population (concat ls) =? 0)%N || f64_is_nan (sum_all ls) || (population (passing E ls) =? 0)%N then None
  else Some (population (passing E ls), energy_sum (passing E ls)).
(** the loudness of a programme: of the mean of the blocks that pass *)
Definition programme_loudness (E : ext) (ls : list (list (N * f64))) : f64 :=
  if negb (population (concat ls) =? 0)%N && f64_is_nan (sum_all ls) then f64_nan
  else match gated E ls with
       | Some (n, x) => loudness E (f64_div x (f64_of_N n))
       | None => f64_neg f64_inf
       end.
Definition threshold (E : ext) (l : list (N * f64)) : f64 :=
  if (population l =? 0)%N then f64_of_Z (-70)
  else if f64_is_nan (energy_sum l) then f64_nan
  else loudness E (f64_mul (mean_energy l) (tenth E)).

(** * Loudness range *)

(** all blocks one by one *)
Definition expand (l : list (N * f64)) : list f64 := flat_map (fun b => repeat (snd b) (N.to_nat (fst b))) l.
(** the element at 0-based position (n - 1) p rounded to the nearest, for p = 95/100 and 10/100 *)
Definition high_percentile (l : list f64) : f64 := nth ((19 * (length l - 1) + 10) / 20) l f64_zero.
Definition low_percentile (l : list f64) : f64 := nth ((length l - 1 + 5) / 10) l f64_zero.
(** EBU Tech 3342, for blocks in ascending order *)
Definition range_of (E : ext) (l : list (N * f64)) : f64 :=
  if (population l =? 0)%N then f64_zero else
  let r := expand (at_least (f64_mul (hundredth E) (mean_energy l)) l) in
  if length r =? 0 then f64_zero
  else f64_sub (loudness E (high_percentile r)) (loudness E (low_percentile r)).
Definition ascending (l : list f64) : Prop := StronglySorted (fun a b => f64_le a b = true) l.
(** Up to this number of blocks (2^46) the positions computed in f64 are the exact ones. *)
Definition small_count : N := 70368744177664.
(** one block each *)
Definition singly (l : list f64) : list (N * f64) := map (fun x => (1%N, x)) l.

(** what is assumed of log10 where it matters: it is monotone and does not overflow for positive
    numbers, and log10(NaN) is NaN *)
Definition positive (x : f64) : Prop := BinarySingleNaN.is_finite x = true /\ (0 < real x)%R.
Definition log10_contract (E : ext) : Prop :=
  (forall x, positive x -> BinarySingleNaN.is_finite (e_log10 E x) = true /\ (Rabs (real (e_log10 E x)) <= 400)%R) /\
  (forall x y, positive x -> positive y -> f64_le x y = true -> f64_le (e_log10 E x) (e_log10 E y) = true).
Definition log10_nan (E : ext) : Prop := e_log10 E f64_nan = f64_nan.

(** the last [n] elements *)
Definition latest {A} (n : nat) (l : list A) : list A := skipn (length l - n) l.
(** how many of some energies belong to bin [i] *)
Definition hits (i : nat) (xs : list f64) : N := N.of_nat (length (List.filter (in_bin i) xs)).
(** an energy a list history can hold: NaN or at least -70 LUFS if it was measured; set_max_history
    can add zeros (C30) *)
Definition storable (x : f64) : Prop := measurable x = true \/ x = f64_zero.

(** * All blocks ever measured *)

(** The energies of the blocks that end in the frames of a call: [n] frames before it, [n'] after
    it, and the K-weighted signals after it. *)
Definition ended_blocks (P : platform) (E : ext) (e : ebur128) (o : op) (t : list track) (bits : list N)
    (w : nat) (ends : nat -> nat -> nat -> list nat) : list f64 :=
  match o with
  | OpAdd a =>
      match input P (e_channels e) a with
      | None => []
      | Some cols =>
          let n := frames_of (signals t) in
          if forallb (N.testbit (e_mode e)) bits
          then map (energy_at (capacity e) (w * hop e) (e_cmap e) (signals (tape_after P E e o t)))
                   (ends (hop e) n (n + frames_of cols))
          else []
      end
  | _ => []
  end.
(** An analyzer on which set_max_history was never called, what was heard since its start
    ([taped]), and the energies of all its 400 ms blocks and all its 3 s blocks since its
    construction or last reset. *)
Inductive noted (P : platform) (E : ext) : ebur128 -> list track -> list f64 -> list f64 -> Prop :=
| noted_new channels rate m e :
    ebur128_new P E channels rate m = Ret (Ok e) -> supported m rate ->
    noted P E e (blank (N.to_nat channels)) [] []
| noted_step e t b s o r e' :
    noted P E e t b s -> admissible e o -> step P E e o = Ret (r, e') -> o <> OpReset -> (forall h, o <> OpSetMaxHistory h) ->
    noted P E e' (tape_after P E e o t) (b ++ ended_blocks P E e o t [0; 2]%N 4 block_ends)
                                        (s ++ ended_blocks P E e o t [0; 1; 3]%N 30 short_ends)
| noted_reset e t b s r e' :
    noted P E e t b s -> step P E e OpReset = Ret (r, e') ->
    noted P E e' (tape_after P E e OpReset t) [] [].
(** what a history holds that recorded [xs] *)
Definition holds (h : history) (limit : N) (xs : list f64) : Prop :=
  let xs := List.filter measurable xs in
  match h with
  | HQueue q => q_max q = limit /\ q_queue q = latest (N.to_nat limit) xs
  | HHistogram c => length c = 1000 /\ forall i, nth i c 0%N = hits i xs
  end.

(** * Queries that are refused *)

(** The documented preconditions: mode bits M = 0, S = 1, I = 2, LRA = 3, SAMPLE_PEAK = 4,
    TRUE_PEAK = 5; the channel must exist, and the window must fit into the buffer. *)
Definition refusal (e : ebur128) (q : query) : option error :=
  let needs bits := if forallb (N.testbit (e_mode e)) bits then None else Some InvalidMode in
  let present c := if (c <? N.of_nat (e_channels e))%N then None else Some InvalidChannelIndex in
  let buffered n := if capacity e <? n then Some InvalidMode else None in
  match q with
  | QMomentary | QCount => None
  | QShortterm => buffered (30 * hop e)
  | QWindow ms => buffered (N.to_nat (e_rate e * ms / 1000))
  | QGlobal | QThreshold => needs [0; 2]%N
  | QRange => needs [0; 1; 3]%N
  | QSamplePeak c | QPrevSamplePeak c =>
      match needs [0; 4]%N with Some r => Some r | None => present c end
  | QTruePeak c | QPrevTruePeak c =>
      match needs [0; 4; 5]%N with Some r => Some r | None => present c end
  end.
Definition refused (a : answer) : option error := match a with AValue (Err r) => Some r | _ => None end.
(** a sequence of calls each of which is admissible in the state it meets *)
Fixpoint all_admissible (P : platform) (E : ext) (e : ebur128) (os : list op) : Prop :=
  match os with
  | [] => True
  | o :: os => admissible e o /\ forall r e', step P E e o = Ret (r, e') -> all_admissible P E e' os
  end.
(** every window length is a u32 *)
Definition askable (q : query) : Prop := match q with QWindow ms => (ms <= 4294967295)%N | _ => True end.

(** * Several analyzers *)

(** the recorded 400 ms blocks and 3 s blocks of an analyzer *)
Definition blocks (e : ebur128) : list (N * f64) := contents (e_block e).
Definition short_blocks (e : ebur128) : list (N * f64) := contents (e_short e).
(** one history that holds all blocks of several histories of its kind, in whatever order *)
Definition merges (hs : list history) (h : history) : Prop :=
  match h with
  | HQueue q => exists qs, hs = map HQueue qs /\ Permutation (q_queue q) (concat (map q_queue qs))
  | HHistogram c => length c = 1000 /\ exists cs, hs = map HHistogram cs /\
      forall i, nth i c 0%N = fold_right (fun d n => (nth i d 0 + n)%N) 0%N cs
  end.
