(** Vocabulary for the integrated loudness and the loudness range of the input samples in exact arithmetic (C73, C74). *)
From Coq Require Import List Arith NArith ZArith Reals.
From Flocq Require IEEE754.BinarySingleNaN.
From Verif Require Import Prelude Float Env Filter Ebur128 Spec Spec_real Spec_history Spec_accuracy Spec_exact.
Import ListNotations.
Local Open Scope R_scope.

(** the energies of the intervals of [w] frames of the samples [xss] that end after so many frames *)
Definition exact_energies (rate : N) (w : nat) (roles : list Filter.channel) (xss : list (list f64)) (ends : list nat) : list R :=
  map (fun k => exact_mean_square rate w roles (map (firstn k) xss)) ends.
(** the energy of -70 LUFS *)
Definition minus_70 : R := decibel (-70 + 691 / 1000).
Definition average (l : list R) : R := total l / INR (length l).
Definition not_below (g : R) (l : list R) : list R := List.filter (fun z => if Rle_dec g z then true else false) l.
(** the blocks not below -70 LUFS; the relative gate ([k] is 10 for -10 LU, 100 for -20 LU); the blocks not below both *)
Definition loud (l : list R) : list R := not_below minus_70 l.
Definition relative_gate (k : R) (l : list R) : R := average (loud l) / k.
Definition gated_blocks (k : R) (l : list R) : list R := not_below (relative_gate k l) (loud l).
Definition integrated (l : list R) : R := lufs (average (gated_blocks 10 l)).
(** no block is so near a gate that an error of [D] in its root mean square, and one of the fraction [r] in the gate, could
    put it on the other side *)
Definition decided (k D r : R) (l : list R) : Prop :=
  Forall (fun z => D < Rabs (sqrt z - sqrt minus_70)) l /\
  Forall (fun z => D + r * sqrt (relative_gate k l) < Rabs (sqrt z - sqrt (relative_gate k l))) (loud l).
(** an analyzer, new or reset, that has been given nothing but frames *)
Definition played (P : platform) (E : ext) (e : ebur128) (t : list track) : Prop :=
  exists e0 t0 os, noted P E e0 t0 [] [] /\ frames_of (signals t0) = 0%nat /\ taped_session P E e0 t0 os e t /\ Forall is_add os.
(** the 400 ms blocks of what it heard *)
Definition momentary_blocks (e : ebur128) (t : list track) (xss : list (list f64)) : list R :=
  exact_energies (e_rate e) (4 * hop e) (e_cmap e) xss (block_ends (hop e) 0 (frames_of (signals t))).
(** the 3 s blocks, and the blocks at 95 % and at 10 % of a list in ascending order (EBU Tech 3342) *)
Definition shortterm_blocks (e : ebur128) (t : list track) (xss : list (list f64)) : list R :=
  exact_energies (e_rate e) (30 * hop e) (e_cmap e) xss (short_ends (hop e) 0 (frames_of (signals t))).
Definition high_of (l : list R) : R := nth ((19 * (length l - 1) + 10) / 20) l 0.
Definition low_of (l : list R) : R := nth ((length l - 1 + 5) / 10) l 0.
