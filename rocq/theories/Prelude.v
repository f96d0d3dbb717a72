(** Outcomes, results and checked list access: the vocabulary of the model.
    Nothing in this file is specific to ebur128; it renders Rust's panics,
    `Result`, slice indexing and iterator helpers. *)
From Coq Require Import List Arith NArith ZArith Lia Bool.
Import ListNotations.

(** What a call to a Rust function can do.  [Panic] is any Rust panic
    (failed assert!, index out of range, integer under/overflow, capacity
    overflow), [UB] an out-of-range unchecked access, [OutOfFuel] a loop that
    did not end within the number of iterations allotted to it by the model. *)
Inductive outcome (A : Type) : Type :=
| Ret (a : A)
| Panic
| UB
| OutOfFuel.
Arguments Ret {A} a.
Arguments Panic {A}.
Arguments UB {A}.
Arguments OutOfFuel {A}.

Definition obind {A B} (x : outcome A) (f : A -> outcome B) : outcome B :=
  match x with
  | Ret a => f a
  | Panic => Panic
  | UB => UB
  | OutOfFuel => OutOfFuel
  end.

Notation "x <- e ;; k" := (obind e (fun x => k))
  (at level 100, e at next level, right associativity).
Notation "' p <- e ;; k" := (obind e (fun x => match x with p => k end))
  (at level 100, p pattern, e at next level, right associativity).

(** `assert!(b)` *)
Definition assert_ {A} (b : bool) (k : outcome A) : outcome A :=
  if b then k else Panic.
Notation "'assert!' b ;; k" := (assert_ b k)
  (at level 100, b at next level, right associativity).

(** src/ebur128.rs 31-39: enum Error *)
Inductive error := NoMem | InvalidMode | InvalidChannelIndex.

Inductive result (A : Type) : Type :=
| Ok (a : A)
| Err (e : error).
Arguments Ok {A} a.
Arguments Err {A} e.

(** `s[i]` *)
Definition idx {A} (l : list A) (i : nat) : outcome A :=
  match nth_error l i with Some a => Ret a | None => Panic end.

(** `s[i] = v` *)
Fixpoint upd {A} (l : list A) (i : nat) (v : A) : list A :=
  match l, i with
  | [], _ => []
  | _ :: t, O => v :: t
  | h :: t, S i => h :: upd t i v
  end.
Definition set_idx {A} (l : list A) (i : nat) (v : A) : outcome (list A) :=
  if i <? length l then Ret (upd l i v) else Panic.

(** `*s.get_unchecked_mut(i) = v` *)
Definition set_unchecked {A} (l : list A) (i : nat) (v : A) : outcome (list A) :=
  if i <? length l then Ret (upd l i v) else UB.

(** `&s[a..b]` *)
Definition slice {A} (l : list A) (a b : nat) : outcome (list A) :=
  if (a <=? b) && (b <=? length l) then Ret (firstn (b - a) (skipn a l)) else Panic.

(** `&s[a..]` *)
Definition slice_from {A} (l : list A) (a : nat) : outcome (list A) :=
  if a <=? length l then Ret (skipn a l) else Panic.

(** `a - b` on usize: panics on underflow *)
Definition sub_usize (a b : nat) : outcome nat :=
  if b <=? a then Ret (a - b) else Panic.

(** `s.chunks_exact(n)` (the incomplete tail is dropped; panics for n = 0) *)
Fixpoint chunks_fuel {A} (fuel n : nat) (l : list A) : list (list A) :=
  match fuel with
  | O => []
  | S fuel =>
      if n <=? length l then firstn n l :: chunks_fuel fuel n (skipn n l) else []
  end.
Definition chunks {A} (n : nat) (l : list A) : list (list A) := chunks_fuel (length l) n l.
Definition chunks_exact {A} (n : nat) (l : list A) : outcome (list (list A)) :=
  if n =? 0 then Panic else Ret (chunks n l).

Fixpoint omap {A B} (f : A -> outcome B) (l : list A) : outcome (list B) :=
  match l with
  | [] => Ret []
  | a :: t => b <- f a ;; bs <- omap f t ;; Ret (b :: bs)
  end.

Fixpoint ofold {A S} (f : S -> A -> outcome S) (s : S) (l : list A) : outcome S :=
  match l with
  | [] => Ret s
  | a :: t => s' <- f s a ;; ofold f s' t
  end.

Fixpoint map2 {A B C} (f : A -> B -> C) (l : list A) (m : list B) : list C :=
  match l, m with
  | a :: l, b :: m => f a b :: map2 f l m
  | _, _ => []
  end.
