(** Model of the memory behind the C API: src/capi.rs 22-60 and the dereferences of 73-449.
    A handle is a pointer to a boxed State, which points to a boxed EbuR128.  Using a null or
    dangling pointer, a pointer to a cell of the other kind, or freeing a cell that is not
    allocated is [UB].
    Simplifications: allocation always succeeds (Rust aborts otherwise); every function
    dereferences both pointers before doing anything else, except where the code returns before
    the first dereference (src/capi.rs 120-122, 142-144), so the model has undefined behaviour
    wherever the code has; the buffers handed to add_frames and the output pointers are not cells. *)
From Coq Require Import ZArith NArith List Bool Arith.
From Verif Require Import Prelude Float Env Utils History Filter Ebur128 Capi.
Import ListNotations.

(** src/capi.rs 7-12 (State with its raw pointer) and the target of `internal` *)
Inductive cell :=
| CellState (mode : Z) (channels samplerate : N) (internal : nat)
| CellAnalyzer (e : ebur128).
Definition heap := list (nat * cell).
(** the global allocator, as an oracle: the address it picks *)
Definition allocator := heap -> nat.

(** `*p` *)
Fixpoint load (h : heap) (a : nat) : outcome cell :=
  match h with
  | [] => UB
  | (b, c) :: h => if a =? b then Ret c else load h a
  end.
(** `*p = c` *)
Definition store (h : heap) (a : nat) (c : cell) : heap :=
  map (fun x => if fst x =? a then (fst x, c) else x) h.
(** Box::into_raw(Box::new(c)) *)
Definition alloc (A : allocator) (h : heap) (c : cell) : nat * heap := (A h, (A h, c) :: h).
(** drop(Box::from_raw(p)) *)
Definition free (h : heap) (a : nat) : outcome heap :=
  _ <- load h a ;; Ret (List.filter (fun x => negb (fst x =? a)) h).

(** `let s = &mut *state; let e = &mut *s.internal;` (src/capi.rs 79-80 and likewise in every
    function): the pointer to the analyzer and what both pointers give access to *)
Definition deref (h : heap) (p : option nat) : outcome (nat * nat * cstate) :=
  match p with
  | None => UB
  | Some a =>
      c <- load h a ;;
      match c with
      | CellState m ch r b =>
          d <- load h b ;;
          match d with
          | CellAnalyzer e => Ret (a, b, {| cs_mode := m; cs_channels := ch; cs_samplerate := r; cs_internal := e |})
          | _ => UB
          end
      | _ => UB
      end
  end.

(** src/capi.rs 23-46: ebur128_init *)
Definition h_init (P : platform) (E : ext) (A : allocator) (h : heap) (channels samplerate : N) (m : Z)
  : outcome (option nat * heap) :=
  r <- c_init P E channels samplerate m ;;
  match r with
  | None => Ret (None, h)
  | Some s =>
      let '(b, h) := alloc A h (CellAnalyzer (cs_internal s)) in
      let '(a, h) := alloc A h (CellState (cs_mode s) (cs_channels s) (cs_samplerate s) b) in
      Ret (Some a, h)
  end.

(** src/capi.rs 49-60: ebur128_destroy; [None] is a null argument, [Some p] the address of a
    variable that holds [p].  Returns the new value of the variable. *)
Definition h_destroy (h : heap) (state : option (option nat)) : outcome (option (option nat) * heap) :=
  match state with
  | None => Ret (None, h)
  | Some None => Ret (Some None, h)
  | Some (Some a) =>
      c <- load h a ;;
      match c with
      | CellState _ _ _ b =>
          d <- load h b ;;
          match d with
          | CellAnalyzer _ => h <- free h b ;; h <- free h a ;; Ret (Some None, h)
          | _ => UB
          end
      | _ => UB
      end
  end.

(** src/capi.rs 73-245: the modifying functions *)
Definition h_call (P : platform) (E : ext) (h : heap) (p : option nat) (c : ccall) : outcome (Z * heap) :=
  if match c with CSetMaxWindow w | CSetMaxHistory w => (u32_max <? w)%N | _ => false end
  then Ret (error_code NoMem, h)
  else
    '(a, b, s) <- deref h p ;;
    '(k, s) <- c_call P E s c ;;
    Ret (k, store (store h b (CellAnalyzer (cs_internal s))) a
                  (CellState (cs_mode s) (cs_channels s) (cs_samplerate s) b)).

(** src/capi.rs 248-259, 282-343, 366-449: the queries (through `&`, so the heap stays) *)
Definition h_ask (P : platform) (E : ext) (h : heap) (p : option nat) (q : cquery) : outcome (Z * option f64) :=
  '(_, _, s) <- deref h p ;; c_ask P E s q.

(** src/capi.rs 262-279 and 346-363: the queries over several handles *)
Fixpoint deref_all (h : heap) (ps : list (option nat)) : outcome (list cstate) :=
  match ps with
  | [] => Ret []
  | p :: ps => '(_, _, s) <- deref h p ;; ss <- deref_all h ps ;; Ret (s :: ss)
  end.
Definition h_global_multiple (P : platform) (E : ext) (h : heap) (ps : list (option nat)) : outcome (Z * option f64) :=
  ss <- deref_all h ps ;; c_loudness_global_multiple P E ss.
Definition h_range_multiple (P : platform) (E : ext) (h : heap) (ps : list (option nat)) : outcome (Z * option f64) :=
  ss <- deref_all h ps ;; c_loudness_range_multiple P E ss.

(** A C program (not part of /repo: the caller of src/capi.rs): it keeps handles in variables. *)
Inductive command :=
| KInit (i : nat) (channels samplerate : N) (m : Z)
| KDestroy (i : nat)
| KDestroyNull
| KCall (i : nat) (c : ccall)
| KAsk (i : nat) (q : cquery)
| KGlobal (is : list nat)
| KRange (is : list nat).
(** what it sees of a call *)
Inductive seen :=
| SawHandle (null : bool)
| SawNothing
| SawCode (k : Z)
| SawValue (k : Z) (out : option f64).
Fixpoint replace {T} (l : list T) (i : nat) (x : T) : list T :=
  match l, i with
  | [], _ => []
  | _ :: l, 0 => x :: l
  | y :: l, S i => y :: replace l i x
  end.
Definition variable (vars : list (option nat)) (i : nat) : outcome (option nat) :=
  match nth_error vars i with Some p => Ret p | None => UB end.
Fixpoint variables (vars : list (option nat)) (is : list nat) : outcome (list (option nat)) :=
  match is with
  | [] => Ret []
  | i :: is => p <- variable vars i ;; ps <- variables vars is ;; Ret (p :: ps)
  end.
Definition execute (P : platform) (E : ext) (A : allocator) (w : heap * list (option nat)) (k : command)
  : outcome (seen * (heap * list (option nat))) :=
  let '(h, vars) := w in
  match k with
  | KInit i ch r m =>
      _ <- variable vars i ;; '(p, h) <- h_init P E A h ch r m ;;
      Ret (SawHandle (match p with None => true | _ => false end), (h, replace vars i p))
  | KDestroy i =>
      p <- variable vars i ;; '(v, h) <- h_destroy h (Some p) ;;
      Ret (SawNothing, (h, match v with Some p => replace vars i p | None => vars end))
  | KDestroyNull => '(_, h) <- h_destroy h None ;; Ret (SawNothing, (h, vars))
  | KCall i c => p <- variable vars i ;; '(k, h) <- h_call P E h p c ;; Ret (SawCode k, (h, vars))
  | KAsk i q => p <- variable vars i ;; '(k, o) <- h_ask P E h p q ;; Ret (SawValue k o, (h, vars))
  | KGlobal is => ps <- variables vars is ;; '(k, o) <- h_global_multiple P E h ps ;; Ret (SawValue k o, (h, vars))
  | KRange is => ps <- variables vars is ;; '(k, o) <- h_range_multiple P E h ps ;; Ret (SawValue k o, (h, vars))
  end.
Fixpoint execute_all (P : platform) (E : ext) (A : allocator) (w : heap * list (option nat)) (ks : list command)
  : outcome (list seen * (heap * list (option nat))) :=
  match ks with
  | [] => Ret ([], w)
  | k :: ks => '(o, w) <- execute P E A w k ;; '(os, w) <- execute_all P E A w ks ;; Ret (o :: os, w)
  end.
