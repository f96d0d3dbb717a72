(** Specification of programs that use several analyzers through the C API: every variable simply
    has its own analyzer (or none); there is no memory. *)
From Coq Require Import ZArith NArith List Bool Arith.
From Verif Require Import Prelude Float Env Utils History Filter Ebur128 Capi Handles Spec Spec_capi.
Import ListNotations.

(** the allocator never hands out an address that is in use *)
Definition allocator_contract (A : allocator) : Prop := forall h, ~ In (A h) (map fst h).

(** what each variable holds *)
Definition store_of := list (option cstate).
Definition held (w : store_of) (i : nat) (s : cstate) : Prop := nth_error w i = Some (Some s).
Inductive acts (P : platform) (E : ext) (w : store_of) : command -> seen -> store_of -> Prop :=
| acts_init i ch r m s : c_init P E ch r m = Ret s -> acts P E w (KInit i ch r m) (SawHandle (match s with None => true | _ => false end)) (replace w i s)
| acts_destroy i : acts P E w (KDestroy i) SawNothing (replace w i None)
| acts_destroy_null : acts P E w KDestroyNull SawNothing w
| acts_call i c s k s' : held w i s -> c_call P E s c = Ret (k, s') -> acts P E w (KCall i c) (SawCode k) (replace w i (Some s'))
| acts_ask i q s k o : held w i s -> c_ask P E s q = Ret (k, o) -> acts P E w (KAsk i q) (SawValue k o) w
| acts_global is ss k o : Forall2 (held w) is ss -> c_loudness_global_multiple P E ss = Ret (k, o) -> acts P E w (KGlobal is) (SawValue k o) w
| acts_range is ss k o : Forall2 (held w) is ss -> c_loudness_range_multiple P E ss = Ret (k, o) -> acts P E w (KRange is) (SawValue k o) w.

(** What the program owes: it initialises a variable only while that variable is null, uses only
    variables that are not null, and respects the contract of each call ([fair]).  Destroying is
    always allowed. *)
Definition proper_use (P : platform) (E : ext) (w : store_of) (k : command) : Prop :=
  match k with
  | KInit i ch r m => nth_error w i = Some None /\ (channels_valid ch /\ rate_valid (r mod 4294967296) -> supported (from_bits_truncate (i32_as_u8 m)) (r mod 4294967296))
  | KDestroy i => i < length w
  | KDestroyNull => True
  | KCall i c => exists s, held w i s /\ fair P s c
  | KAsk i q => exists s, held w i s
  | KGlobal is | KRange is => exists ss, Forall2 (held w) is ss
  end.
Inductive program (P : platform) (E : ext) : store_of -> list command -> list seen -> store_of -> Prop :=
| program_nil w : program P E w [] [] w
| program_cons w k o w1 ks os w2 : proper_use P E w k -> acts P E w k o w1 -> program P E w1 ks os w2 -> program P E w (k :: ks) (o :: os) w2.
(** [n] null variables *)
Definition start (n : nat) : store_of := repeat None n.

(** a program starts with empty memory and null variables *)
Definition begin (n : nat) : heap * list (option nat) := ([], repeat None n).

(** memory in use: two boxes per live analyzer *)
Definition live (w : store_of) : nat := length (List.filter (fun x => match x with Some _ => true | None => false end) w).
(** commands that touch variable [i], and those among them that can change it *)
Definition about (i : nat) (k : command) : bool :=
  match k with
  | KInit j _ _ _ | KDestroy j | KCall j _ | KAsk j _ => j =? i
  | _ => false
  end.
Definition changes (i : nat) (k : command) : bool :=
  match k with KInit j _ _ _ | KDestroy j | KCall j _ => j =? i | _ => false end.
(** the observations of the commands selected by [f] *)
Definition chosen (f : command -> bool) (ks : list command) (os : list seen) : list seen :=
  map snd (List.filter (fun x => f (fst x)) (combine ks os)).
