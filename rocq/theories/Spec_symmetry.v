(** Vocabulary of the symmetry properties: inverted polarity (C56), exchanged channels (C57). *)
From Coq Require Import ZArith NArith List Bool Arith.
From Flocq Require IEEE754.BinarySingleNaN.
From Verif Require Import Prelude Float Env Utils Filter Ebur128 Spec.
Import ListNotations.

(** * Polarity *)

(** The samples of the channels picked by [flips] negated, in interleaved data with [C] channels
    and in planar data.  (For integers the negation is exact; [Z.opp] of the most negative i16 or
    i32 is outside the type, so for such a sample the statements say nothing about the code.) *)
Definition flip_interleaved {T} (neg : T -> T) (flips : nat -> bool) (C : nat) (l : list T) : list T :=
  map (fun '(k, x) => if flips (k mod C) then neg x else x) (combine (seq 0 (length l)) l).
Definition flip_planes {T} (neg : T -> T) (flips : nat -> bool) (l : list (list T)) : list (list T) :=
  map (fun '(c, p) => if flips c then map neg p else p) (combine (seq 0 (length l)) l).
Definition invert (flips : nat -> bool) (C : nat) (a : audio) : audio :=
  let neg32 := @BinarySingleNaN.Bopp 24 128 in
  match a with
  | AI16 l => AI16 (flip_interleaved Z.opp flips C l)
  | AI32 l => AI32 (flip_interleaved Z.opp flips C l)
  | AF32 l => AF32 (flip_interleaved neg32 flips C l)
  | AF64 l => AF64 (flip_interleaved f64_neg flips C l)
  | PI16 l => PI16 (flip_planes Z.opp flips l)
  | PI32 l => PI32 (flip_planes Z.opp flips l)
  | PF32 l => PF32 (flip_planes neg32 flips l)
  | PF64 l => PF64 (flip_planes f64_neg flips l)
  end.
Definition inverted_op (flips : nat -> bool) (C : nat) (o : op) : op :=
  match o with
  | OpAdd a => OpAdd (invert flips C a)
  | OpSeed a => OpSeed (invert flips C a)
  | o => o
  end.
(** the same calls made to two analyzers, the audio of the second one inverted *)
Inductive inverted_session (P : platform) (E : ext) (flips : nat -> bool)
  : ebur128 -> ebur128 -> ebur128 -> ebur128 -> Prop :=
| inverted_nil e f : inverted_session P E flips e f e f
| inverted_cons e f o r r' e1 f1 e2 f2 :
    admissible e o -> admissible f (inverted_op flips (e_channels e) o) ->
    step P E e o = Ret (r, e1) -> step P E f (inverted_op flips (e_channels e) o) = Ret (r', f1) ->
    inverted_session P E flips e1 f1 e2 f2 -> inverted_session P E flips e f e2 f2.

(** * Exchanging two channels *)

(** the first two exchanged *)
Definition exchange {A} (l : list A) : list A :=
  match l with
  | a :: b :: l => b :: a :: l
  | l => l
  end.
Definition exchanged_channel (C : nat) (c : N) : N :=
  if C <? 2 then c else if (c =? 0)%N then 1%N else if (c =? 1)%N then 0%N else c.
(** the roles that count alike: not at all, plain, as surround, twice *)
Definition weight_class (ch : Filter.channel) : nat :=
  match ch with
  | Unused => 0
  | LeftSurround | RightSurround | Mp060 | Mm060 | Mp090 | Mm090 => 2
  | DualMono => 3
  | _ => 1
  end.
Definition same_weight (ch ch' : Filter.channel) : Prop := weight_class ch = weight_class ch'.
(** the same call with the first two channels exchanged *)
Definition exchanged_call (P : platform) (e : ebur128) (o o' : op) : Prop :=
  match o, o' with
  | OpAdd a, OpAdd b | OpSeed a, OpSeed b =>
      same_input (fun x y => y = exchange x) (input P (e_channels e) a) (input P (e_channels e) b)
  | OpSetChannel n v, OpSetChannel n' v' => n' = exchanged_channel (e_channels e) n /\ same_weight v v'
  | OpSetChannelMap m, OpSetChannelMap m' => Forall2 same_weight (exchange m) m'
  | _, _ => o = o'
  end.
Inductive exchanged_session (P : platform) (E : ext) : ebur128 -> ebur128 -> ebur128 -> ebur128 -> Prop :=
| exchanged_nil e f : exchanged_session P E e f e f
| exchanged_cons e f o o' r r' e1 f1 e2 f2 :
    exchanged_call P e o o' -> admissible e o -> admissible f o' ->
    step P E e o = Ret (r, e1) -> step P E f o' = Ret (r', f1) ->
    exchanged_session P E e1 f1 e2 f2 -> exchanged_session P E e f e2 f2.
(** the query about the exchanged channel *)
Definition exchanged_query (C : nat) (q : query) : query :=
  match q with
  | QSamplePeak c => QSamplePeak (exchanged_channel C c)
  | QPrevSamplePeak c => QPrevSamplePeak (exchanged_channel C c)
  | QTruePeak c => QTruePeak (exchanged_channel C c)
  | QPrevTruePeak c => QPrevTruePeak (exchanged_channel C c)
  | q => q
  end.
