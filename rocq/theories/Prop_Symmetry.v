(** C56, C57: symmetries of the measurement. *)
From Coq Require Import ZArith NArith List Bool Arith.
From Verif Require Import Prelude Float Env Utils History Filter Ebur128 Spec Instance Examples Spec_symmetry Polarity_proofs
  Exchange_proofs Symmetry_examples.
Import ListNotations.

(** * C56: polarity *)

(** Two analyzers made alike receive the same calls, but in the audio given to the second one every sample of some of
    the channels (the same ones all along, picked by [flips]) has the opposite sign.  They record the same blocks and
    give the same answer to every query. *)
Theorem C56_polarity : forall P E flips channels rate m e e' f', is_64bit P ->
  ebur128_new P E channels rate m = Ret (Ok e) -> supported m rate -> inverted_session P E flips e e e' f' ->
  settings e' = settings f' /\ recorded e' = recorded f' /\ forall q, ask P E e' q = ask P E f' q.
Proof. exact polarity. Qed.
(** the second of two channels inverted: 22 blocks recorded, and what is buffered is not the same *)
Example C56_case : exists e e' f', ebur128_new x86_64 env0 2 20 63%N = Ret (Ok e) /\ supported 63%N 20 /\
  inverted_session x86_64 env0 second e e e' f' /\ blocks (e_block e') = 22%N /\ differ (e_audio e') (e_audio f') = true.
Proof. exact inverted_demo. Qed.

(** * C57: exchanged channels *)

(** Two analyzers made alike receive the same calls, but for the second one the first two channels are exchanged: in
    the audio, and in the roles assigned to channels, where a role may also be replaced by one of the same weight.
    They record the same blocks, give the same loudness, and the peaks of the first two channels are exchanged. *)
Theorem C57_exchange : forall P E channels rate m e e' f', is_64bit P ->
  ebur128_new P E channels rate m = Ret (Ok e) -> supported m rate -> exchanged_session P E e e e' f' ->
  recorded e' = recorded f' /\ e_channels e' = e_channels f' /\
  forall q, ask P E e' q = ask P E f' (exchanged_query (e_channels e') q).
Proof. exact exchanged. Qed.
Example C57_case : exists e e' f', ebur128_new x86_64 env0 2 20 63%N = Ret (Ok e) /\ supported 63%N 20 /\
  exchanged_session x86_64 env0 e e e' f' /\ (0 < blocks (e_block e'))%N /\ differ (e_audio e') (e_audio f') = true.
Proof. exact exchanged_demo. Qed.
(** Not so for other pairs of channels, even of the same weight: the sum over the channels is rounded in another
    order.  Here the second and the third of three channels are exchanged and the recorded energies differ. *)
Theorem C57_other_channels_refuted : exists l l' e e1 e2,
  ebur128_new x86_64 env0 3 20 MODE_I = Ret (Ok e) /\ supported MODE_I 20 /\
  e_cmap e = [Left; Right; Center] /\
  deinterleave 3 l' = exchange_last_two (deinterleave 3 l) /\
  step x86_64 env0 e (OpAdd (AI16 l)) = Ret (Ok tt, e1) /\ step x86_64 env0 e (OpAdd (AI16 l')) = Ret (Ok tt, e2) /\
  recorded e1 <> recorded e2.
Proof. exact order_matters. Qed.

(** * Assumptions *)
Print Assumptions C56_polarity.
Print Assumptions C57_exchange.
Print Assumptions C57_other_channels_refuted.
