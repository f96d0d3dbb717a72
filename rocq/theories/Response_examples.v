(** A case the theorem about sinusoids applies to. *)
From Coq Require Import List Arith NArith ZArith Bool Lia Reals Lra.
From Flocq Require Import IEEE754.BinarySingleNaN.
From Verif Require Import Prelude Float Env Filter Ebur128 Spec Spec_real Spec_filter Spec_coeff Spec_response Heard_proofs Instance Instance_coeff.
Import ListNotations.
Local Open Scope R_scope.

Lemma sinusoid_case : exists e t, heard x86_64 env2 0 e t [f64_one] [f64_one] /\ e_rate e = 48000%N /\
  Forall (fun y => is_finite y = true) (nth 0 (signals t) []) /\ (forall j, j <> 0%nat -> Forall (fun y => real y = 0) (nth j (signals t) [])) /\
  Forall (fun x => Rabs (real x) <= 1) [f64_one] /\ (forall n, (n < length [f64_one])%nat -> Rabs (real (nth n [f64_one] f64_zero) - sinusoid 48000 997 1 0 n) <= 0).
Proof.
  destruct heard_mono as (e & t & H & C & R & y & EY & FY). exists e, t. split; auto. split; auto. assert (real f64_one = 1) as E1 by apply one_normal. repeat split.
  - rewrite EY. auto.
  - intros j Hj. destruct (taped_sizes x86_64 env2 e t ltac:(split; reflexivity) (heard_taped x86_64 env2 0 e t _ _ ltac:(split; reflexivity) H)) as (T1 & _).
    rewrite nth_overflow; [constructor|]. unfold signals. rewrite map_length. change (length t <= j)%nat. rewrite C in T1. lia.
  - constructor; [|constructor]. rewrite E1, Rabs_R1. lra.
  - intros [|n] Hn; [|cbn in Hn; lia]. cbn [nth]. rewrite E1. unfold sinusoid. cbn [INR]. rewrite Rmult_0_r, cos_0, sin_0. replace (1 - (1 * 1 + 0 * 0)) with 0 by ring. rewrite Rabs_R0. lra.
Qed.
