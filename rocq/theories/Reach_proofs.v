(** Reachable states satisfy the analyzer invariant. *)
From Coq Require Import List Arith NArith ZArith Bool Lia.
From Verif Require Import Prelude Float Env Utils History Interp TruePeak Filter Ebur128 Ref Spec
  Prelude_proofs Utils_proofs Interp_proofs Float_proofs TruePeak_proofs Filter_proofs
  Geometry_proofs History_proofs Ebur128_proofs Ops_proofs.
Import ListNotations.

(** * Mode bits *)
Lemma contains_bits m f : contains m f = true <-> (forall i, N.testbit f i = true -> N.testbit m i = true).
Proof.
  unfold contains. rewrite N.eqb_eq. split.
  - intros H i Hi. rewrite <- H in Hi. rewrite N.land_spec in Hi. now apply andb_true_iff in Hi.
  - intros H. apply N.bits_inj. intros i. rewrite N.land_spec. specialize (H i).
    destruct (N.testbit f i); [now rewrite H|apply andb_false_r].
Qed.
Lemma bits7 f i : (f < 128)%N -> N.testbit f i = true ->
  i = 0%N \/ i = 1%N \/ i = 2%N \/ i = 3%N \/ i = 4%N \/ i = 5%N \/ i = 6%N.
Proof.
  intros Hf Hi. destruct (N.le_gt_cases 7 i) as [H|H]; [|lia].
  rewrite <- (N.mod_small f (2 ^ 7)) in Hi by (change (2 ^ 7)%N with 128%N; auto).
  rewrite N.mod_pow2_bits_high in Hi by auto. discriminate.
Qed.
Ltac bits := rewrite contains_bits; unfold has_M, has_S, has_I, has_LRA, has_SAMPLE_PEAK, has_TRUE_PEAK, has_HISTOGRAM, has_S, has_SAMPLE_PEAK;
  split; [intros H; repeat split; apply H; reflexivity
         |intros H i Hi; pose proof Hi as Hb; apply bits7 in Hi; [|reflexivity];
          repeat (destruct Hi as [->|Hi]; [try (cbv in Hb; discriminate Hb); try apply H|]);
          subst; try (cbv in Hb; discriminate Hb); apply H].
Lemma contains_M m : contains m MODE_M = true <-> has_M m. Proof. bits. Qed.
Lemma contains_S m : contains m MODE_S = true <-> has_S m. Proof. bits. Qed.
Lemma contains_I m : contains m MODE_I = true <-> has_I m. Proof. bits. Qed.
Lemma contains_LRA m : contains m MODE_LRA = true <-> has_LRA m. Proof. bits. Qed.
Lemma contains_SP m : contains m MODE_SAMPLE_PEAK = true <-> has_SAMPLE_PEAK m. Proof. bits. Qed.
Lemma contains_TP m : contains m MODE_TRUE_PEAK = true <-> has_TRUE_PEAK m. Proof. bits. Qed.
Lemma contains_H m : contains m MODE_HISTOGRAM = true <-> has_HISTOGRAM m. Proof. bits. Qed.

Lemma supported_good m rate : supported m rate <-> good_rate m rate.
Proof. unfold supported, good_rate. rewrite contains_S, contains_LRA. reflexivity. Qed.

Lemma window_mode m : window_of_mode m <> None <-> has_M m.
Proof.
  rewrite <- contains_M. unfold window_of_mode. destruct (contains m MODE_S) eqn:ES.
  - pose proof (s_m _ ES). split; intros; congruence.
  - destruct (contains m MODE_M); split; intros; congruence.
Qed.

Lemma params_valid c r : params_ok c r = true <-> channels_valid c /\ rate_valid r.
Proof. apply params_ok_spec. Qed.

Lemma admissible_op_ok e o : admissible e o -> op_ok e o.
Proof.
  assert (forall T C (l : list (list T)), planes_match C l -> planes_ok C l) as Hp.
  { intros T C l H Hn He. apply H. split; auto. }
  destruct o as [| |c r| | | |[]|[]]; simpl; auto.
  intros H Hpar. apply supported_good. apply H. now apply params_valid.
Qed.

(** On 32-bit targets construction may fail; when it succeeds the result is the same. *)
Lemma new_shape P E channels rate m e : ebur128_new P E channels rate m = Ret (Ok e) ->
  channels_valid channels /\ rate_valid rate /\ has_M m.
Proof.
  unfold ebur128_new. destruct (params_ok channels rate) eqn:Hp; cbn [negb]; [|discriminate].
  apply params_valid in Hp. rewrite <- window_mode. destruct (window_of_mode m); [|discriminate].
  intros _. split; [apply Hp|]. split; [apply Hp|discriminate].
Qed.

Lemma reachable_ok P E e : is_64bit P -> reachable P E e -> state_ok P E e.
Proof.
  intros HP. induction 1 as [channels rate m e Hn Hs|e o r e' Hr IH Ha Hst].
  - destruct (new_shape _ _ _ _ _ _ Hn) as (H1 & H2 & H3).
    destruct (ebur128_new_ok P E channels rate m HP) as (e1 & g & L & Hn' & Hinv & M & R & C & T & _).
    { apply params_valid. auto. }
    { now apply window_mode. }
    rewrite Hn in Hn'. apply Ret_inj in Hn'. assert (e = e1) by congruence. subst e1.
    apply supported_good in Hs. exists g, L. rewrite M, R. auto.
  - destruct (step_state P E e o HP IH (admissible_op_ok _ _ Ha)) as (r1 & e1 & Hst1 & Hok & _).
    rewrite Hst in Hst1. apply Ret_pair_inj in Hst1. destruct Hst1 as (_ & ->). auto.
Qed.
