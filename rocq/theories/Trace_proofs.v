(** What every call does to the analyzer and its ghost state, in one relation. *)
From Coq Require Import List Arith NArith ZArith Bool Lia.
From Flocq Require Import IEEE754.BinarySingleNaN.
From Verif Require Import Prelude Float Env Utils History Interp TruePeak Filter Ebur128 Ref
  Prelude_proofs Utils_proofs Interp_proofs Float_proofs TruePeak_proofs Filter_proofs
  Geometry_proofs History_proofs Ebur128_proofs Ops_proofs Chunk_proofs Spec Reach_proofs Input_proofs.
Import ListNotations.
Ltac Zify.zify_post_hook ::= Z.div_mod_to_equations.

Definition restarted E (e e' : ebur128) (L : nat) : Prop :=
  exists f, filter_new E (e_rate e) (e_channels e) (contains (e_mode e) MODE_SAMPLE_PEAK)
              (contains (e_mode e) MODE_TRUE_PEAK) = Ret f /\
    f_state f = repeat zero5 (e_channels e) /\ f_sample_peak f = repeat f64_zero (e_channels e) /\
    e' = {| e_mode := e_mode e; e_rate := e_rate e; e_channels := e_channels e;
          e_audio := concat (repeat (repeat f64_zero L) (e_channels e)); e_index := 0; e_needed := e_s100 e * 4;
          e_cmap := e_cmap e; e_s100 := e_s100 e; e_filter := f;
          e_block := history_reset (e_block e); e_short := history_reset (e_short e); e_counter := 0;
          e_sample_peak := repeat f64_zero (e_channels e);
          e_true_peak := repeat f64_zero (e_channels e);
          e_window := e_window e; e_history := e_history e |}.

Definition moved (P : platform) (E : ext) (e : ebur128) (g : ghost) (L : nat) (o : op)
    (e' : ebur128) (g' : ghost) (L' : nat) : Prop :=
  match o with
  | OpSetChannel _ _ | OpSetChannelMap _ => same_but_map e e' /\ g' = g /\ L' = L
  | OpChangeParameters c r => changed E e g L c r e' g' L'
  | OpSetMaxWindow w => rewindowed e g L w e' g' L'
  | OpSetMaxHistory h => e' = snd (set_max_history e h) /\ g' = g /\ L' = L
  | OpReset => restarted E e e' L /\
               g' = fresh_ghost (e_rate e) (e_channels e) L (contains (e_mode e) MODE_TRUE_PEAK) /\ L' = L
  | OpAdd a =>
      L' = L /\ input_ok P (e_channels e) (input P (e_channels e) a) /\
      (e', g') = match input P (e_channels e) a with
                 | None => (e, g)
                 | Some cols => added P E smp_reading e g (frame_count cols) cols
                 end
  | OpSeed a =>
      L' = L /\ input_ok P (e_channels e) (input P (e_channels e) a) /\
      (e', g') = match input P (e_channels e) a with
                 | None => (e, g)
                 | Some cols => seeded P E smp_reading e g (frame_count cols) cols
                 end
  end.

Definition good (P : platform) (E : ext) (e : ebur128) (g : ghost) (L : nat) : Prop :=
  inv P E e g L /\ timing e L /\ good_rate (e_mode e) (e_rate e).

Lemma columns_planar {T} C (cols : list (list T)) : 0 < C -> columns C cols ->
  view (Planar cols 0 (frame_count cols)) (frame_count cols) cols.
Proof. intros HC (H1 & H2). apply planar_view; auto. intros ->. cbn in H1. lia. Qed.
Lemma added_good {T} P E (S : sample T) e g L cols : good P E e g L -> columns (e_channels e) cols ->
  good P E (fst (added P E S e g (frame_count cols) cols)) (snd (added P E S e g (frame_count cols) cols)) L.
Proof.
  intros (H & Ht & Hg) Hc. pose proof (i_C _ _ _ _ _ H).
  destruct (add_frames_ok P E S L e g _ _ cols H Ht (columns_planar (e_channels e) cols ltac:(lia) Hc) (proj1 Hc)) as (_ & H1 & H2).
  split; [exact H1|]. split; [exact H2|].
  destruct (added_config P E S e g (frame_count cols) cols) as (-> & -> & _). auto.
Qed.
Lemma seeded_good {T} P E (S : sample T) e g L cols : good P E e g L -> columns (e_channels e) cols ->
  good P E (fst (seeded P E S e g (frame_count cols) cols)) (snd (seeded P E S e g (frame_count cols) cols)) L.
Proof.
  intros (H & Ht & Hg) Hc. pose proof (i_C _ _ _ _ _ H).
  destruct (seed_frames_ok P E S L e g _ _ cols H (columns_planar (e_channels e) cols ltac:(lia) Hc) (proj1 Hc)) as (_ & H1 & H2).
  split; [exact H1|]. split; [exact (H2 Ht)|]. exact Hg.
Qed.
Lemma input_cases_ok P E e g L a : good P E e g L -> audio_ok (e_channels e) a ->
  input_ok P (e_channels e) (input P (e_channels e) a).
Proof. intros (H & Ht & _) Ha. exact (proj2 (step_add P E L e g a H Ht Ha)). Qed.

Lemma step_good P E e g L o : is_64bit P -> good P E e g L -> op_ok e o ->
  exists r e' g' L', step P E e o = Ret (r, e') /\ good P E e' g' L' /\ moved P E e g L o e' g' L'.
Proof.
  intros HP HG Ho. pose proof HG as (H & Ht & Hg).
  destruct o as [number v|m|c rt|w|h| |a|a]; cbn [step moved].
  - destruct (set_channel_ok P E e g L number v H) as (r & e' & -> & H' & T' & X1 & X2 & X3).
    exists r, e', g, L. split; [reflexivity|].
    assert (same_but_map e e') as Hs.
    { destruct r as [[]|er]; [rewrite X3 by auto; eexists; reflexivity|].
      rewrite X1 by discriminate. exists (e_cmap e). destruct e; reflexivity. }
    split; [|auto]. split; [auto|]. split; [auto|]. destruct Hs as (m & ->). exact Hg.
  - destruct (set_channel_map_ok P E e g L m H) as (r & e' & -> & H' & T' & X1 & X2 & X3).
    exists r, e', g, L. split; [reflexivity|].
    assert (same_but_map e e') as Hs.
    { destruct r as [[]|er]; [rewrite X3 by auto; eexists; reflexivity|].
      rewrite X1 by discriminate. exists (e_cmap e). destruct e; reflexivity. }
    split; [|auto]. split; [auto|]. split; [auto|]. destruct Hs as (m' & ->). exact Hg.
  - destruct (change_parameters_ok P E e g L c rt HP H) as (r & e' & g' & L' & Hr & H' & T' & X1 & X2 & X3 & X4).
    exists r, e', g', L'. split; [exact Hr|]. split; [|exact X4]. split; [exact H'|]. split; [now apply T'|].
    unfold changed in X4. destruct (params_ok c rt && _) eqn:Ep.
    + apply andb_prop in Ep. destruct X4 as (_ & _ & f & _ & _ & _ & ->). cbn [e_mode e_rate]. apply Ho, Ep.
    + now destruct X4 as (-> & _).
  - destruct (set_max_window_ok P E e g L w HP H Ho) as (e' & g' & L' & -> & H' & M & R & _ & T' & X4).
    exists (Ok tt), e', g', L'. split; [reflexivity|]. split; [|exact X4].
    split; [exact H'|]. split; [now apply T'|]. now rewrite M, R.
  - destruct (set_max_history_ok P E e g L h H) as (H' & T' & _).
    exists (fst (set_max_history e h)), (snd (set_max_history e h)), g, L.
    destruct (set_max_history e h) as (r, e') eqn:Eh. cbn [fst snd] in *. split; [auto|]. split; [|auto].
    split; [auto|]. split; [auto|].
    revert Eh. unfold set_max_history. destruct (e_history e =? clamp_ms (e_mode e) h)%N; intros [= <- <-]; exact Hg.
  - destruct (reset_ok P E e g L H) as (e' & Hr & H' & T').
    exists (Ok tt), e', (fresh_ghost (e_rate e) (e_channels e) L (contains (e_mode e) MODE_TRUE_PEAK)), L.
    rewrite Hr. cbn [obind]. split; [reflexivity|].
    assert (restarted E e e' L) as HR.
    { pose proof (i_rate _ _ _ _ _ H). pose proof (i_C _ _ _ _ _ H). unfold restarted.
      destruct (filter_new_ok E P (e_rate e) (e_channels e) (contains (e_mode e) MODE_SAMPLE_PEAK)
             (contains (e_mode e) MODE_TRUE_PEAK)) as (f & Hf & Hok & Hst & Hsp); [lia|lia|].
      exists f. split; [exact Hf|]. split; [exact Hst|]. split; [exact Hsp|].
      revert Hr. unfold ebur128_reset.
      rewrite (filter_reset_new _ _ _ _ _ _ _ _ _ (i_filter _ _ _ _ _ H)) by lia.
      rewrite Hf. cbn [obind]. intros Heq. apply Ret_inj in Heq. subst e'.
      rewrite !map_const_repeat, (i_audio _ _ _ _ _ H), (concat_planes_length _ L) by apply H.
      rewrite (i_planes _ _ _ _ _ H), (i_sp _ _ _ _ _ H), (i_tp _ _ _ _ _ H), concat_repeat_zero. reflexivity. }
    split; [|auto]. split; [auto|]. split; [auto|].
    destruct HR as (f & _ & _ & _ & ->). exact Hg.
  - destruct (step_add P E L e g a H Ht Ho) as (Hs & Hi). cbn [step] in Hs. rewrite Hs.
    exists (fst (add_result P E e g (input P (e_channels e) a))), (snd (add_result P E e g (input P (e_channels e) a))).
    unfold add_result, input_ok in *. destruct (input P (e_channels e) a) as [cols|]; cbn [fst snd].
    + exists (snd (added P E smp_reading e g (frame_count cols) cols)), L. split; [reflexivity|].
      split; [now apply added_good|]. split; [reflexivity|]. split; [exact Hi|]. now rewrite <- surjective_pairing.
    + exists g, L. auto.
  - pose proof (step_seed P E L e g a H Ho) as Hs. pose proof (input_cases_ok P E e g L a HG Ho) as Hi.
    cbn [step] in Hs. rewrite Hs.
    exists (fst (seed_result P E e g (input P (e_channels e) a))), (snd (seed_result P E e g (input P (e_channels e) a))).
    unfold seed_result, input_ok in *. destruct (input P (e_channels e) a) as [cols|]; cbn [fst snd].
    + exists (snd (seeded P E smp_reading e g (frame_count cols) cols)), L. split; [reflexivity|].
      split; [now apply seeded_good|]. split; [reflexivity|]. split; [exact Hi|]. now rewrite <- surjective_pairing.
    + exists g, L. auto.
Qed.

Lemma step_moves P E e g L o r e' : is_64bit P -> good P E e g L -> admissible e o -> step P E e o = Ret (r, e') ->
  exists g' L', good P E e' g' L' /\ moved P E e g L o e' g' L'.
Proof.
  intros HP HG Ha Hs. destruct (step_good P E e g L o HP HG (admissible_op_ok _ _ Ha)) as (r1 & e1 & g' & L' & H1 & H2 & H3).
  rewrite Hs in H1. apply Ret_pair_inj in H1. destruct H1 as (_ & ->). eauto.
Qed.

(** a new analyzer *)
Record newborn (P : platform) (E : ext) (channels rate : N) (m : mode) (e : ebur128) (g : ghost) (L : nat) : Prop := {
  nb_mode : e_mode e = m; nb_rate : e_rate e = rate; nb_channels : e_channels e = N.to_nat channels;
  nb_L : L = N.to_nat (buffer_frames rate (e_window e));
  nb_g : g = fresh_ghost rate (N.to_nat channels) L (contains m MODE_TRUE_PEAK);
  nb_block : e_block e = history_new (contains m MODE_HISTOGRAM) (p_usize_max P / 100);
  nb_short : e_short e = history_new (contains m MODE_HISTOGRAM) (p_usize_max P / 3000);
  nb_sp : e_sample_peak e = repeat f64_zero (e_channels e);
  nb_tp : e_true_peak e = repeat f64_zero (e_channels e);
  nb_cmap : e_cmap e = default_channel_map (e_channels e);
  nb_index : e_index e = 0; nb_needed : e_needed e = e_s100 e * 4; nb_counter : e_counter e = 0;
  nb_fsp : f_sample_peak (e_filter e) = repeat f64_zero (e_channels e);
  nb_fst : f_state (e_filter e) = repeat zero5 (e_channels e);
}.
Lemma new_good P E channels rate m e : is_64bit P -> ebur128_new P E channels rate m = Ret (Ok e) -> supported m rate ->
  exists g L, good P E e g L /\ newborn P E channels rate m e g L.
Proof.
  intros HP Hn Hs. destruct (new_shape _ _ _ _ _ _ Hn) as (H1 & H2 & H3).
  destruct (ebur128_new_ok P E channels rate m HP) as
    (e1 & g & L & Hn' & Hinv & M & R & C & T & HL & Hg & X1 & X2 & X3 & X4 & X5 & X6 & X7 & X8 & X9 & X10 & X11).
  { apply params_valid. auto. }
  { now apply window_mode. }
  rewrite Hn in Hn'. apply Ret_inj in Hn'. assert (e = e1) by congruence. subst e1.
  apply supported_good in Hs. exists g, L. split.
  - split; [exact Hinv|]. split; [auto|]. now rewrite M, R.
  - pose proof (i_rate _ _ _ _ _ Hinv). pose proof (i_C _ _ _ _ _ Hinv).
    destruct (filter_new_ok E P rate (e_channels e) (contains m MODE_SAMPLE_PEAK) (contains m MODE_TRUE_PEAK))
      as (f & Hf & _ & Hst & Hsp); [lia|lia|].
    rewrite X11 in Hf. apply Ret_inj in Hf. rewrite <- Hf in Hst, Hsp.
    constructor; auto.
Qed.
