(** Dual mono against stereo (C14). *)
From Coq Require Import List Arith NArith ZArith Bool Lia.
From Flocq Require Import IEEE754.BinarySingleNaN.
From Verif Require Import Prelude Float Env Utils Interp History TruePeak Filter Ebur128 Ref Prelude_proofs Utils_proofs
  Filter_proofs Geometry_proofs History_proofs Ebur128_proofs Ops_proofs Chunk_proofs Spec Reach_proofs Input_proofs
  Trace_proofs Stream_proofs Energy_proofs Loud_proofs.
Import ListNotations.
Local Open Scope nat_scope.

Record twins (e f : ebur128) : Prop := {
  w_mode : e_mode f = e_mode e; w_rate : e_rate f = e_rate e;
  w_ce : e_channels e = 1; w_cf : e_channels f = 2;
  w_me : e_cmap e = [DualMono]; w_mf : e_cmap f = [Filter.Left; Filter.Right];
  w_window : e_window f = e_window e; w_history : e_history f = e_history e;
  w_block : e_block f = e_block e; w_short : e_short f = e_short e }.

Lemma twin_capacity e f : twins e f -> capacity f = capacity e /\ hop f = hop e.
Proof. intros []. unfold capacity, hop. split; congruence. Qed.
Lemma twin_pieces P E e f : twins e f -> forall ks tr x,
  exists tr', tape_pieces P E e ks [tr] [x] = [tr'] /\ tape_pieces P E f ks [tr; tr] [x; x] = [tr'; tr'].
Proof.
  intros W. destruct (twin_capacity e f W) as (Hc & _). destruct W.
  assert (forall tr x, track_after P E e DualMono tr x = track_after P E f Filter.Left tr x /\
     track_after P E f Filter.Right tr x = track_after P E f Filter.Left tr x) as HT.
  { intros tr x. unfold track_after. cbn [unused]. now rewrite w_rate0. }
  induction ks as [|k ks IH]; intros tr x; cbn [tape_pieces]; [eauto|]. rewrite w_me0, w_mf0.
  unfold per_channel. cbn [map map2]. rewrite (proj1 (HT tr _)), (proj2 (HT tr _)). apply IH.
Qed.
Lemma twin_tape P E e f o o' tr : twins e f -> doubled_call P o o' ->
  exists tr', tape_after P E e o [tr] = [tr'] /\ tape_after P E f o' [tr; tr] = [tr'; tr'].
Proof.
  intros W HC. destruct (twin_capacity e f W) as (_ & Hh). pose proof W as W0. destruct W.
  destruct o as [number v|m|c rt|w|h| |a|a], o' as [number' v'|m'|c' rt'|w'|h'| |b|b];
    cbn [doubled_call] in HC; try contradiction; cbn [tape_after]; rewrite ?w_ce0, ?w_cf0, ?w_rate0, ?w_mode0, ?w_window0.
  - destruct HC as (-> & -> & ->). 
    assert (accepted 2 rt = accepted 1 rt) as -> by reflexivity.
    destruct (negb _ || _); [eauto|]. change (N.to_nat 1) with 1. change (N.to_nat 2) with 2. exists (zero5, []). auto.
  - subst w'. destruct (_ =? _)%N; eauto. exists (fst tr, []). auto.
  - subst h'. eauto.
  - exists (zero5, []). auto.
  - destruct (input P 1 a) as [[|x []]|], (input P 2 b) as [[|y [|z []]]|]; try contradiction; eauto.
    destruct HC as (-> & ->). unfold tape_add. rewrite Hh. cbn [signals map frames_of]. apply twin_pieces; auto.
  - destruct (input P 1 a) as [[|x []]|], (input P 2 b) as [[|y [|z []]]|]; try contradiction; eauto.
    destruct HC as (-> & ->). rewrite w_me0, w_mf0. unfold per_channel, seed_track. cbn [map2 map unused].
    rewrite w_rate0. eexists. split; reflexivity.
Qed.
Lemma twin_energy L w ys t : energy_at L w [DualMono] [ys] t = energy_at L w [Filter.Left; Filter.Right] [ys; ys] t.
Proof. unfold energy_at. cbn [map]. apply energy_dual. Qed.
Lemma twin_recorded b L w tr ends h :
  recorded_in b L w [DualMono] (signals [tr]) ends h =
  recorded_in b L w [Filter.Left; Filter.Right] (signals [tr; tr]) ends h.
Proof.
  unfold recorded_in. destruct b; auto. cbn [signals map].
  assert (forall x, energy_at L w [DualMono] [snd tr] x = energy_at L w [Filter.Left; Filter.Right] [snd tr; snd tr] x) as X
    by (intro; apply twin_energy).
  revert h. induction ends as [|k l IH]; intros h; cbn [fold_left map]; [reflexivity|]. rewrite X. apply IH.
Qed.

Lemma twin_step P E e f tr o o' r r' e' f' : is_64bit P -> taped P E e [tr] -> taped P E f [tr; tr] -> twins e f ->
  doubled_call P o o' -> admissible e o -> admissible f o' -> step P E e o = Ret (r, e') -> step P E f o' = Ret (r', f') ->
  twins e' f' /\ exists tr', tape_after P E e o [tr] = [tr'] /\ tape_after P E f o' [tr; tr] = [tr'; tr'].
Proof.
  intros HP HT HT' W HC Ha Ha' Hs Hs'. destruct (twin_tape P E e f o o' tr W HC) as (tr' & T1 & T2).
  split; [|eauto]. destruct (twin_capacity e f W) as (HL & Hh).
  destruct (taped_ok P E e _ HP HT) as (g & L & HG & HO). destruct (taped_ok P E f _ HP HT') as (g1 & L1 & HG1 & HO1).
  destruct (step_moves P E e g L o r e' HP HG Ha Hs) as (g' & L' & HG' & HMv).
  destruct (step_moves P E f g1 L1 o' r' f' HP HG1 Ha' Hs') as (g1' & L1' & HG1' & HMv').
  pose proof W as W0. destruct W0.
  destruct o as [number v|m|c rt|w|h| |a|a], o' as [number' v'|m'|c' rt'|w'|h'| |b|b];
    cbn [doubled_call] in HC; try contradiction; cbn [moved] in HMv, HMv'.
  - destruct HC as (-> & -> & ->). unfold changed in HMv, HMv'. rewrite w_rate0, w_cf0 in HMv'. rewrite w_ce0 in HMv.
    assert (params_ok 2 rt = params_ok 1 rt) as Hp by reflexivity. rewrite Hp in HMv'.
    change (N.of_nat 2 =? 2)%N with true in HMv'. change (N.of_nat 1 =? 1)%N with true in HMv.
    destruct (params_ok 1 rt && _).
    + destruct HMv as (_ & _ & f1 & _ & _ & _ & ->). destruct HMv' as (_ & _ & f2 & _ & _ & _ & ->).
      split; inv_fields; auto.
    + destruct HMv as (-> & _). destruct HMv' as (-> & _). exact W.
  - subst w'. unfold rewindowed in HMv, HMv'. cbv zeta in HMv, HMv'. rewrite w_mode0, w_window0 in HMv'. destruct (_ =? _)%N.
    + destruct HMv as (-> & _). destruct HMv' as (-> & _). exact W.
    + destruct HMv as (_ & _ & ->). destruct HMv' as (_ & _ & ->). split; inv_fields; auto.
  - subst h'. destruct HMv as (-> & _). destruct HMv' as (-> & _). unfold set_max_history. rewrite w_history0, w_mode0.
    destruct (_ =? _)%N; [exact W|]. cbn [snd]. split; cbn; auto; congruence.
  - destruct HMv as ((f1 & _ & _ & _ & ->) & _). destruct HMv' as ((f2 & _ & _ & _ & ->) & _).
    split; inv_fields; auto; congruence.
  - destruct HMv as (-> & Hi & Heq). destruct HMv' as (-> & Hi' & Heq').
    cbn [tape_after] in T1, T2. rewrite w_ce0 in *. rewrite w_cf0 in *.
    destruct (input P 1 a) as [[|x []]|], (input P 2 b) as [[|y [|z []]]|]; try contradiction.
    2:{ apply pair_equal_spec in Heq, Heq'. destruct Heq as (-> & _). destruct Heq' as (-> & _). exact W. }
    destruct HC as (-> & ->). destruct Hi as (Hc & _). destruct Hi' as (Hc' & _).
    rewrite <- w_ce0 in Hc. rewrite <- w_cf0 in Hc'.
    pose proof (added_taped P E e g L [tr] [x] HG HO Hc) as X. pose proof (added_taped P E f g1 L1 [tr;tr] [x;x] HG1 HO1 Hc') as X'.
    cbv zeta in X, X'. rewrite <- Heq in X. rewrite <- Heq' in X'. cbn [fst snd] in X, X'.
    destruct X as (_ & _ & _ & _ & X4 & X5). destruct X' as (_ & _ & _ & _ & X4' & X5').
    assert (L1 = L) as ->.
    { destruct HG as (H & _). destruct HG1 as (H1 & _). rewrite <- (capacity_L _ _ _ _ _ H), <- (capacity_L _ _ _ _ _ H1). exact HL. }
    rewrite T1, w_me0, twin_recorded in X4, X5. rewrite T2, w_mf0, Hh, w_mode0 in X4', X5'.
    rewrite w_block0 in X4'. rewrite w_short0 in X5'. cbn [signals map frames_of] in X4, X5, X4', X5'.
    pose proof (added_config P E smp_reading e g (frame_count [x]) [x]) as (C1 & C2 & C3 & C4 & C5 & C6 & C7).
    pose proof (added_config P E smp_reading f g1 (frame_count [x;x]) [x;x]) as (D1 & D2 & D3 & D4 & D5 & D6 & D7).
    rewrite <- Heq in *. rewrite <- Heq' in *. cbn [fst] in *. split; try congruence.
    + exact (eq_trans X4' (eq_sym X4)).
    + exact (eq_trans X5' (eq_sym X5)).
  - destruct HMv as (-> & _ & Heq). destruct HMv' as (-> & _ & Heq'). rewrite w_ce0 in Heq. rewrite w_cf0 in Heq'.
    destruct (input P 1 a) as [x|], (input P 2 b) as [y|]; try (destruct x as [|? []]; contradiction); try contradiction;
      apply pair_equal_spec in Heq, Heq'; destruct Heq as (-> & _); destruct Heq' as (-> & _); auto.
    split; auto.
Qed.
Lemma twin_ask P E e f tr q : is_64bit P -> taped P E e [tr] -> taped P E f [tr; tr] -> twins e f -> about_loudness q = true ->
  ask P E e q = ask P E f q.
Proof.
  intros HP HT HT' W Hq. destruct (twin_capacity e f W) as (HL & Hh). pose proof W as []. 
  assert (forall w, energy_in_interval e w = energy_in_interval f w) as HE.
  { intros w. rewrite (interval_ok P E e _ w HP HT), (interval_ok P E f _ w HP HT'). rewrite HL, w_me0, w_mf0.
    cbn [signals map]. now rewrite energy_dual. }
  assert (e_s100 e = e_s100 f) as Hs.
  { now rewrite (hop_eq P E e [tr]), (hop_eq P E f [tr; tr]) by auto. }
  destruct q; try discriminate; cbn [ask].
  - unfold loudness_momentary. now rewrite HE, Hs.
  - unfold loudness_shortterm, energy_shortterm. now rewrite HE, Hs.
  - unfold loudness_window. rewrite w_rate0. destruct (checked _ _); auto. now rewrite HE.
  - unfold loudness_global. now rewrite w_mode0, w_block0.
  - unfold loudness_range. now rewrite w_mode0, w_short0.
  - unfold relative_threshold. now rewrite w_mode0, w_block0.
  - unfold gating_block_count_and_energy. now rewrite w_block0.
Qed.
Lemma twin_sessions P E : is_64bit P -> forall e f e' f', doubled_session P E e f e' f' -> forall tr,
  taped P E e [tr] -> taped P E f [tr; tr] -> twins e f ->
  exists tr', taped P E e' [tr'] /\ taped P E f' [tr'; tr'] /\ twins e' f'.
Proof.
  intros HP e f e' f' HS. induction HS as [e f|e f o o' r r' e1 f1 e2 f2 HC Ha Ha' Hs Hs' HS IH]; intros tr HT HT' W.
  - eauto.
  - destruct (twin_step P E e f tr o o' r r' e1 f1 HP HT HT' W HC Ha Ha' Hs Hs') as (M1 & tr' & T1 & T2).
    apply (IH tr'); auto.
    + rewrite <- T1. eapply taped_step; eauto.
    + rewrite <- T2. eapply taped_step; eauto.
Qed.
Lemma dual_mono_is_stereo P E rate m mono stereo r e e' f' : is_64bit P -> supported m rate ->
  ebur128_new P E 1 rate m = Ret (Ok mono) -> ebur128_new P E 2 rate m = Ret (Ok stereo) ->
  step P E mono (OpSetChannel 0 DualMono) = Ret (r, e) ->
  doubled_session P E e stereo e' f' ->
  recorded e' = recorded f' /\ forall q, about_loudness q = true -> ask P E e' q = ask P E f' q.
Proof.
  intros HP Hsup Hm Hs Hr HS.
  pose proof (taped_new P E 1 rate m mono Hm Hsup) as Tm. pose proof (taped_new P E 2 rate m stereo Hs Hsup) as Ts.
  pose proof (taped_step P E mono (OpSetChannel 0 DualMono) r e _ Tm I Hr) as Te.
  destruct (new_shape _ _ _ _ _ _ Hm) as (Hp1 & Hp2 & Hp3). destruct (new_shape _ _ _ _ _ _ Hs) as (Hp1' & Hp2' & _).
  destruct (ebur128_new_ok P E 1 rate m HP) as
    (e1 & g & L & Hn & _ & M & R & C & _ & _ & _ & X1 & X2 & _ & _ & X5 & _ & _ & _ & X9 & X10 & _).
  { apply params_valid. auto. } { now apply window_mode. }
  destruct (ebur128_new_ok P E 2 rate m HP) as
    (e2 & g2 & L2 & Hn2 & _ & M2 & R2 & C2 & _ & _ & _ & Y1 & Y2 & _ & _ & Y5 & _ & _ & _ & Y9 & Y10 & _).
  { apply params_valid. auto. } { now apply window_mode. }
  rewrite Hm in Hn. apply Ret_inj in Hn. injection Hn as <-. rewrite Hs in Hn2. apply Ret_inj in Hn2. injection Hn2 as <-.
  change (N.to_nat 1) with 1 in C. change (N.to_nat 2) with 2 in C2.
  assert (twins e stereo) as W.
  { rewrite C in X5. rewrite C2 in Y5. cbn in X5, Y5. cbn [step] in Hr. unfold set_channel in Hr. rewrite C, X5 in Hr. cbn in Hr.
    apply Ret_pair_inj in Hr. destruct Hr as (_ & <-).
    split; cbn [e_mode e_rate e_channels e_cmap e_window e_history e_block e_short with_cmap]; try congruence. }
  destruct (twin_sessions P E HP e stereo e' f' HS (zero5, []) Te Ts W) as (tr' & T1 & T2 & W').
  split; [unfold recorded; destruct W'; congruence|]. intros q Hq. eapply twin_ask; eauto.
Qed.
