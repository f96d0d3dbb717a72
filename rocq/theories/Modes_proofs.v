(** Analyzers of different modes that get the same calls. *)
From Coq Require Import List Arith NArith ZArith Bool Lia.
From Verif Require Import Prelude Float Env Utils Interp History TruePeak Filter Ebur128 Ref Prelude_proofs Utils_proofs
  Filter_proofs Geometry_proofs History_proofs Ebur128_proofs Ops_proofs Chunk_proofs Spec Reach_proofs Input_proofs
  Trace_proofs Stream_proofs Energy_proofs Loud_proofs Peak_proofs Compare_proofs Polarity_proofs.
From Verif Require Import Spec_history Answers_proofs Spec_modes.
Import ListNotations.
Local Open Scope nat_scope.

Lemma bit_of_contains m b : contains m (2 ^ b)%N = N.testbit m b.
Proof.
  unfold contains. destruct (N.testbit m b) eqn:Hb.
  - apply N.eqb_eq. apply N.bits_inj. intros k. rewrite N.land_spec, N.pow2_bits_eqb.
    destruct (N.eqb_spec b k) as [<-|]; [now rewrite Hb|]. now rewrite andb_false_r.
  - apply N.eqb_neq. intros H. apply (f_equal (fun x => N.testbit x b)) in H.
    rewrite N.land_spec, N.pow2_bits_eqb, N.eqb_refl, Hb in H. discriminate.
Qed.
Lemma histogram_bit m : contains m MODE_HISTOGRAM = N.testbit m 6.
Proof. exact (bit_of_contains m 6). Qed.
Lemma bits_S m : contains m MODE_S = N.testbit m 0 && N.testbit m 1.
Proof. apply eq_true_iff_eq. rewrite contains_S. unfold has_S. now rewrite andb_true_iff. Qed.
Lemma same_clamp m m' w : N.testbit m 0 = true -> N.testbit m' 0 = true -> N.testbit m 1 = N.testbit m' 1 -> clamp_ms m w = clamp_ms m' w.
Proof.
  intros H0 H0' H1. unfold clamp_ms. rewrite !bits_S, H0, H0', H1. cbn [andb].
  assert (forall x, N.testbit x 0 = true -> contains x MODE_M = true) as HM by (intros x Hx; exact (eq_trans (bit_of_contains x 0) Hx)).
  now rewrite !HM.
Qed.

Definition result_of (P : platform) (C : nat) (o : op) : result unit :=
  match o with
  | OpSetChannel n v => if (N.of_nat C <=? n)%N then Err InvalidChannelIndex
                        else if dual_mono_bad C (N.to_nat n) v then Err InvalidChannelIndex else Ok tt
  | OpSetChannelMap m => if negb (length m =? C) then Err InvalidChannelIndex
                         else if map_has_bad_dual_mono C 0 m then Err InvalidChannelIndex else Ok tt
  | OpChangeParameters c r => if params_ok c r then Ok tt else Err NoMem
  | OpSetMaxWindow _ | OpSetMaxHistory _ | OpReset => Ok tt
  | OpAdd a | OpSeed a => match input P C a with None => Err NoMem | Some _ => Ok tt end
  end.
Lemma step_result P E e g L o r e' : is_64bit P -> good P E e g L -> admissible e o -> step P E e o = Ret (r, e') ->
  r = result_of P (e_channels e) o.
Proof.
  intros HP HG Ha Hs. pose proof (admissible_op_ok _ _ Ha) as Ho. pose proof HG as (H & Ht & Hg).
  destruct o as [number v|m|c rt|w|h| |a|a]; cbn [step result_of] in *.
  - unfold set_channel in Hs. destruct (_ <=? _)%N; [apply Ret_pair_inj in Hs; destruct Hs; congruence|].
    destruct (dual_mono_bad _ _ _); [apply Ret_pair_inj in Hs; destruct Hs; congruence|].
    destruct (set_idx _ _ _); try discriminate. cbn [obind] in Hs. apply Ret_pair_inj in Hs; destruct Hs; congruence.
  - unfold set_channel_map in Hs. destruct (negb _); [apply Ret_pair_inj in Hs; destruct Hs; congruence|].
    destruct (map_has_bad_dual_mono _ _ _); [apply Ret_pair_inj in Hs; destruct Hs; congruence|].
    destruct (_ =? _); try discriminate. cbn [obind] in Hs. apply Ret_pair_inj in Hs; destruct Hs; congruence.
  - destruct (change_parameters_ok P E e g L c rt HP H) as (r1 & e1 & g' & L' & Hr & _ & _ & _ & X2 & X3 & _).
    rewrite Hs in Hr. apply Ret_pair_inj in Hr. destruct Hr as (<- & _). destruct (params_ok c rt); [now apply X2|].
    destruct X3 as [X3|]; auto. now apply X2 in X3.
  - destruct (set_max_window_ok P E e g L w HP H Ho) as (e1 & g' & L' & Hr & _). rewrite Hs in Hr.
    apply Ret_pair_inj in Hr. apply Hr.
  - unfold set_max_history in Hs. destruct (_ =? _)%N; apply Ret_pair_inj in Hs; symmetry; apply Hs.
  - destruct (ebur128_reset e); try discriminate. cbn [obind] in Hs. apply Ret_pair_inj in Hs. symmetry; apply Hs.
  - destruct (step_add P E L e g a H Ht Ho) as (Hs1 & _). cbn [step] in Hs1. rewrite Hs1 in Hs. unfold add_result in Hs.
    destruct (input P (e_channels e) a); apply Ret_inj, pair_equal_spec in Hs; symmetry; apply Hs.
  - pose proof (step_seed P E L e g a H Ho) as Hs1. cbn [step] in Hs1. rewrite Hs1 in Hs. unfold seed_result in Hs.
    destruct (input P (e_channels e) a); apply Ret_inj, pair_equal_spec in Hs; symmetry; apply Hs.
Qed.

(** the same but for the mode and what the mode switches on *)
Record alike (e f : ebur128) : Prop := {
  al_M : N.testbit (e_mode e) 0 = true; al_M' : N.testbit (e_mode f) 0 = true;
  al_S : N.testbit (e_mode e) 1 = N.testbit (e_mode f) 1;
  al_rate : e_rate f = e_rate e; al_channels : e_channels f = e_channels e;
  al_cmap : e_cmap f = e_cmap e; al_window : e_window f = e_window e; al_history : e_history f = e_history e }.
Definition same_blocks (e f : ebur128) : Prop :=
  N.testbit (e_mode e) 6 = N.testbit (e_mode f) 6 ->
  (contains (e_mode e) MODE_I = true -> contains (e_mode f) MODE_I = true -> e_block f = e_block e) /\
  (contains (e_mode e) MODE_LRA = true -> contains (e_mode f) MODE_LRA = true -> e_short f = e_short e).

Lemma alike_capacity e f : alike e f -> capacity f = capacity e /\ hop f = hop e.
Proof. intros []. unfold capacity, hop. split; congruence. Qed.
Lemma alike_clamp e f w : alike e f -> clamp_ms (e_mode f) w = clamp_ms (e_mode e) w.
Proof. intros []. symmetry. apply same_clamp; auto. Qed.
Lemma alike_track P E e f ch tr xs : alike e f -> track_after P E f ch tr xs = track_after P E e ch tr xs.
Proof. intros W. destruct (alike_capacity e f W) as (Hc & _). unfold track_after. now rewrite Hc, (al_rate _ _ W). Qed.
Lemma per_channel_ext {A B C D} (f g : A -> B -> C -> D) : (forall a b c, f a b c = g a b c) -> forall ro t x,
  per_channel f ro t x = per_channel g ro t x.
Proof.
  intros H. unfold per_channel. induction ro as [|a ro IH]; intros [|b t] [|c x]; cbn; auto. rewrite H. f_equal. apply IH.
Qed.
Lemma alike_pieces P E e f : alike e f -> forall ks t x, tape_pieces P E f ks t x = tape_pieces P E e ks t x.
Proof.
  intros W. induction ks as [|k ks IH]; intros t x; cbn [tape_pieces]; auto. rewrite IH. f_equal.
  rewrite (al_cmap _ _ W). apply per_channel_ext. intros. now apply alike_track.
Qed.
Lemma alike_tape P E e f o t : alike e f -> tape_after P E f o t = tape_after P E e o t.
Proof.
  intros W. pose proof W as []. destruct (alike_capacity e f W) as (Hc & Hh).
  destruct o as [number v|m|c rt|w|h| |a|a]; cbn [tape_after]; auto; rewrite ?al_channels0, ?al_rate0; auto.
  - unfold granted. now rewrite al_S0, al_window0.
  - destruct (input _ _ _) as [x|]; auto. unfold tape_add. rewrite Hh. now apply alike_pieces.
  - destruct (input _ _ _) as [x|]; auto. rewrite al_cmap0. apply per_channel_ext. intros. unfold seed_track. now rewrite al_rate0.
Qed.
Lemma alike_log P E e f o lg : alike e f -> log_after P E f o lg = log_after P E e o lg.
Proof. intros []. destruct o; cbn [log_after]; rewrite ?al_channels0, ?al_rate0; reflexivity. Qed.

Lemma alike_step P E e f t o r r' e' f' : is_64bit P -> taped P E e t -> taped P E f t -> alike e f ->
  admissible e o -> admissible f o -> step P E e o = Ret (r, e') -> step P E f o = Ret (r', f') ->
  r' = r /\ alike e' f' /\ (same_blocks e f -> same_blocks e' f') /\ e_mode e' = e_mode e /\ e_mode f' = e_mode f.
Proof.
  intros HP HT HT' W Ha Ha' Hs Hs'. destruct (alike_capacity e f W) as (HL & Hh).
  destruct (taped_ok P E e _ HP HT) as (g & L & HG & HO). destruct (taped_ok P E f _ HP HT') as (g1 & L1 & HG1 & HO1).
  pose proof (step_result P E e g L o r e' HP HG Ha Hs) as Hr. pose proof (step_result P E f g1 L1 o r' f' HP HG1 Ha' Hs') as Hr'.
  rewrite (al_channels _ _ W) in Hr'. split; [congruence|].
  destruct (step_moves P E e g L o r e' HP HG Ha Hs) as (g' & L' & HG' & HMv).
  destruct (step_moves P E f g1 L1 o r' f' HP HG1 Ha' Hs') as (g1' & L1' & HG1' & HMv').
  pose proof (alike_tape P E e f o t W) as Htape.
  pose proof W as W0. destruct W0. unfold same_blocks.
  destruct o as [number v|m|c rt|w|h| |a|a].
  1,2: match type of Hs with step _ _ _ ?o = _ =>
    destruct (same_map_step P E e f o o r r' e' f' eq_refl eq_refl eq_refl) as (m1 & m2 & -> & -> & <-); auto;
      [exact (proj2 (taped_length P E HP e t HT))|split; [split; auto|auto]] end.
  - cbn [moved] in HMv, HMv'. unfold changed in HMv, HMv'. rewrite al_rate0, al_channels0 in HMv'.
    destruct (params_ok c rt && _).
    + destruct HMv as (_ & _ & f1 & _ & _ & _ & ->). destruct HMv' as (_ & _ & f2 & _ & _ & _ & ->).
      inv_fields. split; [|auto]. split; inv_fields; auto. now rewrite al_cmap0.
    + destruct HMv as (-> & _). destruct HMv' as (-> & _). auto.
  - cbn [moved] in HMv, HMv'. unfold rewindowed in HMv, HMv'. cbv zeta in HMv, HMv'. rewrite (alike_clamp e f w W), al_window0 in HMv'.
    destruct (_ =? _)%N.
    + destruct HMv as (-> & _). destruct HMv' as (-> & _). auto.
    + destruct HMv as (_ & _ & ->). destruct HMv' as (_ & _ & ->). inv_fields. split; [|auto]. split; inv_fields; auto.
  - cbn [moved] in HMv, HMv'. destruct HMv as (-> & _). destruct HMv' as (-> & _). unfold set_max_history.
    rewrite al_history0, (alike_clamp e f h W). destruct (_ =? _)%N; [auto|]. cbn [snd]. split; [|split; [|auto]].
    + split; cbn; auto.
    + cbn. intros HB H6. destruct (HB H6) as (B1 & B2). split; intros. * now rewrite B1. * now rewrite B2.
  - cbn [moved] in HMv, HMv'. destruct HMv as ((f1 & _ & _ & _ & ->) & _). destruct HMv' as ((f2 & _ & _ & _ & ->) & _).
    inv_fields. split; [|split; [|auto]]. { split; inv_fields; auto. }
    intros HB H6. destruct (HB H6) as (B1 & B2). split; intros. * now rewrite B1. * now rewrite B2.
  - cbn [moved] in HMv, HMv'. destruct HMv as (-> & Hi & Heq). destruct HMv' as (-> & Hi' & Heq').
    rewrite al_channels0 in Hi', Heq'. cbn [tape_after] in Htape. rewrite al_channels0 in Htape.
    destruct (input P (e_channels e) a) as [x|] eqn:Ex.
    2:{ apply pair_equal_spec in Heq, Heq'. destruct Heq as (-> & _). destruct Heq' as (-> & _). auto. }
    destruct Hi as (Hc & _). destruct Hi' as (Hc' & _).
    assert (columns (e_channels f) x) as Hc2 by (rewrite al_channels0; exact Hc').
    pose proof (added_taped P E e g L t x HG HO Hc) as Y. pose proof (added_taped P E f g1 L1 t x HG1 HO1 Hc2) as Y'.
    cbv zeta in Y, Y'. rewrite <- Heq in Y. rewrite <- Heq' in Y'. cbn [fst snd] in Y, Y'.
    destruct Y as (_ & _ & _ & _ & X4 & X5). destruct Y' as (_ & _ & _ & _ & X4' & X5').
    assert (L1 = L) as ->.
    { destruct HG as (H & _). destruct HG1 as (H1 & _). rewrite <- (capacity_L _ _ _ _ _ H), <- (capacity_L _ _ _ _ _ H1). exact HL. }
    rewrite Hh, al_cmap0, Htape in X4', X5'.
    pose proof (added_config P E smp_reading e g (frame_count x) x) as (C1 & C2 & C3 & C4 & C5 & C6 & C7).
    pose proof (added_config P E smp_reading f g1 (frame_count x) x) as (D1 & D2 & D3 & D4 & D5 & D6 & D7).
    rewrite <- Heq in *. rewrite <- Heq' in *. cbn [fst] in *. split; [split; congruence|]. split; [|auto].
    rewrite C1, D1. intros HB H6. destruct (HB H6) as (B1 & B2). split; intros I1 I2.
    + now rewrite X4, X4', I1, I2, B1.
    + now rewrite X5, X5', I1, I2, B2.
  - cbn [moved] in HMv, HMv'. destruct HMv as (-> & _ & Heq). destruct HMv' as (-> & _ & Heq'). rewrite al_channels0 in Heq'.
    destruct (input P (e_channels e) a) as [x|]; apply pair_equal_spec in Heq, Heq'; destruct Heq as (-> & _); destruct Heq' as (-> & _); auto.
    split; [split; auto|auto].
Qed.

Definition together P E (e f : ebur128) : Prop :=
  alike e f /\ same_blocks e f /\ (exists t, taped P E e t /\ taped P E f t) /\ exists lg, logged P E e lg /\ logged P E f lg.
Lemma together_step P E e f o r r' e' f' : is_64bit P -> together P E e f -> admissible e o -> admissible f o ->
  step P E e o = Ret (r, e') -> step P E f o = Ret (r', f') ->
  r' = r /\ together P E e' f' /\ e_mode e' = e_mode e /\ e_mode f' = e_mode f.
Proof.
  intros HP (W & B & (t & T1 & T2) & lg & G1 & G2) Ha Ha' Hs Hs'.
  destruct (alike_step P E e f t o r r' e' f' HP T1 T2 W Ha Ha' Hs Hs') as (R & W' & B' & M & M').
  split; auto. split; [|auto]. split; auto. split; auto. split.
  - exists (tape_after P E e o t). split; [eapply taped_step; eauto|]. rewrite <- (alike_tape P E e f o t W). eapply taped_step; eauto.
  - exists (log_after P E e o lg). split; [eapply logged_step; eauto|]. rewrite <- (alike_log P E e f o lg W). eapply logged_step; eauto.
Qed.
Lemma together_new P E channels rate m m' e f : is_64bit P -> ebur128_new P E channels rate m = Ret (Ok e) ->
  ebur128_new P E channels rate m' = Ret (Ok f) -> supported m rate -> supported m' rate -> N.testbit m 1 = N.testbit m' 1 ->
  together P E e f /\ e_mode e = m /\ e_mode f = m'.
Proof.
  intros HP Hn Hn' Hs Hs' H1. destruct (new_shape _ _ _ _ _ _ Hn) as (_ & _ & K). destruct (new_shape _ _ _ _ _ _ Hn') as (_ & _ & K').
  pose proof (taped_new P E channels rate m e Hn Hs) as T1. pose proof (taped_new P E channels rate m' f Hn' Hs') as T2.
  pose proof (logged_new P E channels rate m e Hn Hs) as G1. pose proof (logged_new P E channels rate m' f Hn' Hs') as G2.
  assert (window_of_mode m' = window_of_mode m) as Hw.
  { unfold window_of_mode. unfold has_M in *. rewrite !bits_S, K, K', H1. change MODE_M with (2 ^ 0)%N. now rewrite !bit_of_contains, K, K'. }
  unfold ebur128_new in Hn, Hn'. rewrite Hw in Hn'. destruct (params_ok channels rate); [|discriminate]. cbn [negb] in *.
  destruct (window_of_mode m) as [w|]; [|discriminate]. destruct (allocate_audio_data _ _ _ _) as [[au|]| | |]; try discriminate. cbn [obind] in *.
  destruct (filter_new E rate (N.to_nat channels) (contains m _) _); try discriminate.
  destruct (filter_new E rate (N.to_nat channels) (contains m' _) _); try discriminate. cbn [obind] in *.
  apply Ret_inj in Hn, Hn'. injection Hn as <-. injection Hn' as <-. cbn [e_mode]. split; [|auto].
  split; [split; auto|]. split; [|split; eexists; split; eassumption].
  unfold same_blocks. cbn. intros H6. now rewrite !histogram_bit, H6.
Qed.
Lemma together_ask P E e f q : is_64bit P -> together P E e f -> both_measure (e_mode e) (e_mode f) q -> ask P E e q = ask P E f q.
Proof.
  intros HP (W & B & (t & T1 & T2) & lg & G1 & G2) (Q & Q' & Q6). destruct (alike_capacity e f W) as (HL & Hh). pose proof W as [].
  assert (forall w, energy_in_interval e w = energy_in_interval f w) as HE.
  { intros w. rewrite (interval_ok P E e _ w HP T1), (interval_ok P E f _ w HP T2). now rewrite HL, al_cmap0. }
  assert (e_s100 e = e_s100 f) as Hs.
  { now rewrite (hop_eq P E e t), (hop_eq P E f t) by auto. }
  assert (forall c, (has_SAMPLE_PEAK (e_mode e) -> has_SAMPLE_PEAK (e_mode f) -> sample_peak e c = sample_peak f c /\ prev_sample_peak e c = prev_sample_peak f c) /\
                    (has_TRUE_PEAK (e_mode e) -> has_TRUE_PEAK (e_mode f) -> true_peak e c = true_peak f c /\ prev_true_peak e c = prev_true_peak f c)) as HK.
  { intros c. destruct (N.ltb_spec c (N.of_nat (e_channels e))) as [Hc|Hc].
    - destruct (peak_answers P E e lg c HP G1 Hc) as (A1 & A2). rewrite <- al_channels0 in Hc.
      destruct (peak_answers P E f lg c HP G2 Hc) as (B1 & B2).
      split; intros I1 I2.
      + destruct (A1 I1) as (-> & ->). destruct (B1 I2) as (-> & ->). auto.
      + destruct (A2 I1) as (-> & ->). destruct (B2 I2) as (-> & ->). auto.
    - unfold sample_peak, prev_sample_peak, true_peak, prev_true_peak, peak_query, max_peak. rewrite al_channels0.
      destruct (N.leb_spec (N.of_nat (e_channels e)) c); [|lia]. rewrite !has_SP, !has_TP. split; intros -> ->; auto. }
  unfold measures in *.
  destruct q; cbn [ask needs from_blocks] in *.
  - unfold loudness_momentary. now rewrite HE, Hs.
  - unfold loudness_shortterm, energy_shortterm. now rewrite HE, Hs.
  - unfold loudness_window. rewrite al_rate0. destruct (checked _ _); auto. now rewrite HE.
  - rewrite bits_I in Q, Q'. unfold loudness_global. rewrite Q, Q'. now rewrite (proj1 (B (Q6 eq_refl)) Q Q').
  - rewrite bits_LRA in Q, Q'. unfold loudness_range. rewrite Q, Q'. now rewrite (proj2 (B (Q6 eq_refl)) Q Q').
  - rewrite bits_I in Q, Q'. unfold relative_threshold. rewrite Q, Q'. now rewrite (proj1 (B (Q6 eq_refl)) Q Q').
  - rewrite bits_I in Q, Q'. unfold gating_block_count_and_energy. now rewrite (proj1 (B (Q6 eq_refl)) Q Q').
  - rewrite bits_SP in Q, Q'. rewrite <- has_SP in Q, Q'. now rewrite (proj1 (proj1 (HK c) Q Q')).
  - rewrite bits_SP in Q, Q'. rewrite <- has_SP in Q, Q'. now rewrite (proj2 (proj1 (HK c) Q Q')).
  - rewrite bits_TP in Q, Q'. rewrite <- has_TP in Q, Q'. now rewrite (proj1 (proj2 (HK c) Q Q')).
  - rewrite bits_TP in Q, Q'. rewrite <- has_TP in Q, Q'. now rewrite (proj2 (proj2 (HK c) Q Q')).
Qed.
Lemma together_run P E : is_64bit P -> forall os e f rs e', together P E e f -> all_admissible P E e os -> all_admissible P E f os ->
  run P E e os = Ret (rs, e') ->
  exists f', run P E f os = Ret (rs, f') /\ together P E e' f' /\ e_mode e' = e_mode e /\ e_mode f' = e_mode f.
Proof.
  intros HP. induction os as [|o os IH]; intros e f rs e' HT Ha Ha' Hr; cbn [run all_admissible] in *.
  - apply Ret_pair_inj in Hr. destruct Hr as (<- & <-). eauto 6.
  - destruct Ha as (Ha & Hn). destruct Ha' as (Ha' & Hn').
    destruct (step P E e o) as [[r e1]| | |] eqn:Hs; try discriminate. cbn [obind] in Hr.
    destruct (run P E e1 os) as [[rs1 e2]| | |] eqn:Hrun; try discriminate. cbn [obind] in Hr.
    apply Ret_pair_inj in Hr. destruct Hr as (<- & <-).
    assert (reachable P E f) as Rf by (destruct HT as (_ & _ & _ & lg & _ & G2); exact (logged_reachable P E f lg G2)).
    destruct (steps_total P E f o HP Rf Ha') as (r' & f1 & Hs' & _).
    destruct (together_step P E e f o r r' e1 f1 HP HT Ha Ha' Hs Hs') as (-> & HT1 & M & M').
    destruct (IH e1 f1 rs1 e2 HT1 (Hn _ _ eq_refl) (Hn' _ _ Hs') Hrun) as (f2 & Hf & HT2 & M1 & M1').
    exists f2. rewrite Hs'. cbn [obind]. rewrite Hf. cbn [obind]. split; [reflexivity|]. split; [auto|]. split; congruence.
Qed.
Lemma independent P E channels rate m m' e f os rs e' : is_64bit P -> ebur128_new P E channels rate m = Ret (Ok e) ->
  ebur128_new P E channels rate m' = Ret (Ok f) -> supported m rate -> supported m' rate -> N.testbit m 1 = N.testbit m' 1 ->
  all_admissible P E e os -> all_admissible P E f os -> run P E e os = Ret (rs, e') ->
  exists f', run P E f os = Ret (rs, f') /\ forall q, both_measure m m' q -> ask P E e' q = ask P E f' q.
Proof.
  intros HP Hn Hn' Hs Hs' H1 Ha Ha' Hr. destruct (together_new P E channels rate m m' e f HP Hn Hn' Hs Hs' H1) as (HT & M & M').
  destruct (together_run P E HP os e f rs e' HT Ha Ha' Hr) as (f' & Hf & HT' & M1 & M1').
  exists f'. split; auto. intros q Hq. apply together_ask; auto. now rewrite M1, M1', M, M'.
Qed.
