(** Construction, setters, reset: lemmas behind Prop_Config.v *)
From Coq Require Import List Arith NArith ZArith Bool Lia.
From Verif Require Import Tables Prelude Float Env Utils History Interp TruePeak Filter Ebur128 Ref Spec
  Prelude_proofs Utils_proofs Interp_proofs Float_proofs TruePeak_proofs Filter_proofs
  Geometry_proofs History_proofs Ebur128_proofs Ops_proofs Reach_proofs.
Import ListNotations.

Lemma default_map_ok C : 1 <= C -> default_channel_map C = default_map_spec C.
Proof.
  intros H. do 6 (destruct C as [|C]; [try lia; reflexivity|]).
  cbn [default_channel_map default_map_spec].
  replace (Nat.min (S (S (S (S (S (S C)))))) 6) with 6 by lia. reflexivity.
Qed.

Lemma new_spec P E channels rate m : is_64bit P ->
  (~ (channels_valid channels /\ rate_valid rate) -> ebur128_new P E channels rate m = Ret (Err NoMem)) /\
  (channels_valid channels -> rate_valid rate -> ~ has_M m ->
     ebur128_new P E channels rate m = Ret (Err InvalidMode)) /\
  (channels_valid channels -> rate_valid rate -> has_M m ->
     exists e, ebur128_new P E channels rate m = Ret (Ok e) /\
       e_mode e = m /\ e_rate e = rate /\ e_channels e = N.to_nat channels /\
       e_cmap e = default_map_spec (N.to_nat channels) /\
       (has_S m -> e_window e = 3000%N) /\ (~ has_S m -> e_window e = 400%N) /\
       e_history e = p_usize_max P).
Proof.
  intros HP. split; [|split].
  - intros H. unfold ebur128_new. destruct (params_ok channels rate) eqn:Hp; auto.
    apply params_valid in Hp. tauto.
  - intros Hc Hr Hm. unfold ebur128_new. destruct (params_ok channels rate) eqn:Hp; cbn [negb].
    + destruct (window_of_mode m) eqn:Hw; auto. exfalso. apply Hm. apply window_mode. congruence.
    + assert (params_ok channels rate = true) by now apply params_valid. congruence.
  - intros Hc Hr Hm. destruct (ebur128_new_ok P E channels rate m HP) as (e & g & L & Hn & Hinv & X).
    { now apply params_valid. }
    { now apply window_mode. }
    decompose [and] X. clear X.
    exists e. split; auto. split; auto. split; auto. split; auto. split.
    { rewrite default_map_ok in * by (unfold channels_valid in Hc; lia). congruence. }
    assert (Some (e_window e) = window_of_mode m) as Hw by auto.
    unfold window_of_mode in Hw.
    rewrite <- contains_S. destruct (contains m MODE_S) eqn:ES; [|destruct (contains m MODE_M)]; try discriminate;
      injection Hw as Hw; repeat split; auto; congruence.
Qed.

(** * Buffers that are too short *)
Lemma filter_process_overflow {T} E P rate C sp tp f hs pk32 (S : sample T) src n cols planes L i cmap :
  filter_ok E P rate C sp tp f hs pk32 ->
  view src n cols -> length cols = C -> length cmap = C -> length planes = C ->
  Forall (fun p => length p = L) planes -> L < i + n ->
  filter_process P S f src (concat planes) i cmap = Panic.
Proof.
  intros Hf Hv Hc Hm Hp HL Hi. unfold filter_process.
  pose proof (fo_pos _ _ _ _ _ _ _ _ _ Hf) as HC.
  rewrite (fo_channels _ _ _ _ _ _ _ _ _ Hf), (concat_planes_length _ L) by auto. rewrite Hp.
  replace (C * L mod C) with 0 by (rewrite Nat.mul_comm, Nat.mod_mul; lia).
  rewrite Hm, (view_channels _ _ _ Hv), Hc, (fo_state _ _ _ _ _ _ _ _ _ Hf). unfold assert_. rewrite !Nat.eqb_refl.
  replace (C * L / C) with L by (rewrite Nat.mul_comm, Nat.div_mul; lia).
  rewrite (view_frames _ _ _ Hv).
  assert ((i + n <=? L) = false) as -> by (apply Nat.leb_gt; lia).
  rewrite (fo_sp _ _ _ _ _ _ _ _ _ Hf), Nat.eqb_refl.
  destruct (f_calc_sample_peak f).
  - rewrite (sample_peak_loop_ok P S src n cols Hv (f_sample_peak f) 0 cols) ; auto.
    rewrite (fo_sp _ _ _ _ _ _ _ _ _ Hf). lia.
  - reflexivity.
Qed.

Lemma interleaved_view {T} (l : list T) C n : 0 < C -> length l = n * C ->
  exists cols, interleaved_new l C = Ok (Interleaved l C) /\ view (Interleaved l C) n cols /\ length cols = C.
Proof.
  intros HC Hl. destruct (interleaved_new_cases l C HC) as [(n' & cols & H1 & H2 & H3 & H4)|(_ & H)].
  - exists cols. assert (n = n') by nia. subst. auto.
  - exfalso. apply H. eauto.
Qed.

Lemma short_buffer_panics {T} P E (S : sample T) e g L l n :
  inv P E e g L -> e_index e = 0 -> L < e_needed e -> e_needed e <= n -> length l = n * e_channels e ->
  add_frames_interleaved P S e l = Panic.
Proof.
  intros H Hi HL Hn Hl. pose proof (i_C _ _ _ _ _ H) as HC.
  destruct (interleaved_view l (e_channels e) n) as (cols & H1 & H2 & H3); [lia|auto|].
  unfold add_frames_interleaved. rewrite H1. unfold add_frames. rewrite (view_frames _ _ _ H2).
  destruct (Nat.eqb_spec n 0); [lia|]. destruct (Nat.eqb_spec (e_channels e) 0); [lia|].
  destruct n as [|n']; [lia|]. cbn [add_loop]. rewrite (view_frames _ _ _ H2).
  destruct (Nat.eqb_spec (Datatypes.S n') 0); [lia|].
  change (e_needed (with_filter e (filter_reset_peaks (e_filter e)))) with (e_needed e).
  destruct (Nat.leb_spec (e_needed e) (Datatypes.S n')); [|lia].
  destruct (view_split_at _ _ _ (e_needed e) H2) as (cur & nxt & -> & V1 & V2); [lia|]. cbn [obind].
  unfold process_into_ring.
  pose proof (cleared_ok _ _ _ _ _ H) as HK. unfold cleared in HK. cbn [fst snd] in HK.
  rewrite (i_audio _ _ _ _ _ HK).
  erewrite (filter_process_overflow E P _ _ _ _ _ _ _ S cur (e_needed e) (map (firstn (e_needed e)) cols));
    [reflexivity|apply HK|exact V1|rewrite map_length; exact H3|apply HK|apply HK|apply HK|].
  inv_fields. lia.
Qed.

(** planar input with the wrong number of planes *)
Lemma wrong_planes_panic {T} P E (S : sample T) e l n : state_ok P E e ->
  l <> [] -> Forall (fun p => length p = n) l -> length l <> e_channels e ->
  (0 < n -> add_frames_planar P S e l = Panic) /\ seed_frames_planar P S e l = Panic.
Proof.
  intros (g & L & H & Ht & _) Hne HF Hl.
  destruct (planar_new_cases l) as [(n' & Hp & _ & HF' & Hv)|(_ & [H1|(a & b & Ha & Hb & Hab)])].
  2:{ congruence. }
  2:{ rewrite Forall_forall in HF. specialize (HF a Ha) as X. specialize (HF b Hb). lia. }
  assert (n' = n).
  { destruct l as [|x l]; [congruence|]. inversion_clear HF. inversion_clear HF'. congruence. }
  subst n'. pose proof (i_C _ _ _ _ _ H) as HC.
  assert (forall f src k cols audio i, f_channels f = e_channels e -> view src k cols -> length cols = length l ->
    length (e_cmap e) = e_channels e -> filter_process P S f src audio i (e_cmap e) = Panic) as Hfp.
  { intros f src k cols audio i Hf Hvw Hlc Hm. unfold filter_process. rewrite Hf, Hm, (view_channels _ _ _ Hvw), Hlc.
    destruct (Nat.eqb_spec (length l) (e_channels e)); [lia|]. unfold assert_.
    repeat match goal with |- context [if ?b then _ else _] => destruct b end; reflexivity. }
  split.
  - intros Hn. unfold add_frames_planar. rewrite Hp. unfold add_frames. rewrite (view_frames _ _ _ Hv).
    destruct (Nat.eqb_spec n 0); [lia|]. destruct (Nat.eqb_spec (e_channels e) 0); [lia|].
    destruct n as [|n']; [lia|]. cbn [add_loop]. rewrite (view_frames _ _ _ Hv).
    destruct (Nat.eqb_spec (Datatypes.S n') 0); [lia|].
    change (e_needed (with_filter e (filter_reset_peaks (e_filter e)))) with (e_needed e).
    pose proof (fo_channels _ _ _ _ _ _ _ _ _ (i_filter _ _ _ _ _ H)) as Hfc.
    destruct (Nat.leb_spec (e_needed e) (Datatypes.S n')).
    + destruct (view_split_at _ _ _ (e_needed e) Hv) as (cur & nxt & -> & V1 & V2); [lia|]. cbn [obind].
      unfold process_into_ring. erewrite Hfp; [reflexivity|exact Hfc|exact V1|now rewrite map_length|apply H].
    + destruct (view_split_at _ _ _ (Datatypes.S n') Hv) as (cur & nxt & -> & V1 & V2); [lia|]. cbn [obind].
      unfold process_into_ring. erewrite Hfp; [reflexivity|exact Hfc|exact V1|now rewrite map_length|apply H].
  - unfold seed_frames_planar. rewrite Hp. unfold seed_frames, filter_seed.
    rewrite (fo_channels _ _ _ _ _ _ _ _ _ (i_filter _ _ _ _ _ H)), (i_cmap _ _ _ _ _ H), (view_channels _ _ _ Hv).
    unfold assert_. rewrite Nat.eqb_refl. destruct (Nat.eqb_spec (length l) (e_channels e)); [lia|]. reflexivity.
Qed.

Lemma not_rectangular {T} (l : list (list T)) : ~ rectangular l -> planar_new l = Err NoMem.
Proof.
  intros H. destruct (planar_new_cases l) as [(n & _ & Hn & HF & _)|(-> & _)]; auto.
  exfalso. apply H. split; eauto.
Qed.

(** * Limits of the histories *)
Definition limit_of (h : history) : option N := match h with HQueue q => Some (q_max q) | _ => None end.
Definition limits (e : ebur128) := (limit_of (e_block e), limit_of (e_short e), e_history e).
Definition limits_ok (e : ebur128) : Prop :=
  (limit_of (e_block e) = None \/ limit_of (e_block e) = Some (e_history e / 100)%N) /\
  (limit_of (e_short e) = None \/ limit_of (e_short e) = Some (e_history e / 3000)%N) /\
  clamp_ms (e_mode e) (e_history e) = e_history e.
Lemma limits_ok_eq e e' : limits e' = limits e -> e_mode e' = e_mode e -> limits_ok e -> limits_ok e'.
Proof. unfold limits, limits_ok. intros [= -> -> ->] ->. auto. Qed.
Lemma history_add_limit h x h' : history_add h x = Ret h' -> limit_of h' = limit_of h.
Proof.
  unfold history_add. destruct (idx BOUNDARIES 0); cbn [obind]; try discriminate.
  destruct (f64_lt x a); [intros Heq; apply Ret_inj in Heq; congruence|].
  destruct h.
  - intros Heq. apply Ret_inj in Heq. subst. reflexivity.
  - destruct (histogram_add h x); cbn [obind]; try discriminate. intros Heq. apply Ret_inj in Heq. now subst.
Qed.
Lemma hist_add_limit h x : limit_of (hist_add h x) = limit_of h.
Proof.
  unfold hist_add. destruct (history_add h x) eqn:E; auto. now apply history_add_limit in E.
Qed.
Lemma block_done_limits e g : limits (block_done e g) = limits e.
Proof.
  unfold limits, block_done, advance_block, shorted, gated. destruct (contains (e_mode e) MODE_I); inv_fields;
    destruct (contains (e_mode e) MODE_LRA); inv_fields; rewrite ?hist_add_limit; auto;
    destruct (_ =? _); inv_fields; rewrite ?hist_add_limit; auto.
Qed.
Lemma tail_done_limits e n : limits (tail_done e n) = limits e.
Proof. unfold limits, tail_done. destruct (contains (e_mode e) MODE_LRA); auto. Qed.
Lemma feed_limits {T} P E (S : sample T) : forall fuel e g n cols,
  limits (fst (feed P E S fuel e g n cols)) = limits e.
Proof.
  induction fuel; intros; cbn [feed]; auto. destruct (n =? 0); auto. destruct (e_needed e <=? n).
  - assert (limits (fst (fed P E S e g (e_needed e) (map (firstn (e_needed e)) cols))) = limits e) as HF by reflexivity.
    destruct (fed P E S e g (e_needed e) (map (firstn (e_needed e)) cols)) as (e1, g1).
    now rewrite IHfuel, block_done_limits.
  - assert (limits (fst (fed P E S e g n cols)) = limits e) as HF by reflexivity.
    destruct (fed P E S e g n cols) as (e1, g1). cbn [fst] in *. now rewrite tail_done_limits.
Qed.
Lemma added_limits {T} P E (S : sample T) e g n cols : limits (fst (added P E S e g n cols)) = limits e.
Proof.
  unfold added. destruct (n =? 0); auto. cbn [cleared].
  match goal with |- context [feed P E S n ?e0 ?g0 n cols] =>
    pose proof (feed_limits P E S n e0 g0 n cols) as F; destruct (feed P E S n e0 g0 n cols) as (e1, g1) end.
  exact F.
Qed.
Lemma add_frames_limits {T} P E (S : sample T) e src n cols r e' : state_ok P E e -> view src n cols ->
  length cols = e_channels e -> add_frames P S e src = Ret (r, e') -> limits e' = limits e.
Proof.
  intros (g & L & H & Ht & _) Hv Hc Ha.
  destruct (add_frames_ok P E S L e g _ n cols H Ht Hv Hc) as (Ha' & _).
  rewrite Ha in Ha'. apply Ret_pair_inj in Ha'. destruct Ha' as (_ & ->). apply added_limits.
Qed.
Lemma add_interleaved_limits {T} P E (S : sample T) e l r e' : state_ok P E e ->
  add_frames_interleaved P S e l = Ret (r, e') -> limits e' = limits e.
Proof.
  intros Hs. unfold add_frames_interleaved.
  assert (0 < e_channels e) by (destruct Hs as (g & L & H & _); pose proof (i_C _ _ _ _ _ H); lia).
  destruct (interleaved_new_cases l (e_channels e)) as [(n & cols & -> & _ & Hv & Hc)|(-> & _)]; [lia| |].
  - now apply (add_frames_limits P E S e _ n cols).
  - intros [= _ <-]. reflexivity.
Qed.
Lemma add_planar_limits {T} P E (S : sample T) e l r e' : state_ok P E e -> planes_ok (e_channels e) l ->
  add_frames_planar P S e l = Ret (r, e') -> limits e' = limits e.
Proof.
  intros Hs Hp. unfold add_frames_planar.
  destruct (planar_new_cases l) as [(n & -> & Hne & Hl & Hv)|(-> & _)].
  - apply (add_frames_limits P E S e _ n l); eauto.
  - intros [= _ <-]. reflexivity.
Qed.
Lemma seed_frames_limits {T} P (S : sample T) e src e' : seed_frames P S e src = Ret e' -> limits e' = limits e.
Proof.
  unfold seed_frames. destruct (filter_seed P S (e_filter e) src (e_cmap e)); cbn [obind]; try discriminate.
  intros Heq. apply Ret_inj in Heq. subst. reflexivity.
Qed.
Lemma seed_interleaved_limits {T} P (S : sample T) e l r e' :
  seed_frames_interleaved P S e l = Ret (r, e') -> limits e' = limits e.
Proof.
  unfold seed_frames_interleaved. destruct (interleaved_new l (e_channels e)).
  - destruct (seed_frames P S e a) eqn:Es; cbn [obind]; try discriminate. intros Heq. apply Ret_pair_inj in Heq.
    destruct Heq as (_ & <-). eapply seed_frames_limits; eauto.
  - intros Heq. apply Ret_pair_inj in Heq. destruct Heq as (_ & <-). reflexivity.
Qed.
Lemma seed_planar_limits {T} P (S : sample T) e l r e' :
  seed_frames_planar P S e l = Ret (r, e') -> limits e' = limits e.
Proof.
  unfold seed_frames_planar. destruct (planar_new l).
  - destruct (seed_frames P S e a) eqn:Es; cbn [obind]; try discriminate. intros Heq. apply Ret_pair_inj in Heq.
    destruct Heq as (_ & <-). eapply seed_frames_limits; eauto.
  - intros Heq. apply Ret_pair_inj in Heq. destruct Heq as (_ & <-). reflexivity.
Qed.
Lemma history_new_limit b max : limit_of (history_new b max) = None \/ limit_of (history_new b max) = Some max.
Proof. destruct b; auto. Qed.
Lemma step_limits P E e o r e' : state_ok P E e -> op_ok e o -> step P E e o = Ret (r, e') ->
  e_mode e' = e_mode e -> limits_ok e -> limits_ok e'.
Proof.
  intros Hs Ho Hst M Hl. destruct o as [number v|m|c rt|w|h| |a|a]; cbn [step] in Hst.
  - assert (limits e' = limits e); [|now apply (limits_ok_eq e)]. revert Hst. unfold set_channel.
    destruct (_ <=? _)%N; [intros [= _ <-]; auto|]. destruct (dual_mono_bad _ _ _); [intros [= _ <-]; auto|].
    destruct (set_idx _ _ _); cbn [obind]; try discriminate. intros Heq. apply Ret_pair_inj in Heq. now destruct Heq as (_ & <-).
  - assert (limits e' = limits e); [|now apply (limits_ok_eq e)]. revert Hst. unfold set_channel_map.
    destruct (negb _); [intros [= _ <-]; auto|]. destruct (map_has_bad_dual_mono _ _ _); [intros [= _ <-]; auto|].
    unfold assert_. destruct (_ =? _); try discriminate. intros Heq. apply Ret_pair_inj in Heq. now destruct Heq as (_ & <-).
  - assert (limits e' = limits e); [|now apply (limits_ok_eq e)]. revert Hst. unfold change_parameters.
    destruct (negb _); [intros [= _ <-]; auto|]. destruct (_ && _); [intros [= _ <-]; auto|].
    destruct (allocate_audio_data _ _ _ _) as [[]| | |]; cbn [obind]; try discriminate; [|intros [= _ <-]; auto].
    destruct (filter_new _ _ _ _ _); cbn [obind]; try discriminate. intros Heq. apply Ret_pair_inj in Heq. now destruct Heq as (_ & <-).
  - assert (limits e' = limits e); [|now apply (limits_ok_eq e)]. revert Hst. unfold set_max_window.
    destruct (_ =? _)%N; [intros [= _ <-]; auto|].
    destruct (allocate_audio_data _ _ _ _) as [[]| | |]; cbn [obind]; try discriminate; [|intros [= _ <-]; auto].
    intros Heq. apply Ret_pair_inj in Heq. now destruct Heq as (_ & <-).
  - revert Hst. unfold set_max_history. destruct (_ =? _)%N; [intros [= _ <-]; auto|].
    intros Heq. apply Ret_pair_inj in Heq. destruct Heq as (_ & <-). unfold limits_ok. inv_fields.
    split; [destruct (e_block e); simpl; auto|]. split; [destruct (e_short e); simpl; auto|]; simpl; auto using clamp_idem.
  - assert (limits e' = limits e); [|now apply (limits_ok_eq e)]. revert Hst. unfold ebur128_reset.
    destruct (filter_reset _); cbn [obind]; try discriminate. intros Heq. apply Ret_pair_inj in Heq.
    destruct Heq as (_ & <-). unfold limits. inv_fields. destruct (e_block e), (e_short e); reflexivity.
  - apply (limits_ok_eq e); auto.
    destruct a; (eapply add_interleaved_limits; eauto; fail) || (eapply add_planar_limits; eauto; fail).
  - apply (limits_ok_eq e); auto.
    destruct a; (eapply seed_interleaved_limits; eauto; fail) || (eapply seed_planar_limits; eauto; fail).
Qed.
Lemma reachable_limits P E e : is_64bit P -> reachable P E e -> limits_ok e.
Proof.
  intros HP. induction 1 as [channels rate m e Hn Hs|e o r e' Hr IH Ha Hst].
  - revert Hn. unfold ebur128_new. destruct (negb _); [discriminate|]. destruct (window_of_mode m); [|discriminate].
    destruct (allocate_audio_data _ _ _ _) as [[]| | |]; cbn [obind]; try discriminate.
    destruct (filter_new _ _ _ _ _); cbn [obind]; try discriminate.
    intros Heq. apply Ret_inj in Heq. match type of Heq with Ok ?x = Ok ?y => assert (x = y) as <- by congruence end.
    split; inv_fields; [apply history_new_limit|]. split; [apply history_new_limit|].
    rewrite HP. unfold clamp_ms. destruct (contains m MODE_S); [|destruct (contains m MODE_M)]; reflexivity.
  - pose proof (reachable_ok P E e HP Hr) as Hok. pose proof (admissible_op_ok _ _ Ha) as Hop.
    destruct (step_state P E e o HP Hok Hop) as (r1 & e1 & H1 & _ & M).
    rewrite Hst in H1. apply Ret_pair_inj in H1. destruct H1 as (_ & <-).
    eapply step_limits; eauto.
Qed.

(** * Fresh analyzers *)
Lemma fresh_window P E channels rate m w : is_64bit P -> channels_valid channels -> rate_valid rate -> has_M m ->
  clamp_ms m w = w -> (w <= 4294967295)%N ->
  exists e0 f, ebur128_new P E channels rate m = Ret (Ok e0) /\
    filter_new E rate (N.to_nat channels) (contains m MODE_SAMPLE_PEAK) (contains m MODE_TRUE_PEAK) = Ret f /\
    set_max_window P e0 w = Ret (Ok tt, {|
      e_mode := m; e_rate := rate; e_channels := N.to_nat channels;
      e_audio := concat (repeat (repeat f64_zero (N.to_nat (buffer_frames rate w))) (N.to_nat channels));
      e_index := 0; e_needed := N.to_nat (samples_in_100ms rate) * 4;
      e_cmap := default_channel_map (N.to_nat channels); e_s100 := N.to_nat (samples_in_100ms rate); e_filter := f;
      e_block := history_new (contains m MODE_HISTOGRAM) (p_usize_max P / 100);
      e_short := history_new (contains m MODE_HISTOGRAM) (p_usize_max P / 3000);
      e_counter := 0; e_sample_peak := repeat f64_zero (N.to_nat channels);
      e_true_peak := repeat f64_zero (N.to_nat channels);
      e_window := w; e_history := p_usize_max P |}).
Proof.
  intros HP Hc Hr Hm Hw Hw32. pose proof Hc as Hc'. pose proof Hr as Hr'. unfold channels_valid in Hc'. unfold rate_valid in Hr'.
  destruct (filter_new_ok E P rate (N.to_nat channels) (contains m MODE_SAMPLE_PEAK) (contains m MODE_TRUE_PEAK))
    as (f & Hf & _); [lia|lia|].
  assert (window_of_mode m <> None) as Hwm by now apply window_mode.
  unfold ebur128_new. destruct (params_ok channels rate) eqn:Hp.
  2:{ assert (params_ok channels rate = true) by (apply params_valid; split; assumption). congruence. }
  cbn [negb]. destruct (window_of_mode m) as [w0|] eqn:Hw0; [|congruence].
  destruct (window_clamp _ _ Hw0) as (Hcl & Hwb).
  rewrite allocate_64; auto; try (unfold MAX_RATE, MAX_CHANNELS; lia). cbn [obind]. rewrite Hf. cbn [obind].
  eexists _, f. split; [reflexivity|]. split; [reflexivity|].
  unfold set_max_window. inv_fields. rewrite Hw. destruct (N.eqb_spec w w0) as [->|].
  - reflexivity.
  - rewrite !N2Nat.id, allocate_64; auto; try (unfold MAX_RATE, MAX_CHANNELS; lia).
Qed.

Lemma inv_valid P E e g L : inv P E e g L ->
  channels_valid (N.of_nat (e_channels e)) /\ rate_valid (e_rate e) /\ has_M (e_mode e) /\
  clamp_ms (e_mode e) (e_window e) = e_window e /\ (e_window e <= 4294967295)%N.
Proof.
  intros H. pose proof (i_C _ _ _ _ _ H). pose proof (i_rate _ _ _ _ _ H) as Hr. unfold MAX_RATE in Hr.
  unfold channels_valid, rate_valid. rewrite <- window_mode.
  split; [lia|]. split; [lia|]. split; [apply H|]. split; [apply H|]. apply H.
Qed.

Lemma history_reset_fresh b h max :
  hist_ok b h -> history_reset h = limit_queue (history_new b max) (match limit_of h with Some n => n | None => max end).
Proof.
  destruct h as [q|h]; cbn [hist_ok]; [intros -> | intros (-> & H)]; cbn [history_reset history_new limit_queue limit_of].
  - reflexivity.
  - unfold histogram_reset, histogram_new. now rewrite map_const_repeat, H.
Qed.
Lemma limit_queue_none b max max' : b = true -> limit_queue (history_new b max) max' = history_new b max.
Proof. intros ->. reflexivity. Qed.

Lemma map_bad_ok C m : length m = C -> (In DualMono m -> C = 1) -> map_has_bad_dual_mono C 0 m = false.
Proof.
  intros H1 H2. apply map_has_bad_spec. intros i Hi. destruct (Nat.eq_dec C 1) as [Hc|Hc].
  - split; auto. assert (i < length m) by (apply nth_error_Some; congruence). lia.
  - exfalso. apply Hc, H2. eapply nth_error_In; eauto.
Qed.

Lemma reset_fresh P E e : is_64bit P -> reachable P E e ->
  exists e' e0 e1, ebur128_reset e = Ret e' /\
    ebur128_new P E (N.of_nat (e_channels e)) (e_rate e) (e_mode e) = Ret (Ok e0) /\
    run P E e0 [OpSetMaxWindow (e_window e); OpSetChannelMap (e_cmap e)] = Ret ([Ok tt; Ok tt], e1) /\
    e' = limit_history e1 (e_history e).
Proof.
  intros HP Hr. pose proof (reachable_limits _ _ _ HP Hr) as (L1 & L2 & _).
  destruct (reachable_ok _ _ _ HP Hr) as (g & L & H & Ht & _).
  destruct (inv_valid _ _ _ _ _ H) as (V1 & V2 & V3 & V4 & V5).
  destruct (fresh_window P E (N.of_nat (e_channels e)) (e_rate e) (e_mode e) (e_window e)) as (e0 & f & Hn & Hf & Hw); auto.
  rewrite Nat2N.id in *.
  unfold ebur128_reset. pose proof (i_C _ _ _ _ _ H) as HC. pose proof (i_rate _ _ _ _ _ H) as HR.
  rewrite (filter_reset_new _ _ _ _ _ _ _ _ _ (i_filter _ _ _ _ _ H)), Hf by lia. cbn [obind].
  eexists _, e0, _. split; [reflexivity|]. split; [exact Hn|]. split.
  - cbn [run step]. rewrite Hw. cbn [obind]. unfold set_channel_map. inv_fields.
    rewrite (i_cmap _ _ _ _ _ H), default_map_length, Nat.eqb_refl. cbn [negb].
    rewrite (map_bad_ok _ _ (i_cmap _ _ _ _ _ H) (i_dual _ _ _ _ _ H)). unfold assert_.
    cbn [obind]. reflexivity.
  - unfold limit_history, with_cmap. inv_fields.
    rewrite (history_reset_fresh _ _ (p_usize_max P / 100) (i_block _ _ _ _ _ H)).
    rewrite (history_reset_fresh _ _ (p_usize_max P / 3000) (i_short _ _ _ _ _ H)).
    rewrite (i_audio _ _ _ _ _ H), !map_const_repeat, (concat_planes_length _ L) by apply H.
    rewrite (i_planes _ _ _ _ _ H), (i_sp _ _ _ _ _ H), (i_tp _ _ _ _ _ H), (i_s _ _ _ _ _ H).
    rewrite concat_repeat_zero, <- (i_L _ _ _ _ _ H), Nat2N.id.
    assert (forall b h max n, hist_ok b h -> (limit_of h = None \/ limit_of h = Some n) ->
      limit_queue (history_new b max) (match limit_of h with Some n => n | None => max end)
      = limit_queue (history_new b max) n) as HQ.
    { intros b [q|h] max n Hh [Hl|Hl]; cbn in Hl, Hh |- *; try discriminate; [congruence|destruct Hh as (-> & _)]; reflexivity. }
    rewrite (HQ _ _ _ (e_history e / 100)%N (i_block _ _ _ _ _ H) L1).
    rewrite (HQ _ _ _ (e_history e / 3000)%N (i_short _ _ _ _ _ H) L2). reflexivity.
Qed.

(** * Setters *)
Lemma clamp_has m w : has_M m ->
  (has_S m -> clamp_ms m w = N.max w 3000) /\ (~ has_S m -> clamp_ms m w = N.max w 400).
Proof.
  intros Hm. apply contains_M in Hm. unfold clamp_ms. rewrite <- contains_S.
  destruct (contains m MODE_S); rewrite ?Hm; split; intros; congruence.
Qed.
Lemma clamp_fix m w : has_M m -> (has_S m -> 3000 <= w)%N -> (~ has_S m -> 400 <= w)%N -> clamp_ms m w = w.
Proof.
  intros Hm H1 H2. destruct (clamp_has m w Hm) as (C1 & C2).
  destruct (contains m MODE_S) eqn:Es.
  - apply contains_S in Es. rewrite C1; auto. specialize (H1 Es). lia.
  - assert (~ has_S m) as Hn by (rewrite <- contains_S; congruence). rewrite C2; auto. specialize (H2 Hn). lia.
Qed.

Lemma set_window_spec P E e w : is_64bit P -> reachable P E e -> (w <= 4294967295)%N ->
  exists e', set_max_window P e w = Ret (Ok tt, e') /\
    (has_S (e_mode e) -> e_window e' = N.max w 3000) /\
    (~ has_S (e_mode e) -> e_window e' = N.max w 400) /\
    (e_window e' = e_window e -> e' = e) /\
    (e_window e' <> e_window e ->
       exists e0 e1,
         ebur128_new P E (N.of_nat (e_channels e)) (e_rate e) (e_mode e) = Ret (Ok e0) /\
         set_max_window P e0 w = Ret (Ok tt, e1) /\
         buffered e' = buffered e1) /\
    e_filter e' = e_filter e /\ recorded e' = recorded e /\ overall_peaks e' = overall_peaks e /\
    e_mode e' = e_mode e /\ e_rate e' = e_rate e /\ e_channels e' = e_channels e /\ e_cmap e' = e_cmap e /\
    e_history e' = e_history e.
Proof.
  intros HP Hr Hw. destruct (reachable_ok _ _ _ HP Hr) as (g & L & H & Ht & _).
  destruct (inv_valid _ _ _ _ _ H) as (V1 & V2 & V3 & V4 & V5).
  destruct (clamp_has (e_mode e) w V3) as (C1 & C2).
  pose proof (clamp_le_u32 (e_mode e) w Hw) as Hw'. pose proof (clamp_idem (e_mode e) w) as Hcl.
  destruct (fresh_window P E (N.of_nat (e_channels e)) (e_rate e) (e_mode e) (clamp_ms (e_mode e) w)) as (e0 & f & Hn & Hf & Hwd); auto.
  assert (set_max_window P e0 w = set_max_window P e0 (clamp_ms (e_mode e) w)) as Hsame.
  { assert (e_mode e0 = e_mode e) as M.
    { destruct (new_spec P E (N.of_nat (e_channels e)) (e_rate e) (e_mode e) HP) as (_ & _ & X).
      destruct (X V1 V2 V3) as (e0' & Hn' & M & _). rewrite Hn in Hn'. apply Ret_inj in Hn'. congruence. }
    unfold set_max_window. now rewrite M, Hcl. }
  rewrite Nat2N.id in *.
  unfold set_max_window at 1. destruct (N.eqb_spec (clamp_ms (e_mode e) w) (e_window e)) as [Eq|Ne].
  - exists e. split; [reflexivity|]. rewrite <- Eq. spl; auto; congruence.
  - rewrite allocate_64; auto; try apply H; try (unfold MAX_CHANNELS; pose proof (i_C _ _ _ _ _ H); lia).
    cbn [obind]. eexists. split; [reflexivity|]. rewrite Nat2N.id. inv_fields. spl; auto; try congruence.
    intros _. exists e0. eexists. split; [exact Hn|]. rewrite Hsame. split; [exact Hwd|].
    unfold buffered. inv_fields. now rewrite (i_s _ _ _ _ _ H).
Qed.

Lemma set_history_spec P E e h : is_64bit P -> reachable P E e ->
  exists e', set_max_history e h = (Ok tt, e') /\
    (has_S (e_mode e) -> e_history e' = N.max h 3000) /\
    (~ has_S (e_mode e) -> e_history e' = N.max h 400) /\
    (e_history e' = e_history e -> e' = e) /\
    buffered e' = buffered e /\ e_filter e' = e_filter e /\ overall_peaks e' = overall_peaks e /\
    e_mode e' = e_mode e /\ e_rate e' = e_rate e /\ e_channels e' = e_channels e /\ e_cmap e' = e_cmap e /\
    e_window e' = e_window e.
Proof.
  intros HP Hr. destruct (reachable_ok _ _ _ HP Hr) as (g & L & H & Ht & _).
  destruct (inv_valid _ _ _ _ _ H) as (V1 & V2 & V3 & V4 & V5).
  destruct (clamp_has (e_mode e) h V3) as (C1 & C2).
  unfold set_max_history. destruct (N.eqb_spec (e_history e) (clamp_ms (e_mode e) h)) as [Eq|Ne].
  - exists e. split; [reflexivity|]. rewrite Eq. spl; auto.
  - eexists. split; [reflexivity|]. inv_fields. spl; auto; try congruence.
Qed.

Lemma change_spec P E e channels rate : is_64bit P -> reachable P E e ->
  (~ (channels_valid channels /\ rate_valid rate) ->
     change_parameters P E e channels rate = Ret (Err NoMem, e)) /\
  (channels = N.of_nat (e_channels e) -> rate = e_rate e ->
     change_parameters P E e channels rate = Ret (Ok tt, e)) /\
  (channels_valid channels -> rate_valid rate ->
   ~ (channels = N.of_nat (e_channels e) /\ rate = e_rate e) ->
   exists e' e0 e1, change_parameters P E e channels rate = Ret (Ok tt, e') /\
     ebur128_new P E channels rate (e_mode e) = Ret (Ok e0) /\
     set_max_window P e0 (e_window e) = Ret (Ok tt, e1) /\
     buffered e' = buffered e1 /\ e_filter e' = e_filter e1 /\
     recorded e' = recorded e /\
     e_mode e' = e_mode e /\ e_rate e' = rate /\ e_channels e' = N.to_nat channels /\
     e_window e' = e_window e /\ e_history e' = e_history e /\
     (channels = N.of_nat (e_channels e) -> e_cmap e' = e_cmap e /\ overall_peaks e' = overall_peaks e) /\
     (channels <> N.of_nat (e_channels e) -> e_cmap e' = e_cmap e1 /\ overall_peaks e' = overall_peaks e1)).
Proof.
  intros HP Hr. destruct (reachable_ok _ _ _ HP Hr) as (g & L & H & Ht & _).
  destruct (inv_valid _ _ _ _ _ H) as (V1 & V2 & V3 & V4 & V5). split; [|split].
  - intros Hn. unfold change_parameters. destruct (params_ok channels rate) eqn:Hp; auto.
    apply params_valid in Hp. tauto.
  - intros -> ->. unfold change_parameters.
    assert (params_ok (N.of_nat (e_channels e)) (e_rate e) = true) as -> by (apply params_valid; auto).
    now rewrite !N.eqb_refl.
  - intros Hc Hrt Hne.
    destruct (fresh_window P E channels rate (e_mode e) (e_window e)) as (e0 & f & Hn & Hf & Hw); auto.
    unfold change_parameters.
    assert (params_ok channels rate = true) as -> by (apply params_valid; auto). cbn [negb].
    assert ((e_rate e =? rate)%N && (N.of_nat (e_channels e) =? channels)%N = false) as ->.
    { apply andb_false_iff. destruct (N.eqb_spec (e_rate e) rate); auto.
      destruct (N.eqb_spec (N.of_nat (e_channels e)) channels); auto. exfalso. apply Hne. auto. }
    unfold channels_valid, rate_valid in *.
    rewrite allocate_64; auto; try (unfold MAX_RATE, MAX_CHANNELS; lia). cbn [obind]. rewrite Hf. cbn [obind].
    eexists _, e0, _. split; [reflexivity|]. split; [exact Hn|]. split; [exact Hw|].
    unfold buffered, recorded, overall_peaks. inv_fields.
    assert ((if (e_rate e =? rate)%N then e_s100 e else N.to_nat (samples_in_100ms rate))
          = N.to_nat (samples_in_100ms rate)) as ->.
    { destruct (N.eqb_spec (e_rate e) rate); auto. subst. apply H. }
    spl; auto; intros Hx; destruct (N.eqb_spec (N.of_nat (e_channels e)) channels); auto; congruence.
Qed.

Lemma nth_upd {A} (l : list A) i v j : i < length l ->
  nth_error (upd l i v) j = if j =? i then Some v else nth_error l j.
Proof.
  revert i j. induction l as [|a l IH]; intros i j H; [simpl in H; lia|].
  destruct i as [|i], j as [|j]; simpl; auto. apply IH. simpl in H. lia.
Qed.
Lemma set_channel_spec P E e number v : is_64bit P -> reachable P E e ->
  let good := (number < N.of_nat (e_channels e))%N /\ (v = DualMono -> e_channels e = 1) in
  (good ->
   exists e', set_channel e number v = Ret (Ok tt, e') /\ same_but_map e e' /\
     forall i, nth_error (e_cmap e') i = if i =? N.to_nat number then Some v else nth_error (e_cmap e) i) /\
  (~ good -> set_channel e number v = Ret (Err InvalidChannelIndex, e)).
Proof.
  intros HP Hr. destruct (reachable_ok _ _ _ HP Hr) as (g & L & H & Ht & _). cbv zeta.
  destruct (set_channel_ok P E e g L number v H) as (r & e' & Hs & _ & _ & X1 & X2 & X3). split.
  - intros Hg. apply X2 in Hg. subst r. exists e'. split; auto. rewrite (X3 eq_refl). split; [eexists; reflexivity|].
    intros i. cbn [with_cmap e_cmap]. apply nth_upd. rewrite (i_cmap _ _ _ _ _ H).
    assert (number < N.of_nat (e_channels e))%N by (apply X2; auto). lia.
  - intros Hg. assert (r <> Ok tt) by tauto. rewrite (X1 H0) in Hs.
    revert Hs. unfold set_channel. destruct (_ <=? _)%N; auto. destruct (dual_mono_bad _ _ _); auto.
    destruct (set_idx _ _ _); cbn [obind]; try discriminate. intros Heq. apply Ret_pair_inj in Heq. destruct Heq. congruence.
Qed.
Lemma set_channel_map_spec P E e m : is_64bit P -> reachable P E e ->
  let good := length m = e_channels e /\ (In DualMono m -> e_channels e = 1) in
  (good -> exists e', set_channel_map e m = Ret (Ok tt, e') /\ same_but_map e e' /\ e_cmap e' = m) /\
  (~ good -> set_channel_map e m = Ret (Err InvalidChannelIndex, e)).
Proof.
  intros HP Hr. destruct (reachable_ok _ _ _ HP Hr) as (g & L & H & Ht & _). cbv zeta.
  destruct (set_channel_map_ok P E e g L m H) as (r & e' & Hs & _ & _ & X1 & X2 & X3). split.
  - intros Hg. apply X2 in Hg. subst r. exists e'. split; auto. rewrite (X3 eq_refl). split; [eexists; reflexivity|]. reflexivity.
  - intros Hg. assert (r <> Ok tt) by tauto. rewrite (X1 H0) in Hs.
    revert Hs. unfold set_channel_map. destruct (negb _); auto. destruct (map_has_bad_dual_mono _ _ _); auto.
    unfold assert_. destruct (_ =? _); try discriminate. intros Heq. apply Ret_pair_inj in Heq. destruct Heq. congruence.
Qed.

(** * Failed calls *)
Lemma failed_setter P E e o er e' : (forall a, o <> OpAdd a) ->
  step P E e o = Ret (Err er, e') -> e' = e.
Proof.
  intros Ha. destruct o as [number v|m|c rt|w|h| |a|a]; cbn [step].
  - unfold set_channel. destruct (_ <=? _)%N; [congruence|]. destruct (dual_mono_bad _ _ _); [congruence|].
    destruct (set_idx _ _ _); cbn [obind]; congruence.
  - unfold set_channel_map. destruct (negb _); [congruence|]. destruct (map_has_bad_dual_mono _ _ _); [congruence|].
    unfold assert_. destruct (_ =? _); congruence.
  - unfold change_parameters. destruct (negb _); [congruence|]. destruct (_ && _); [congruence|].
    destruct (allocate_audio_data _ _ _ _) as [[]| | |]; cbn [obind]; try congruence.
    destruct (filter_new _ _ _ _ _); cbn [obind]; congruence.
  - unfold set_max_window. destruct (_ =? _)%N; [congruence|].
    destruct (allocate_audio_data _ _ _ _) as [[]| | |]; cbn [obind]; congruence.
  - unfold set_max_history. destruct (_ =? _)%N; congruence.
  - destruct (ebur128_reset e); cbn [obind]; congruence.
  - now specialize (Ha a).
  - assert (forall T (S : sample T) l, seed_frames_interleaved P S e l = Ret (Err er, e') -> e' = e) as H1.
    { intros T S l. unfold seed_frames_interleaved. destruct (interleaved_new _ _); [|congruence].
      destruct (seed_frames P S e a0); cbn [obind]; congruence. }
    assert (forall T (S : sample T) l, seed_frames_planar P S e l = Ret (Err er, e') -> e' = e) as H2.
    { intros T S l. unfold seed_frames_planar. destruct (planar_new _); [|congruence].
      destruct (seed_frames P S e a0); cbn [obind]; congruence. }
    destruct a; first [apply H1|apply H2].
Qed.
Lemma failed_add P E e a er e' : is_64bit P -> reachable P E e -> admissible e (OpAdd a) ->
  step P E e (OpAdd a) = Ret (Err er, e') -> e' = e /\ er = NoMem.
Proof.
  intros HP Hr Ha. pose proof (reachable_ok _ _ _ HP Hr) as Hs. apply admissible_op_ok in Ha.
  assert (0 < e_channels e) by (destruct Hs as (g & L & H & _); pose proof (i_C _ _ _ _ _ H); lia).
  assert (forall T (S : sample T) l, add_frames_interleaved P S e l = Ret (Err er, e') -> e' = e /\ er = NoMem) as H1.
  { intros T S l. unfold add_frames_interleaved.
    destruct (interleaved_new_cases l (e_channels e)) as [(n & cols & -> & _ & Hv & Hc)|(-> & _)]; [lia| |].
    - destruct (add_frames_state P E S e _ n cols Hs Hv Hc) as (e1 & -> & _). congruence.
    - intros Heq. apply Ret_pair_inj in Heq. destruct Heq. split; congruence. }
  assert (forall T (S : sample T) l, planes_ok (e_channels e) l -> add_frames_planar P S e l = Ret (Err er, e') -> e' = e /\ er = NoMem) as H2.
  { intros T S l Hp. unfold add_frames_planar.
    destruct (planar_new_cases l) as [(n & -> & Hne & Hl & Hv)|(-> & _)].
    - destruct (add_frames_state P E S e _ n l Hs Hv) as (e1 & -> & _); eauto. congruence.
    - intros Heq. apply Ret_pair_inj in Heq. destruct Heq. split; congruence. }
  destruct a; cbn [step] in *; first [now apply H1|now apply H2].
Qed.

(** * Containers *)
Lemma rect_planar {T} (l : list (list T)) : rectangular l -> exists n, planar_new l = Ok (Planar l 0 n) /\ view (Planar l 0 n) n l.
Proof.
  intros (Hne & n & HF). destruct (planar_new_cases l) as [(n' & Hp & _ & HF' & Hv)|(_ & [H1|(a & b & Ha & Hb & Hab)])].
  - eauto.
  - congruence.
  - rewrite Forall_forall in HF. specialize (HF a Ha) as X. specialize (HF b Hb). lia.
Qed.
Lemma containers {T} P E (S : sample T) e : is_64bit P -> reachable P E e ->
  (forall l : list T, length l mod e_channels e <> 0 ->
     add_frames_interleaved P S e l = Ret (Err NoMem, e) /\ seed_frames_interleaved P S e l = Ret (Err NoMem, e)) /\
  (forall l : list T, length l mod e_channels e = 0 -> exists e1 e2,
     add_frames_interleaved P S e l = Ret (Ok tt, e1) /\ seed_frames_interleaved P S e l = Ret (Ok tt, e2)) /\
  (forall l : list (list T), ~ rectangular l ->
     add_frames_planar P S e l = Ret (Err NoMem, e) /\ seed_frames_planar P S e l = Ret (Err NoMem, e)) /\
  (forall l : list (list T), rectangular l -> length l = e_channels e -> exists e1 e2,
     add_frames_planar P S e l = Ret (Ok tt, e1) /\ seed_frames_planar P S e l = Ret (Ok tt, e2)).
Proof.
  intros HP Hr. pose proof (reachable_ok _ _ _ HP Hr) as Hs.
  assert (0 < e_channels e) as HC by (destruct Hs as (g & L & H & _); pose proof (i_C _ _ _ _ _ H); lia).
  spl.
  - intros l Hl. unfold add_frames_interleaved, seed_frames_interleaved.
    destruct (interleaved_new_cases l (e_channels e)) as [(n & cols & -> & Hn & Hv & Hc)|(-> & _)]; auto.
    exfalso. apply Hl. rewrite Hn. apply Nat.mod_mul. lia.
  - intros l Hl. unfold add_frames_interleaved, seed_frames_interleaved.
    destruct (interleaved_new_cases l (e_channels e)) as [(n & cols & -> & Hn & Hv & Hc)|(_ & Hn)]; auto.
    + destruct (add_frames_state P E S e _ n cols Hs Hv Hc) as (e1 & -> & _).
      destruct (seed_frames_state P E S e _ n cols Hs Hv Hc) as (e2 & -> & _). cbn [obind]. eauto.
    + exfalso. apply Hn. exists (length l / e_channels e). apply Nat.div_exact in Hl; lia.
  - intros l Hl. unfold add_frames_planar, seed_frames_planar. rewrite not_rectangular by auto. auto.
  - intros l Hl Hc. destruct (rect_planar l Hl) as (n & Hp & Hv). unfold add_frames_planar, seed_frames_planar. rewrite Hp.
    destruct (add_frames_state P E S e _ n l Hs Hv Hc) as (e1 & -> & _).
    destruct (seed_frames_state P E S e _ n l Hs Hv Hc) as (e2 & -> & _). cbn [obind]. eauto.
Qed.

(** * Buffer lengths *)
Lemma loud_ok E x : exists v, loudness_of_energy E (Ok x) = Ok v.
Proof. cbn [loudness_of_energy]. destruct (f64_le x f64_zero); eauto. Qed.
Lemma momentary_available P E e : is_64bit P -> reachable P E e ->
  4 * N.to_nat (hundred_ms (e_rate e)) * e_channels e <= length (e_audio e) /\
  exists v, loudness_momentary E e = Ret (Ok v).
Proof.
  intros HP Hr. destruct (reachable_ok _ _ _ HP Hr) as (g & L & H & [T1 T2 T3 T4 T5] & _).
  pose proof (i_s _ _ _ _ _ H) as Hs. split.
  - rewrite (i_audio _ _ _ _ _ H), (concat_planes_length _ L), (i_planes _ _ _ _ _ H) by apply H.
    change (hundred_ms (e_rate e)) with (samples_in_100ms (e_rate e)). rewrite <- Hs. nia.
  - unfold loudness_momentary. rewrite (energy_in_interval_ok _ _ _ _ _ _ H).
    destruct (Nat.ltb_spec L (e_s100 e * 4)); [lia|]. cbn [obind].
    destruct (loud_ok E (energy_now e g (e_s100 e * 4))) as (v & ->). eauto.
Qed.
Lemma shortterm_iff P E e : is_64bit P -> reachable P E e ->
  ((has_S (e_mode e) -> (29 * hundred_ms (e_rate e) < 3 * e_rate e)%N -> exists v, loudness_shortterm E e = Ret (Ok v)) /\
   (e_window e = 3000%N -> ~ (29 * hundred_ms (e_rate e) < 3 * e_rate e)%N ->
      loudness_shortterm E e = Ret (Err InvalidMode))).
Proof.
  intros HP Hr. destruct (reachable_ok _ _ _ HP Hr) as (g & L & H & _).
  pose proof (i_s _ _ _ _ _ H) as Hs. pose proof (i_L _ _ _ _ _ H) as HL. pose proof (i_rate _ _ _ _ _ H) as Hrt.
  destruct (inv_valid _ _ _ _ _ H) as (_ & _ & V3 & V4 & V5).
  unfold loudness_shortterm, energy_shortterm. rewrite (energy_in_interval_ok _ _ _ _ _ _ H). split.
  - intros HS H29. apply (buffer_3000_30 (e_rate e)) in H29; [|lia].
    assert (3000 <= e_window e)%N as Hw by (rewrite <- V4; rewrite (proj1 (clamp_has _ _ V3) HS); lia).
    pose proof (buffer_frames_mono (e_rate e) 3000 (e_window e) ltac:(lia) Hw).
    destruct (Nat.ltb_spec L (e_s100 e * 30)); [lia|]. cbn [obind].
    destruct (loud_ok E (energy_now e g (e_s100 e * 30))) as (v & ->). eauto.
  - intros Hw Hn. rewrite Hw in HL.
    assert (~ (30 * samples_in_100ms (e_rate e) <= buffer_frames (e_rate e) 3000)%N)
      by (rewrite buffer_3000_30 by lia; exact Hn).
    destruct (Nat.ltb_spec L (e_s100 e * 30)); [reflexivity|lia].
Qed.
Lemma rates_16_17 P E channels rate m : is_64bit P -> channels_valid channels -> (rate = 16 \/ rate = 17)%N ->
  has_M m -> ~ has_S m ->
  exists e, ebur128_new P E channels rate m = Ret (Ok e) /\
    loudness_momentary E e = Ret (Err InvalidMode) /\
    forall T (S : sample T) (l : list T) n, 8 <= n -> length l = n * N.to_nat channels ->
      add_frames_interleaved P S e l = Panic.
Proof.
  intros HP Hc Hr Hm Hs.
  destruct (ebur128_new_ok P E channels rate m HP) as (e & g & L & Hn & H & X).
  { apply params_valid. split; auto. unfold rate_valid. lia. }
  { now apply window_mode. }
  decompose [and] X. clear X. exists e. split; auto.
  assert (e_window e = 400%N) as Hw.
  { assert (Some (e_window e) = window_of_mode m) as Hw by auto. unfold window_of_mode in Hw.
    rewrite <- contains_S in Hs. destruct (contains m MODE_S); [congruence|].
    destruct (contains m MODE_M); congruence. }
  assert (L = 6 /\ e_s100 e = 2) as (HL & H100).
  { rewrite (i_s _ _ _ _ _ H). split; [|replace (e_rate e) with rate by auto; destruct Hr as [->| ->]; reflexivity].
    replace L with (N.to_nat (buffer_frames rate (e_window e))) by auto. rewrite Hw.
    destruct Hr as [->| ->]; reflexivity. }
  split.
  - unfold loudness_momentary. rewrite (energy_in_interval_ok _ _ _ _ _ _ H), HL, H100. reflexivity.
  - intros T S l n Hn8 Hl. apply (short_buffer_panics P E S e g L l n); auto; try lia.
Qed.

(** * Memory size *)
Lemma new_size P E channels rate m r : channels_valid channels -> rate_valid rate -> has_M m ->
  ebur128_new P E channels rate m = Ret r ->
  r = Err NoMem \/ exists e, r = Ok e /\
    N.of_nat (length (e_audio e)) = (buffer_size rate (e_window e) * channels)%N.
Proof.
  intros Hc Hr Hm. unfold ebur128_new.
  assert (params_ok channels rate = true) as -> by (apply params_valid; auto). cbn [negb].
  apply window_mode in Hm. destruct (window_of_mode m) as [w|]; [|congruence]. unfold allocate_audio_data.
  destruct (audio_data_len P channels rate w) as [n|er] eqn:El; cbn [obind].
  - apply audio_data_len_exact in El; [|apply Hr]. unfold alloc_f64. destruct (_ <=? _)%N; cbn [obind]; [|discriminate].
    destruct (filter_new _ _ _ _ _); cbn [obind]; try discriminate. intros Heq. apply Ret_inj in Heq.
    subst r. right. eexists. split; [reflexivity|]. cbn [e_audio e_window]. rewrite repeat_length, N2Nat.id. exact El.
  - intros Heq. apply Ret_inj in Heq. subst r. left. f_equal. revert El. unfold audio_data_len.
    destruct (checked P (rate * w)); [|congruence].
    destruct (_ =? _)%N; [|destruct (checked P _)]; try congruence; destruct (checked P _); congruence.
Qed.
Lemma change_size P E e channels rate r e' : channels_valid channels -> rate_valid rate ->
  step P E e (OpChangeParameters channels rate) = Ret (r, e') -> e' <> e ->
  N.of_nat (length (e_audio e')) = (buffer_size rate (e_window e) * channels)%N.
Proof.
  intros Hc Hr. cbn [step]. unfold change_parameters.
  destruct (negb _); [congruence|]. destruct (_ && _); [congruence|].
  unfold allocate_audio_data. destruct (audio_data_len P channels rate (e_window e)) as [n|er] eqn:El; cbn [obind]; [|congruence].
  apply audio_data_len_exact in El; [|apply Hr]. unfold alloc_f64. destruct (_ <=? _)%N; cbn [obind]; [|discriminate].
  destruct (filter_new _ _ _ _ _); cbn [obind]; try discriminate. intros Heq. apply Ret_pair_inj in Heq.
  destruct Heq as (_ & <-). intros _. cbn [e_audio]. rewrite repeat_length, N2Nat.id. exact El.
Qed.
Lemma window_size P E e w r e' : (16 <= e_rate e)%N ->
  step P E e (OpSetMaxWindow w) = Ret (r, e') -> e' <> e ->
  N.of_nat (length (e_audio e')) = (buffer_size (e_rate e) (e_window e') * N.of_nat (e_channels e))%N.
Proof.
  intros Hr. cbn [step]. unfold set_max_window. destruct (_ =? _)%N; [congruence|].
  unfold allocate_audio_data.
  destruct (audio_data_len P _ (e_rate e) (clamp_ms (e_mode e) w)) as [n|er] eqn:El; cbn [obind]; [|congruence].
  apply audio_data_len_exact in El; auto. unfold alloc_f64. destruct (_ <=? _)%N; cbn [obind]; [|discriminate].
  intros Heq. apply Ret_pair_inj in Heq.
  destruct Heq as (_ & <-). intros _. cbn [e_audio e_window]. rewrite repeat_length, N2Nat.id. exact El.
Qed.
Lemma map_rules P E e : is_64bit P -> reachable P E e ->
  length (e_cmap e) = e_channels e /\ (In DualMono (e_cmap e) -> e_channels e = 1).
Proof.
  intros HP Hr. destruct (reachable_ok _ _ _ HP Hr) as (g & L & H & _). split; apply H.
Qed.
Lemma shortterm_available P E e : is_64bit P -> reachable P E e ->
  (has_S (e_mode e) -> (146 <= e_rate e)%N \/ (29 * hundred_ms (e_rate e) < 3 * e_rate e)%N ->
     exists v, loudness_shortterm E e = Ret (Ok v)) /\
  (forall a, admissible e (OpAdd a) -> exists r e', step P E e (OpAdd a) = Ret (r, e') /\
     (r = Ok tt \/ r = Err NoMem /\ e' = e)).
Proof.
  intros HP Hr. split.
  - intros HS H. apply (proj1 (shortterm_iff P E e HP Hr) HS). destruct H; auto. now apply rate_146.
  - intros a Ha. destruct (step_state P E e (OpAdd a) HP (reachable_ok _ _ _ HP Hr) (admissible_op_ok _ _ Ha)) as (r & e' & Hs & _).
    exists r, e'. split; auto. destruct r as [[]|er]; auto. right.
    destruct (failed_add P E e a er e' HP Hr Ha Hs). subst. auto.
Qed.
Lemma reset_is_fresh P E e : is_64bit P -> reachable P E e ->
  exists e' e0 e1, ebur128_reset e = Ret e' /\
    ebur128_new P E (N.of_nat (e_channels e)) (e_rate e) (e_mode e) = Ret (Ok e0) /\
    run P E e0 [OpSetMaxWindow (e_window e); OpSetChannelMap (e_cmap e)] = Ret ([Ok tt; Ok tt], e1) /\
    e' = limit_history e1 (e_history e) /\ (e_history e = p_usize_max P -> e' = e1).
Proof.
  intros HP Hr. destruct (reset_fresh P E e HP Hr) as (e' & e0 & e1 & H1 & H2 & H3 & H4).
  exists e', e0, e1. repeat (split; auto). intros Hh. rewrite H4, Hh.
  revert H2 H3. unfold ebur128_new. destruct (negb _); [discriminate|]. destruct (window_of_mode _); [|discriminate].
  destruct (allocate_audio_data _ _ _ _) as [[]| | |]; cbn [obind]; try discriminate.
  destruct (filter_new _ _ _ _ _); cbn [obind]; try discriminate.
  intros Heq. apply Ret_inj in Heq. match type of Heq with Ok ?x = Ok ?y => assert (x = y) as <- by congruence end.
  cbn [run step]. unfold set_max_window. inv_fields.
  assert (forall b n, limit_queue (history_new b n) n = history_new b n) as HQ by (intros [] nn0; reflexivity).
  destruct (_ =? _)%N; cbn [obind].
  - unfold set_channel_map. inv_fields. destruct (negb _); cbn [obind]; [congruence|].
    destruct (map_has_bad_dual_mono _ _ _); cbn [obind]; [congruence|].
    unfold assert_. destruct (_ =? _); cbn [obind]; [|discriminate]. intros Hq. apply Ret_pair_inj in Hq. destruct Hq as (_ & <-).
    unfold limit_history, with_cmap. inv_fields. rewrite !HQ. reflexivity.
  - destruct (allocate_audio_data _ _ _ _) as [[]| | |]; cbn [obind]; try discriminate;
    unfold set_channel_map; inv_fields; destruct (negb _); cbn [obind]; try congruence;
    destruct (map_has_bad_dual_mono _ _ _); cbn [obind]; try congruence;
    unfold assert_; destruct (_ =? _); cbn [obind]; try discriminate; intros Hq; apply Ret_pair_inj in Hq; destruct Hq as (_ & <-);
    unfold limit_history, with_cmap; inv_fields; rewrite !HQ; reflexivity.
Qed.
Lemma reset_is_fresh_histogram P E e : is_64bit P -> reachable P E e -> has_HISTOGRAM (e_mode e) ->
  exists e' e0, ebur128_reset e = Ret e' /\
    ebur128_new P E (N.of_nat (e_channels e)) (e_rate e) (e_mode e) = Ret (Ok e0) /\
    run P E e0 [OpSetMaxWindow (e_window e); OpSetChannelMap (e_cmap e); OpSetMaxHistory (e_history e)]
      = Ret ([Ok tt; Ok tt; Ok tt], e').
Proof.
  intros HP Hr HH. destruct (reset_fresh P E e HP Hr) as (e' & e0 & e1 & H1 & H2 & H3 & H4).
  exists e', e0. split; auto. split; auto.
  pose proof (reachable_limits _ _ _ HP Hr) as (_ & _ & Hcl).
  revert H1 H3. cbn [run step]. unfold ebur128_reset. destruct (filter_reset _); cbn [obind]; try discriminate.
  intros H1. apply Ret_inj in H1.
  destruct (set_max_window P e0 (e_window e)) as [[r1 e2]| | |]; cbn [obind]; try discriminate.
  destruct (set_channel_map e2 (e_cmap e)) as [[r2 e3]| | |]; cbn [obind]; try discriminate.
  intros Hq. apply Ret_pair_inj in Hq. destruct Hq as (Hq1 & ->). injection Hq1 as -> ->.
  assert (e_mode e1 = e_mode e /\ exists h1 h2, e_block e1 = HHistogram h1 /\ e_short e1 = HHistogram h2) as (M & h1 & h2 & B1 & B2).
  { rewrite H4 in H1. unfold limit_history in H1. 
    destruct (reachable_ok _ _ _ HP Hr) as (g & L & H & _). apply contains_H in HH.
    pose proof (i_block _ _ _ _ _ H) as Hb. pose proof (i_short _ _ _ _ _ H) as Hs. rewrite HH in Hb, Hs.
    destruct (e_block e) eqn:Eb; cbn in Hb; [discriminate|]. destruct (e_short e) eqn:Es; cbn in Hs; [discriminate|].
    injection H1. intros. 
    destruct (e_block e1); [discriminate|]. destruct (e_short e1); [discriminate|]. split; auto. eauto. }
  unfold set_max_history. rewrite M, Hcl.
  destruct (N.eqb_spec (e_history e1) (e_history e)) as [Eq|Ne]; cbn [obind].
  - do 2 f_equal. rewrite H4. unfold limit_history. rewrite B1, B2, <- Eq. rewrite <- B1, <- B2.
    cbn [limit_queue]. destruct e1; cbn in *. subst. reflexivity.
  - rewrite H4. unfold limit_history. rewrite B1, B2, M. reflexivity.
Qed.
Lemma size_32bit E : ebur128_new i686 E 1 2822400 MODE_S = Ret (Err NoMem) /\
  ebur128_new i686 E 64 1400000 MODE_S = Panic.
Proof. split; reflexivity. Qed.
