(** The analyzer as a function on channel columns; its invariant. *)
From Coq Require Import List Arith NArith ZArith Bool Lia.
From Flocq Require Import IEEE754.BinarySingleNaN.
From Verif Require Import Prelude Float Env Utils History Interp TruePeak Filter Ebur128 Ref
  Prelude_proofs Utils_proofs Interp_proofs Float_proofs TruePeak_proofs Filter_proofs
  Geometry_proofs History_proofs.
Import ListNotations.
Ltac Zify.zify_post_hook ::= Z.div_mod_to_equations.

Lemma Ret_inj {A} (a b : A) : Ret a = Ret b -> a = b.
Proof. congruence. Qed.
Lemma Ret_pair_inj {A B} (a c : A) (b d : B) : Ret (a, b) = Ret (c, d) -> a = c /\ b = d.
Proof. split; congruence. Qed.

Lemma max32_nn_l (a b : f32) : nn a -> nn (max32 a b).
Proof. unfold max32, f32_gt. destruct (Bltb a b) eqn:E; auto. intros H. eapply Bltb_nn; eauto. Qed.
Lemma fold_max32_nn l : forall pk, nn pk -> nn (fold_left max32 l pk).
Proof. induction l; simpl; auto. intros. apply IHl. now apply max32_nn_l. Qed.
Lemma tp_run_nn P taps factor filt : forall xs h pk, nn pk -> nn (snd (tp_run P taps factor filt h pk xs)).
Proof. induction xs; simpl; auto. intros. apply IHxs. now apply fold_max32_nn. Qed.
Lemma tp_pk32_nn P E rate calc cols : forall hs pks,
  Forall nn pks -> Forall nn (tp_pk32 P E rate calc hs pks cols).
Proof.
  intros hs pks H. unfold tp_pk32. destruct (if calc then tp_params rate else None) as [(taps, factor)|]; auto.
  unfold tp_peaks. revert hs cols. induction H; intros [|h hs] [|c cols]; simpl; auto.
  constructor; auto. now apply tp_run_nn.
Qed.
Lemma chan_peak_nn {T} P (S : sample T) : forall pks cols,
  Forall nn pks -> Forall nn (map2 (chan_peak P S) pks cols).
Proof.
  intros pks cols H. revert cols. induction H; intros [|c cols]; simpl; auto.
  constructor; auto. now apply max64_nn_l.
Qed.

(** Ghost state: the ring as one plane per channel, the interpolator inputs per
    channel, the per-call true peaks as f32. *)
Record ghost := {
  g_planes : list (list f64);
  g_hs : list (list f32);
  g_pk : list f32;
}.

Record inv (P : platform) (E : ext) (e : ebur128) (g : ghost) (L : nat) : Prop := {
  i_audio : e_audio e = concat (g_planes g);
  i_planes : length (g_planes g) = e_channels e;
  i_len : Forall (fun p => length p = L) (g_planes g);
  i_L : N.of_nat L = buffer_frames (e_rate e) (e_window e);
  i_C : 1 <= e_channels e <= 64;
  i_rate : (16 <= e_rate e <= MAX_RATE)%N;
  i_clamp : clamp_ms (e_mode e) (e_window e) = e_window e;
  i_win : (e_window e <= u32_max)%N;
  i_mode : window_of_mode (e_mode e) <> None;
  i_s : e_s100 e = N.to_nat (samples_in_100ms (e_rate e));
  i_cmap : length (e_cmap e) = e_channels e;
  i_dual : In DualMono (e_cmap e) -> e_channels e = 1;
  i_filter : filter_ok E P (e_rate e) (e_channels e) (contains (e_mode e) MODE_SAMPLE_PEAK)
               (contains (e_mode e) MODE_TRUE_PEAK) (e_filter e) (g_hs g) (g_pk g);
  i_sp : length (e_sample_peak e) = e_channels e;
  i_tp : length (e_true_peak e) = e_channels e;
  i_block : hist_ok (contains (e_mode e) MODE_HISTOGRAM) (e_block e);
  i_short : hist_ok (contains (e_mode e) MODE_HISTOGRAM) (e_short e);
  i_index : e_index e <= L;
  i_nn : Forall nn (e_sample_peak e) /\ Forall nn (e_true_peak e) /\
         Forall nn (f_sample_peak (e_filter e)) /\ Forall nn (g_pk g);
}.

(** The schedule never runs over the end of the buffer. *)
Record timing (e : ebur128) (L : nat) : Prop := {
  t_4 : 4 * e_s100 e <= L;
  t_30 : contains (e_mode e) MODE_LRA = true -> 30 * e_s100 e <= L;
  t_index : e_index e < L;
  t_needed : 1 <= e_needed e;
  t_step : exists k, e_index e + e_needed e = k * e_s100 e /\ k * e_s100 e <= L;
}.

Lemma concat_planes_length {A} (planes : list (list A)) L :
  Forall (fun p => length p = L) planes -> length (concat planes) = length planes * L.
Proof. induction 1; simpl; auto. rewrite app_length. lia. Qed.

Lemma inv_s_pos P E e g L : inv P E e g L -> 2 <= e_s100 e.
Proof.
  intros H. rewrite (i_s _ _ _ _ _ H). pose proof (samples_in_100ms_pos (e_rate e)).
  pose proof (i_rate _ _ _ _ _ H). lia.
Qed.
Lemma mode_M_window m : window_of_mode m <> None -> contains m MODE_S = true \/ contains m MODE_M = true.
Proof. unfold window_of_mode. destruct (contains m MODE_S); auto. destruct (contains m MODE_M); auto; congruence. Qed.
Lemma clamp_ge_400 m w : window_of_mode m <> None -> (400 <= clamp_ms m w)%N.
Proof.
  intros H. apply mode_M_window in H. unfold clamp_ms. destruct (contains m MODE_S); [lia|].
  destruct (contains m MODE_M); [lia|]. destruct H; discriminate.
Qed.
Lemma inv_L_pos P E e g L : inv P E e g L -> 0 < L.
Proof.
  intros H. pose proof (i_L _ _ _ _ _ H) as HL. pose proof (i_rate _ _ _ _ _ H) as Hr.
  pose proof (clamp_ge_400 (e_mode e) (e_window e) (i_mode _ _ _ _ _ H)) as Hw. rewrite (i_clamp _ _ _ _ _ H) in Hw.
  assert (1 * samples_in_100ms (e_rate e) <= buffer_frames (e_rate e) (e_window e))%N.
  { unfold buffer_frames. apply round_up_ge.
    - pose proof (samples_in_100ms_pos (e_rate e)). lia.
    - assert (1 <= e_rate e * e_window e / 1000)%N; [|lia]. apply N.div_le_lower_bound; nia. }
  pose proof (samples_in_100ms_pos (e_rate e)). lia.
Qed.
Lemma inv_L_div P E e g L : inv P E e g L -> exists k, L = k * e_s100 e.
Proof.
  intros H. destruct (buffer_frames_divisible (e_rate e) (e_window e)) as (k & Hk).
  exists (N.to_nat k). rewrite (i_s _ _ _ _ _ H), <- N2Nat.inj_mul, <- Hk, <- (i_L _ _ _ _ _ H). lia.
Qed.
Lemma inv_stride P E e g L : inv P E e g L -> length (e_audio e) / e_channels e = L.
Proof.
  intros H. rewrite (i_audio _ _ _ _ _ H), (concat_planes_length _ L) by apply H.
  rewrite (i_planes _ _ _ _ _ H). pose proof (i_C _ _ _ _ _ H). rewrite Nat.mul_comm. apply Nat.div_mul. lia.
Qed.

(** * One step of processing, on columns *)
Definition fed {T} (P : platform) (E : ext) (S : sample T) (e : ebur128) (g : ghost) (n : nat)
    (cols : list (list T)) : ebur128 * ghost :=
  let rate := e_rate e in let tp := contains (e_mode e) MODE_TRUE_PEAK in
  let f := e_filter e in
  let c32 := map (map (s_f32 S P)) cols in
  let planes := map4 (chan_plane P S (f_b f) (f_a f) (e_index e)) (e_cmap e) (f_state f) (g_planes g) cols in
  (with_audio_filter_index e (filter_after P E rate tp S f (g_hs g) (g_pk g) (e_cmap e) n cols)
     (concat planes) (e_index e + n),
   {| g_planes := planes; g_hs := tp_hists rate tp (g_hs g) c32;
      g_pk := tp_pk32 P E rate tp (g_hs g) (g_pk g) c32 |}).

Lemma splice_length {A} i (plane ys : list A) : i + length ys <= length plane ->
  length (splice i plane ys) = length plane.
Proof. intros. unfold splice. rewrite !app_length, firstn_length, skipn_length. lia. Qed.

Lemma Forall_map4 {A B C D F} (f : A -> B -> C -> D -> F) (Q : F -> Prop) : forall l m n o,
  (forall a b c d, In a l -> In b m -> In c n -> In d o -> Q (f a b c d)) -> Forall Q (map4 f l m n o).
Proof.
  induction l; destruct m, n, o; simpl; intros; auto; constructor; auto.
Qed.

Lemma process_into_ring_ok {T} P E (S : sample T) e g L src n cols :
  inv P E e g L -> view src n cols -> length cols = e_channels e -> e_index e + n <= L ->
  process_into_ring P S e src n = Ret (fst (fed P E S e g n cols)) /\
  inv P E (fst (fed P E S e g n cols)) (snd (fed P E S e g n cols)) L.
Proof.
  intros H Hv Hc Hi.
  destruct (filter_process_ok E P (e_rate e) (e_channels e) (contains (e_mode e) MODE_SAMPLE_PEAK)
             (contains (e_mode e) MODE_TRUE_PEAK) (e_filter e) (g_hs g) (g_pk g) S src n cols
             (g_planes g) L (e_index e) (e_cmap e)) as (Hp & Hf); try apply H; auto.
  { eapply inv_L_pos; eauto. }
  split.
  - unfold process_into_ring. rewrite (i_audio _ _ _ _ _ H), Hp. reflexivity.
  - assert (length (map4 (chan_plane P S (f_b (e_filter e)) (f_a (e_filter e)) (e_index e))
             (e_cmap e) (f_state (e_filter e)) (g_planes g) cols) = e_channels e) as Hlen.
    { pose proof (i_cmap _ _ _ _ _ H). pose proof (i_planes _ _ _ _ _ H).
      pose proof (fo_state _ _ _ _ _ _ _ _ _ (i_filter _ _ _ _ _ H)).
      rewrite map4_length; lia. }
    destruct H; split; unfold fed, with_audio_filter_index; cbn [fst snd
      e_mode e_rate e_channels e_audio e_index e_needed e_cmap e_s100 e_filter e_block e_short
      e_counter e_sample_peak e_true_peak e_window e_history g_planes g_hs g_pk]; auto.
    2:{ destruct i_nn0 as (N1 & N2 & N3 & N4). repeat split; auto.
        - unfold filter_after. cbn [f_sample_peak].
          destruct (f_calc_sample_peak (e_filter e)); auto. now apply chan_peak_nn.
        - now apply tp_pk32_nn. }
    apply Forall_map4. intros ch st p xs _ _ Hp0 Hxs. unfold chan_plane.
    rewrite Forall_forall in i_len0. destruct (channel_eqb ch Unused); auto.
    rewrite splice_length; auto. rewrite chan_ys_length, (i_len0 _ Hp0).
    pose proof (view_lengths _ _ _ Hv) as Hl. rewrite Forall_forall in Hl. rewrite (Hl _ Hxs). lia.
Qed.

(** Energy of the last [w] frames *)
Definition energy_now (e : ebur128) (g : ghost) (w : nat) : f64 :=
  block_energy w (e_cmap e) (map (ring_window w (e_index e)) (g_planes g)).
Definition gated (e : ebur128) (g : ghost) : ebur128 :=
  if contains (e_mode e) MODE_I
  then with_block e (hist_add (e_block e) (energy_now e g (e_s100 e * 4))) else e.
Definition shorted (e : ebur128) (g : ghost) : ebur128 :=
  if contains (e_mode e) MODE_LRA then
    if e_counter e + e_needed e =? e_s100 e * 30
    then with_short_counter e (hist_add (e_short e) (energy_now e g (e_s100 e * 30))) (e_s100 e * 20)
    else with_short_counter e (e_short e) (e_counter e + e_needed e)
  else e.
Definition block_done (e : ebur128) (g : ghost) : ebur128 := advance_block (shorted (gated e g) g).
(** the frames after the last complete block *)
Definition tail_done (e : ebur128) (n : nat) : ebur128 :=
  let e := if contains (e_mode e) MODE_LRA
           then with_short_counter e (e_short e) (e_counter e + n) else e in
  with_index_needed e (e_index e) (e_needed e - n).

Lemma calc_energy_ok P E e g L w : inv P E e g L -> w <= L ->
  calc_gating_block w (e_audio e) (e_index e) (e_cmap e) = Ret (energy_now e g w).
Proof.
  intros H Hw. rewrite (i_audio _ _ _ _ _ H). unfold energy_now.
  pose proof (i_C _ _ _ _ _ H). pose proof (i_cmap _ _ _ _ _ H). pose proof (i_planes _ _ _ _ _ H).
  apply calc_gating_block_ok with (L := L); try apply H; auto; try lia. eapply inv_L_pos; eauto.
Qed.
Lemma energy_in_interval_ok P E e g L w : inv P E e g L ->
  energy_in_interval e w = Ret (if L <? w then Err InvalidMode else Ok (energy_now e g w)).
Proof.
  intros H. unfold energy_in_interval. rewrite (inv_stride _ _ _ _ _ H).
  destruct (Nat.ltb_spec L w); auto. now rewrite (calc_energy_ok _ _ _ _ _ _ H).
Qed.

Ltac inv_fields := cbn [fst snd
      e_mode e_rate e_channels e_audio e_index e_needed e_cmap e_s100 e_filter e_block e_short
      e_counter e_sample_peak e_true_peak e_window e_history g_planes g_hs g_pk
      with_cmap with_filter with_audio_filter_index with_block with_short_counter with_index_needed
      with_peaks] in *.

Lemma gating_update_ok P E e g L : inv P E e g L -> 4 * e_s100 e <= L ->
  gating_update e = Ret (gated e g) /\ inv P E (gated e g) g L.
Proof.
  intros H H4. unfold gating_update, gated. destruct (contains (e_mode e) MODE_I) eqn:EI; [|auto].
  rewrite (calc_energy_ok _ _ _ _ _ _ H) by lia. cbn [obind].
  rewrite (hist_add_eq _ _ _ (i_block _ _ _ _ _ H)). split; [reflexivity|].
  destruct H; split; inv_fields; auto. now apply hist_add_ok.
Qed.
Lemma shortterm_update_ok P E e g L : inv P E e g L ->
  (contains (e_mode e) MODE_LRA = true -> 30 * e_s100 e <= L) ->
  shortterm_update e = Ret (Ok tt, shorted e g) /\ inv P E (shorted e g) g L.
Proof.
  intros H H30. unfold shortterm_update, shorted. destruct (contains (e_mode e) MODE_LRA) eqn:EI; [|auto].
  specialize (H30 eq_refl). inv_fields.
  destruct (Nat.eqb_spec (e_counter e + e_needed e) (e_s100 e * 30)) as [Ec|Ec].
  - unfold energy_shortterm.
    assert (inv P E (with_short_counter e (e_short e) (e_counter e + e_needed e)) g L) as H'
      by (destruct H; split; inv_fields; auto).
    rewrite (energy_in_interval_ok P E _ g L _ H'). inv_fields.
    destruct (Nat.ltb_spec L (e_s100 e * 30)); [lia|]. cbn [obind].
    rewrite (hist_add_eq _ _ _ (i_short _ _ _ _ _ H)). cbn [obind]. split; [reflexivity|].
    destruct H; split; inv_fields; auto. now apply hist_add_ok.
  - split; auto. destruct H; split; inv_fields; auto.
Qed.

Lemma gated_fields e g : e_mode (gated e g) = e_mode e /\ e_s100 (gated e g) = e_s100 e /\
  e_index (gated e g) = e_index e /\ e_needed (gated e g) = e_needed e /\ e_channels (gated e g) = e_channels e
  /\ e_audio (gated e g) = e_audio e.
Proof. unfold gated. destruct (contains (e_mode e) MODE_I); repeat split; auto. Qed.
Lemma shorted_fields e g : e_mode (shorted e g) = e_mode e /\ e_s100 (shorted e g) = e_s100 e /\
  e_index (shorted e g) = e_index e /\ e_needed (shorted e g) = e_needed e /\ e_channels (shorted e g) = e_channels e
  /\ e_audio (shorted e g) = e_audio e.
Proof.
  unfold shorted. destruct (contains (e_mode e) MODE_LRA); [|repeat split; auto].
  destruct (e_counter e + e_needed e =? e_s100 e * 30); repeat split; auto.
Qed.

Lemma advance_ok P E e g L : inv P E e g L -> 4 * e_s100 e <= L ->
  (contains (e_mode e) MODE_LRA = true -> 30 * e_s100 e <= L) ->
  (exists k, e_index e = k * e_s100 e) ->
  inv P E (advance_block e) g L /\ timing (advance_block e) L.
Proof.
  intros H H4 H30 (k & Hk). pose proof (inv_s_pos _ _ _ _ _ H) as Hs.
  destruct (inv_L_div _ _ _ _ _ H) as (m & Hm). pose proof (i_index _ _ _ _ _ H) as Hi.
  unfold advance_block. rewrite (inv_stride _ _ _ _ _ H). split.
  - destruct H; split; inv_fields; auto. destruct (e_index e =? L); lia.
  - split; inv_fields; auto; try lia.
    + destruct (Nat.eqb_spec (e_index e) L); lia.
    + destruct (Nat.eqb_spec (e_index e) L).
      * exists 1. nia.
      * exists (k + 1). assert (k < m) by nia. nia.
Qed.

(** One complete block *)
Lemma block_done_ok P E e g L : inv P E e g L -> 4 * e_s100 e <= L ->
  (contains (e_mode e) MODE_LRA = true -> 30 * e_s100 e <= L) ->
  (exists k, e_index e = k * e_s100 e) ->
  ('(r, e) <- (e <- gating_update e ;; shortterm_update e) ;; Ret (r, advance_block e)) = Ret (Ok tt, block_done e g)
  /\ inv P E (block_done e g) g L /\ timing (block_done e g) L.
Proof.
  intros H H4 H30 Hk. destruct (gating_update_ok _ _ _ _ _ H H4) as (-> & H1). cbn [obind].
  destruct (gated_fields e g) as (G1 & G2 & G3 & G4 & G5 & G6).
  destruct (shortterm_update_ok _ _ _ _ _ H1) as (-> & H2); [now rewrite G1, G2|].
  cbn [obind]. split; auto.
  destruct (shorted_fields (gated e g) g) as (S1 & S2 & S3 & S4 & S5 & S6).
  apply advance_ok; rewrite ?S1, ?S2, ?S3, ?G1, ?G2, ?G3; auto.
Qed.

(** * The feeding loop *)
Fixpoint feed {T} (P : platform) (E : ext) (S : sample T) (fuel : nat) (e : ebur128) (g : ghost)
    (n : nat) (cols : list (list T)) : ebur128 * ghost :=
  match fuel with
  | O => (e, g)
  | Datatypes.S fuel =>
      if n =? 0 then (e, g)
      else if e_needed e <=? n then
        let k := e_needed e in
        let '(e, g) := fed P E S e g k (map (firstn k) cols) in
        feed P E S fuel (block_done e g) g (n - k) (map (skipn k) cols)
      else
        let '(e, g) := fed P E S e g n cols in
        (tail_done e n, g)
  end.

Lemma map_firstn_all {T} n (cols : list (list T)) :
  Forall (fun c => length c = n) cols -> map (firstn n) cols = cols.
Proof.
  intros H. rewrite <- (map_id cols) at 2. apply map_ext_in. intros c Hc.
  rewrite Forall_forall in H. rewrite <- (H c Hc). apply firstn_all.
Qed.
Lemma view_cols_len {T} (s : samples T) n cols : view s n cols -> Forall (fun c => length c = n) cols.
Proof. apply view_lengths. Qed.

Lemma fed_fields {T} P E (S : sample T) e g n cols :
  let e' := fst (fed P E S e g n cols) in
  e_mode e' = e_mode e /\ e_s100 e' = e_s100 e /\ e_index e' = e_index e + n /\ e_needed e' = e_needed e /\
  e_channels e' = e_channels e /\ e_cmap e' = e_cmap e /\ e_rate e' = e_rate e /\ e_window e' = e_window e /\
  e_counter e' = e_counter e /\ e_block e' = e_block e /\ e_short e' = e_short e /\
  e_sample_peak e' = e_sample_peak e /\ e_true_peak e' = e_true_peak e /\ e_history e' = e_history e.
Proof. cbv zeta. repeat split. Qed.

Lemma add_loop_ok {T} P E (S : sample T) L : forall fuel e g src n cols,
  inv P E e g L -> timing e L -> view src n cols -> length cols = e_channels e -> n <= fuel ->
  let r := feed P E S fuel e g n cols in
  add_loop P S fuel e src = Ret (Ok tt, fst r) /\ inv P E (fst r) (snd r) L /\ timing (fst r) L.
Proof.
  induction fuel as [|fuel IH]; intros e g src n cols H Ht Hv Hc Hn.
  - assert (n = 0) by lia. subst. cbn [add_loop feed fst snd].
    rewrite (view_frames _ _ _ Hv). auto.
  - cbn [add_loop feed]. rewrite (view_frames _ _ _ Hv).
    destruct (Nat.eqb_spec n 0); [cbn [fst snd]; auto|].
    destruct (t_step _ _ Ht) as (k & Hk & HkL).
    pose proof (t_needed _ _ Ht) as Hneed.
    destruct (Nat.leb_spec (e_needed e) n) as [Hle|Hgt].
    + destruct (view_split_at _ _ _ (e_needed e) Hv Hle) as (s1 & s2 & -> & V1 & V2). cbn [obind].
      destruct (process_into_ring_ok P E S e g L s1 (e_needed e) (map (firstn (e_needed e)) cols))
        as (-> & H1); auto; try lia. { now rewrite map_length. }
      cbn [obind].
      pose proof (fed_fields P E S e g (e_needed e) (map (firstn (e_needed e)) cols)) as F. cbv zeta in F.
      destruct (fed P E S e g (e_needed e) (map (firstn (e_needed e)) cols)) as (e1, g1). cbn [fst snd] in *.
      destruct F as (F1 & F2 & F3 & F4 & F5 & _).
      destruct (block_done_ok P E e1 g1 L H1) as (Hb & H2 & T2).
      { rewrite F2. apply Ht. } { rewrite F1, F2. apply Ht. } { exists k. rewrite F2, F3. lia. }
      destruct (gating_update e1) as [e2| | |] eqn:EG; try discriminate. cbn [obind] in *.
      destruct (shortterm_update e2) as [(r, e3)| | |] eqn:ES; try discriminate. cbn [obind] in *.
      destruct (Ret_pair_inj _ _ _ _ Hb) as (-> & ->).
      apply IH; auto; [|lia].
      rewrite map_length, Hc. unfold block_done, advance_block. inv_fields.
      destruct (shorted_fields (gated e1 g1) g1) as (_ & _ & _ & _ & -> & _).
      destruct (gated_fields e1 g1) as (_ & _ & _ & _ & -> & _). auto.
    + destruct (view_split_at _ _ _ n Hv (le_n n)) as (s1 & s2 & -> & V1 & V2). cbn [obind].
      rewrite map_firstn_all in V1 by (eapply view_cols_len; eauto).
      destruct (process_into_ring_ok P E S e g L s1 n cols) as (-> & H1); auto; try lia.
      cbn [obind].
      pose proof (fed_fields P E S e g n cols) as F. cbv zeta in F.
      destruct (fed P E S e g n cols) as (e1, g1). cbn [fst snd] in *.
      destruct F as (F1 & F2 & F3 & F4 & F5 & _ & _ & _ & F9 & F10).
      set (e2 := if contains (e_mode e1) MODE_LRA
                 then with_short_counter e1 (e_short e1) (e_counter e1 + n) else e1).
      assert (e_needed e2 = e_needed e /\ e_index e2 = e_index e + n /\ e_s100 e2 = e_s100 e /\ e_mode e2 = e_mode e) as (N2 & I2 & S2 & M2).
      { unfold e2. destruct (contains (e_mode e1) MODE_LRA); inv_fields; auto. }
      assert (inv P E e2 g1 L) as H2.
      { unfold e2. destruct (contains (e_mode e1) MODE_LRA); auto. destruct H1; split; inv_fields; auto. }
      unfold sub_usize. rewrite N2. destruct (Nat.leb_spec n (e_needed e)); [|lia]. cbn [obind].
      assert (add_loop P S fuel (with_index_needed e2 (e_index e2) (e_needed e - n)) s2
              = Ret (Ok tt, tail_done e1 n)) as ->.
      { assert (s_frames s2 = 0) as F0 by (rewrite (view_frames _ _ _ V2); lia).
        destruct fuel; cbn [add_loop]; rewrite F0; cbn [Nat.eqb]; unfold tail_done; fold e2; now rewrite N2. }
      split; auto.
      unfold tail_done. fold e2. rewrite N2, I2. split.
      * destruct H2; split; inv_fields; auto. lia.
      * pose proof (t_4 _ _ Ht). pose proof (t_30 _ _ Ht).
        split; inv_fields; rewrite ?S2, ?M2; auto; try lia.
        exists k. lia.
Qed.

(** * add_frames and seed_frames *)
Definition cleared (e : ebur128) (g : ghost) : ebur128 * ghost :=
  (with_filter e (filter_reset_peaks (e_filter e)),
   {| g_planes := g_planes g; g_hs := g_hs g; g_pk := repeat f32_zero (e_channels e) |}).
Definition retained (e : ebur128) : ebur128 :=
  with_peaks e (map2 max64 (e_sample_peak e) (f_sample_peak (e_filter e)))
               (map2 max64 (e_true_peak e) (f_true_peak (e_filter e))).
Definition added {T} (P : platform) (E : ext) (S : sample T) (e : ebur128) (g : ghost) (n : nat)
    (cols : list (list T)) : ebur128 * ghost :=
  if n =? 0 then (e, g) else
  let '(e, g) := cleared e g in
  let '(e, g) := feed P E S n e g n cols in
  (retained e, g).

Lemma nn_zero {p e} : @nn p e (B754_zero false).
Proof. split; reflexivity. Qed.
Lemma Forall_repeat' {A} (Q : A -> Prop) a n : Q a -> Forall Q (repeat a n).
Proof. intros. induction n; simpl; auto. Qed.
Lemma retain_peaks_eq l m : length l = length m -> retain_peaks l m = map2 max64 l m.
Proof.
  intros H. unfold retain_peaks. rewrite <- H, skipn_all, app_nil_r.
  revert m H. induction l; destruct m; simpl; intros; try discriminate; auto; f_equal; auto.
Qed.
Lemma map2_max_nn l m : Forall nn l -> Forall nn (map2 max64 l m).
Proof. intros H. revert m. induction H; intros [|b m]; simpl; auto. constructor; auto. now apply max64_nn_l. Qed.
Lemma map2_length' {A B C} (f : A -> B -> C) l m : length l = length m -> length (map2 f l m) = length l.
Proof. revert m; induction l; destruct m; simpl; intros; try discriminate; auto. Qed.

Lemma cleared_ok P E e g L : inv P E e g L -> inv P E (fst (cleared e g)) (snd (cleared e g)) L.
Proof.
  intros H. pose proof (filter_reset_peaks_ok _ _ _ _ _ _ _ _ _ (i_filter _ _ _ _ _ H)) as HF.
  destruct H; split; unfold cleared; inv_fields; auto.
  destruct i_nn0 as (N1 & N2 & N3 & N4). repeat split; auto.
  - cbn [filter_reset_peaks f_sample_peak]. rewrite Forall_forall. intros x (y & <- & _)%in_map_iff. apply nn_zero.
  - apply Forall_repeat', nn_zero.
Qed.
Lemma retained_ok P E e g L : inv P E e g L ->
  retained e = with_peaks e (retain_peaks (e_sample_peak e) (f_sample_peak (e_filter e)))
                            (retain_peaks (e_true_peak e) (f_true_peak (e_filter e))) /\
  inv P E (retained e) g L.
Proof.
  intros H. pose proof (i_filter _ _ _ _ _ H) as HF.
  assert (length (f_sample_peak (e_filter e)) = e_channels e) as L1 by apply HF.
  assert (length (f_true_peak (e_filter e)) = e_channels e) as L2.
  { rewrite (fo_tpk _ _ _ _ _ _ _ _ _ HF), map_length. apply HF. }
  pose proof (i_sp _ _ _ _ _ H). pose proof (i_tp _ _ _ _ _ H).
  split.
  - unfold retained. now rewrite !retain_peaks_eq by lia.
  - destruct H; split; unfold retained; inv_fields; auto.
    + rewrite map2_length'; lia.
    + rewrite map2_length'; lia.
    + destruct i_nn0 as (N1 & N2 & N3 & N4). repeat split; auto; now apply map2_max_nn.
Qed.

Lemma add_frames_ok {T} P E (S : sample T) L e g src n cols :
  inv P E e g L -> timing e L -> view src n cols -> length cols = e_channels e ->
  let r := added P E S e g n cols in
  add_frames P S e src = Ret (Ok tt, fst r) /\ inv P E (fst r) (snd r) L /\ timing (fst r) L.
Proof.
  intros H Ht Hv Hc. cbv zeta. unfold add_frames, added. rewrite (view_frames _ _ _ Hv).
  destruct (Nat.eqb_spec n 0); [auto|].
  pose proof (i_C _ _ _ _ _ H). destruct (Nat.eqb_spec (e_channels e) 0); [lia|].
  pose proof (cleared_ok _ _ _ _ _ H) as H1.
  assert (timing (fst (cleared e g)) L) as T1 by (destruct Ht; split; auto).
  assert (length cols = e_channels (fst (cleared e g))) as C1 by auto.
  change (with_filter e (filter_reset_peaks (e_filter e))) with (fst (cleared e g)).
  destruct (cleared e g) as (e1, g1). cbn [fst snd] in *.
  destruct (add_loop_ok P E S L n e1 g1 src n cols H1 T1 Hv C1 (le_n n)) as (-> & H2 & T2).
  destruct (feed P E S n e1 g1 n cols) as (e2, g2). cbn [fst snd obind] in *.
  destruct (retained_ok _ _ _ _ _ H2) as (R1 & R2). rewrite <- R1. split; [auto|split; [auto|]].
  destruct T2; split; auto.
Qed.

Definition seeded {T} (P : platform) (E : ext) (S : sample T) (e : ebur128) (g : ghost) (n : nat)
    (cols : list (list T)) : ebur128 * ghost :=
  (with_filter e (filter_seeded P S (e_filter e) (e_cmap e) n cols),
   {| g_planes := g_planes g;
      g_hs := tp_hists (e_rate e) (contains (e_mode e) MODE_TRUE_PEAK) (g_hs g) (map (map (s_f32 S P)) cols);
      g_pk := g_pk g |}).
Lemma seed_frames_ok {T} P E (S : sample T) L e g src n cols :
  inv P E e g L -> view src n cols -> length cols = e_channels e ->
  let r := seeded P E S e g n cols in
  seed_frames P S e src = Ret (fst r) /\ inv P E (fst r) (snd r) L /\ (timing e L -> timing (fst r) L).
Proof.
  intros H Hv Hc. cbv zeta. unfold seed_frames.
  destruct (filter_seed_ok E P (e_rate e) (e_channels e) (contains (e_mode e) MODE_SAMPLE_PEAK)
             (contains (e_mode e) MODE_TRUE_PEAK) (e_filter e) (g_hs g) (g_pk g) S src n cols (e_cmap e))
    as (-> & Hf); try apply H; auto.
  split; [reflexivity|]. split.
  - destruct H; split; unfold seeded; inv_fields; auto.
  - intros []; split; auto.
Qed.

(** what feeding never touches *)
Definition same_config (e e' : ebur128) : Prop :=
  e_mode e' = e_mode e /\ e_rate e' = e_rate e /\ e_channels e' = e_channels e /\ e_cmap e' = e_cmap e /\
  e_s100 e' = e_s100 e /\ e_window e' = e_window e /\ e_history e' = e_history e.
Lemma same_config_refl e : same_config e e.
Proof. repeat split. Qed.
Lemma same_config_trans a b c : same_config a b -> same_config b c -> same_config a c.
Proof. unfold same_config. intuition congruence. Qed.
Lemma fed_config {T} P E (S : sample T) e g n cols : same_config e (fst (fed P E S e g n cols)).
Proof. repeat split. Qed.
Lemma block_done_config e g : same_config e (block_done e g).
Proof.
  unfold block_done, advance_block. eapply same_config_trans with (b := shorted (gated e g) g); [|repeat split].
  unfold shorted, gated.
  destruct (contains (e_mode e) MODE_I); inv_fields; destruct (contains (e_mode e) MODE_LRA); try (repeat split; fail);
    destruct (_ =? _); repeat split.
Qed.
Lemma tail_done_config e n : same_config e (tail_done e n).
Proof. unfold tail_done. destruct (contains (e_mode e) MODE_LRA); repeat split. Qed.
Lemma feed_config {T} P E (S : sample T) : forall fuel e g n cols,
  same_config e (fst (feed P E S fuel e g n cols)).
Proof.
  induction fuel; intros; cbn [feed]; [apply same_config_refl|].
  destruct (n =? 0); [apply same_config_refl|]. destruct (e_needed e <=? n).
  - pose proof (fed_config P E S e g (e_needed e) (map (firstn (e_needed e)) cols)) as F.
    destruct (fed P E S e g (e_needed e) (map (firstn (e_needed e)) cols)) as (e1, g1).
    eapply same_config_trans; [exact F|]. eapply same_config_trans; [apply (block_done_config e1 g1)|]. apply IHfuel.
  - pose proof (fed_config P E S e g n cols) as F. destruct (fed P E S e g n cols) as (e1, g1).
    eapply same_config_trans; [exact F|]. apply tail_done_config.
Qed.
Lemma added_config {T} P E (S : sample T) e g n cols : same_config e (fst (added P E S e g n cols)).
Proof.
  unfold added. destruct (n =? 0); [apply same_config_refl|]. cbn [cleared].
  match goal with |- context [feed P E S n ?e0 ?g0 n cols] =>
    pose proof (feed_config P E S n e0 g0 n cols) as F; destruct (feed P E S n e0 g0 n cols) as (e1, g1) end.
  eapply same_config_trans; [|exact F]. repeat split.
Qed.
