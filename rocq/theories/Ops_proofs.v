(** Every call of the API keeps the invariant and returns (64-bit targets). *)
From Coq Require Import List Arith NArith ZArith Bool Lia.
From Verif Require Import Prelude Float Env Utils History Interp TruePeak Filter Ebur128 Ref
  Prelude_proofs Utils_proofs Interp_proofs Float_proofs TruePeak_proofs Filter_proofs
  Geometry_proofs History_proofs Ebur128_proofs.
Import ListNotations.
Ltac Zify.zify_post_hook ::= Z.div_mod_to_equations.

Lemma contains_sub m f1 f2 : N.land f1 f2 = f2 -> contains m f1 = true -> contains m f2 = true.
Proof.
  unfold contains. rewrite !N.eqb_eq. intros H12 H1. rewrite <- H12 at 1.
  now rewrite N.land_assoc, H1.
Qed.
Lemma lra_s m : contains m MODE_LRA = true -> contains m MODE_S = true.
Proof. now apply contains_sub. Qed.
Lemma s_m m : contains m MODE_S = true -> contains m MODE_M = true.
Proof. now apply contains_sub. Qed.

(** Rates at which the buffers are long enough (see C03, C04). *)
Definition good_rate (m : mode) (rate : N) : Prop :=
  (contains m MODE_S = true \/ (18 <= rate)%N) /\
  (contains m MODE_LRA = true -> (29 * samples_in_100ms rate < 3 * rate)%N).

Lemma good_rate_L m rate w : good_rate m rate -> (16 <= rate)%N -> window_of_mode m <> None ->
  clamp_ms m w = w ->
  (4 * samples_in_100ms rate <= buffer_frames rate w)%N /\
  (contains m MODE_LRA = true -> (30 * samples_in_100ms rate <= buffer_frames rate w)%N).
Proof.
  intros (G1 & G2) Hr Hm Hw. split.
  - unfold clamp_ms in Hw. destruct (contains m MODE_S) eqn:ES.
    + etransitivity; [apply buffer_3000_4; auto|]. apply buffer_frames_mono; auto. lia.
    + destruct G1 as [G1|G1]; [discriminate|]. destruct (contains m MODE_M) eqn:EM.
      * etransitivity; [apply buffer_400; auto|]. apply buffer_frames_mono; auto. lia.
      * destruct (mode_M_window _ Hm); congruence.
  - intros HL. pose proof (lra_s _ HL) as HS. unfold clamp_ms in Hw. rewrite HS in Hw.
    etransitivity; [apply buffer_3000_30; auto|]. apply buffer_frames_mono; auto. lia.
Qed.

Lemma concat_repeat_zero L C : concat (repeat (repeat f64_zero L) C) = repeat f64_zero (C * L).
Proof. induction C; simpl; auto. now rewrite IHC, <- repeat_app. Qed.

Definition fresh_ghost (rate : N) (C L : nat) (tp : bool) : ghost :=
  {| g_planes := repeat (repeat f64_zero L) C; g_hs := tp_hists0 rate C tp; g_pk := repeat f32_zero C |}.

Lemma allocate_64 P channels rate window :
  is64 P -> (16 <= rate)%N -> (rate <= MAX_RATE)%N -> (channels <= MAX_CHANNELS)%N -> (window <= u32_max)%N ->
  allocate_audio_data P channels rate window =
    Ret (Ok (concat (repeat (repeat f64_zero (N.to_nat (buffer_frames rate window))) (N.to_nat channels)))).
Proof.
  intros HP H1 H2 H3 H4. unfold allocate_audio_data.
  destruct (audio_data_len_64 P channels rate window HP H1 H2 H3 H4) as (-> & Hb).
  unfold alloc_f64. destruct (N.leb_spec (8 * (buffer_frames rate window * channels)) (p_usize_max P / 2)); [|lia].
  cbn [obind]. rewrite concat_repeat_zero. do 3 f_equal. lia.
Qed.

Lemma default_map_length C : length (default_channel_map C) = C.
Proof.
  do 6 (destruct C as [|C]; [reflexivity|]).
  cbn [default_channel_map]. rewrite app_length, repeat_length, firstn_length.
  change (length [Left; Right; Center; Unused; LeftSurround; RightSurround]) with 6. lia.
Qed.
Lemma default_map_no_dual C : ~ In DualMono (default_channel_map C).
Proof.
  do 6 (destruct C as [|C]; [simpl; intuition congruence|]).
  cbn [default_channel_map]. intros [H|H]%in_app_or.
  - apply In_firstn in H. simpl in H. intuition congruence.
  - apply repeat_spec in H. discriminate.
Qed.

Lemma params_ok_spec c r : params_ok c r = true <-> (1 <= c <= 64 /\ 16 <= r <= MAX_RATE)%N.
Proof.
  unfold params_ok, MAX_CHANNELS. rewrite !andb_true_iff, negb_true_iff, orb_false_iff,
    N.eqb_neq, N.ltb_ge, !N.leb_le. lia.
Qed.

Lemma window_clamp m w : window_of_mode m = Some w -> clamp_ms m w = w /\ (w <= u32_max)%N.
Proof.
  unfold window_of_mode, clamp_ms, u32_max. destruct (contains m MODE_S); [|destruct (contains m MODE_M)];
    intros [= <-]; split; lia.
Qed.

(** A buffer just allocated *)
Lemma fresh_timing m rate w e L :
  good_rate m rate -> (16 <= rate)%N -> window_of_mode m <> None -> clamp_ms m w = w ->
  N.of_nat L = buffer_frames rate w ->
  e_mode e = m -> e_s100 e = N.to_nat (samples_in_100ms rate) -> e_index e = 0 -> e_needed e = e_s100 e * 4 ->
  timing e L.
Proof.
  intros Hg Hr Hm Hw HL E1 E2 E3 E4. destruct (good_rate_L m rate w Hg Hr Hm Hw) as (G1 & G2).
  pose proof (samples_in_100ms_pos rate Hr).
  split; rewrite ?E1; rewrite ?E3, ?E4, ?E2; try lia.
  exists 4. lia.
Qed.

Lemma ebur128_new_ok P E channels rate m :
  is64 P -> params_ok channels rate = true -> window_of_mode m <> None ->
  exists e g L, ebur128_new P E channels rate m = Ret (Ok e) /\ inv P E e g L /\
    e_mode e = m /\ e_rate e = rate /\ e_channels e = N.to_nat channels /\
    (good_rate m rate -> timing e L) /\
    L = N.to_nat (buffer_frames rate (e_window e)) /\
    g = fresh_ghost rate (N.to_nat channels) L (contains m MODE_TRUE_PEAK) /\
    e_block e = history_new (contains m MODE_HISTOGRAM) (p_usize_max P / 100) /\
    e_short e = history_new (contains m MODE_HISTOGRAM) (p_usize_max P / 3000) /\
    e_sample_peak e = repeat f64_zero (e_channels e) /\ e_true_peak e = repeat f64_zero (e_channels e) /\
    e_cmap e = default_channel_map (e_channels e) /\ e_index e = 0 /\ e_needed e = e_s100 e * 4 /\
    e_counter e = 0 /\ Some (e_window e) = window_of_mode m /\ e_history e = p_usize_max P /\
    filter_new E rate (e_channels e) (contains m MODE_SAMPLE_PEAK) (contains m MODE_TRUE_PEAK) = Ret (e_filter e).
Proof.
  intros HP Hpar Hm. pose proof (proj1 (params_ok_spec _ _) Hpar) as (Hc & Hr).
  unfold ebur128_new. rewrite Hpar. cbn [negb].
  destruct (window_of_mode m) as [w|] eqn:Hw; [|congruence].
  destruct (window_clamp _ _ Hw) as (Hcl & Hwm).
  rewrite allocate_64 by (unfold MAX_CHANNELS; try assumption; lia). cbn [obind].
  destruct (filter_new_ok E P rate (N.to_nat channels) (contains m MODE_SAMPLE_PEAK) (contains m MODE_TRUE_PEAK))
    as (f & Hf & Hok & Hst & Hsp); [lia|lia|].
  rewrite Hf. cbn [obind].
  set (L := N.to_nat (buffer_frames rate w)).
  eexists. exists (fresh_ghost rate (N.to_nat channels) L (contains m MODE_TRUE_PEAK)), L.
  split; [reflexivity|]. inv_fields. split.
  { split; unfold fresh_ghost; inv_fields; auto; try lia.
    - now rewrite repeat_length.
    - apply Forall_repeat'. now rewrite repeat_length.
    - congruence.
    - apply default_map_length.
    - intros H. now apply default_map_no_dual in H.
    - apply repeat_length.
    - apply repeat_length.
    - apply history_new_ok.
    - apply history_new_ok.
    - rewrite Hsp. repeat split; apply Forall_repeat', nn_zero. }
  repeat split; auto; inv_fields; auto.
  - destruct (good_rate_L m rate w H ltac:(lia) ltac:(congruence) Hcl) as (G1 & _). lia.
  - intros HL. destruct (good_rate_L m rate w H ltac:(lia) ltac:(congruence) Hcl) as (_ & G2).
    specialize (G2 HL). lia.
  - destruct (good_rate_L m rate w H ltac:(lia) ltac:(congruence) Hcl) as (G1 & _).
    pose proof (samples_in_100ms_pos rate). lia.
  - pose proof (samples_in_100ms_pos rate). lia.
  - exists 4. destruct (good_rate_L m rate w H ltac:(lia) ltac:(congruence) Hcl) as (G1 & _). lia.
Qed.

Ltac spl := repeat match goal with |- _ /\ _ => split | |- _ <-> _ => split end.
Lemma channel_eqb_eq a b : channel_eqb a b = true <-> a = b.
Proof. destruct a, b; simpl; split; intros; try discriminate; auto. Qed.

Lemma upd_length {A} (l : list A) i v : length (upd l i v) = length l.
Proof. revert i; induction l; destruct i; simpl; auto. Qed.
Lemma In_upd {A} (l : list A) i v x : In x (upd l i v) -> x = v \/ In x l.
Proof.
  revert i; induction l; destruct i; simpl; intros H; auto.
  - destruct H; auto.
  - destruct H as [H|H]; auto. destruct (IHl _ H); auto.
Qed.

Lemma set_channel_ok P E e g L number v :
  inv P E e g L ->
  exists r e', set_channel e number v = Ret (r, e') /\ inv P E e' g L /\ (timing e L -> timing e' L) /\
    (r <> Ok tt -> e' = e) /\
    (r = Ok tt <-> (number < N.of_nat (e_channels e))%N /\ (v = DualMono -> e_channels e = 1)) /\
    (r = Ok tt -> e' = with_cmap e (upd (e_cmap e) (N.to_nat number) v)).
Proof.
  intros H. unfold set_channel.
  destruct (N.leb_spec (N.of_nat (e_channels e)) number).
  { exists (Err InvalidChannelIndex), e. spl; auto; try discriminate; try (intros (? & _); lia). }
  unfold dual_mono_bad.
  destruct (channel_eqb v DualMono) eqn:Ev; cbn [andb].
  - apply channel_eqb_eq in Ev. subst v.
    destruct (Nat.eqb_spec (e_channels e) 1) as [E1|E1]; cbn [negb orb].
    + assert (number = 0%N) by lia. subst number. cbn [N.to_nat Nat.eqb negb].
      unfold set_idx. rewrite (i_cmap _ _ _ _ _ H), E1. cbn [Nat.ltb Nat.leb obind].
      exists (Ok tt), (with_cmap e (upd (e_cmap e) 0 DualMono)). split; auto. split.
      { destruct H; split; inv_fields; auto. now rewrite upd_length. }
      spl; auto; try (intros T; destruct T; split; auto; fail); intros; try congruence; try lia.
    + exists (Err InvalidChannelIndex), e. spl; auto; try discriminate. intros (? & X). specialize (X eq_refl). lia.
  - unfold set_idx. rewrite (i_cmap _ _ _ _ _ H).
    destruct (Nat.ltb_spec (N.to_nat number) (e_channels e)); [|lia]. cbn [obind].
    exists (Ok tt), (with_cmap e (upd (e_cmap e) (N.to_nat number) v)). split; auto. split.
    { destruct H; split; inv_fields; auto. { now rewrite upd_length. }
      intros Hin. destruct (In_upd _ _ _ _ Hin); auto. subst v. simpl in Ev. discriminate. }
    spl; auto; try (intros T; destruct T; split; auto; fail); intros; try congruence; try lia.
    split; auto. intros ->. discriminate.
Qed.

Lemma map_has_bad_spec C : forall m k, 
  map_has_bad_dual_mono C k m = false <->
  (forall i, nth_error m i = Some DualMono -> C = 1 /\ k + i = 0).
Proof.
  induction m as [|v m IH]; intros k; simpl.
  - split; auto. intros _ [|i]; discriminate.
  - rewrite orb_false_iff, IH. unfold dual_mono_bad. split.
    + intros (H1 & H2) [|i]; simpl.
      * intros [= ->]. simpl in H1. rewrite orb_false_iff, !negb_false_iff, !Nat.eqb_eq in H1. lia.
      * intros Hi. specialize (H2 i Hi). lia.
    + intros H. split.
      * destruct (channel_eqb v DualMono) eqn:Ev; auto. apply channel_eqb_eq in Ev. subst.
        specialize (H 0 eq_refl). simpl. rewrite orb_false_iff, !negb_false_iff, !Nat.eqb_eq. lia.
      * intros i Hi. specialize (H (S i) Hi). lia.
Qed.

Lemma set_channel_map_ok P E e g L m :
  inv P E e g L ->
  exists r e', set_channel_map e m = Ret (r, e') /\ inv P E e' g L /\ (timing e L -> timing e' L) /\
    (r <> Ok tt -> e' = e) /\
    (r = Ok tt <-> length m = e_channels e /\ (In DualMono m -> e_channels e = 1)) /\
    (r = Ok tt -> e' = with_cmap e m).
Proof.
  intros H. unfold set_channel_map.
  destruct (Nat.eqb_spec (length m) (e_channels e)) as [Hl|Hl]; cbn [negb].
  2:{ exists (Err InvalidChannelIndex), e. spl; auto; try discriminate. intros (? & _); lia. }
  destruct (map_has_bad_dual_mono (e_channels e) 0 m) eqn:Eb.
  - exists (Err InvalidChannelIndex), e. split; auto. spl; auto; try discriminate.
    intros (_ & Hd). exfalso. assert (map_has_bad_dual_mono (e_channels e) 0 m = false); [|congruence].
    apply map_has_bad_spec. intros i Hi. pose proof (nth_error_Some_lt _ _ _ Hi).
    pose proof (Hd (nth_error_In _ _ Hi)). lia.
  - rewrite (i_cmap _ _ _ _ _ H), Hl. unfold assert_. rewrite Nat.eqb_refl.
    pose proof (proj1 (map_has_bad_spec _ _ _) Eb) as Hb.
    exists (Ok tt), (with_cmap e m). split; auto.
    assert (In DualMono m -> e_channels e = 1) as Hd.
    { intros (i & Hi)%In_nth_error. destruct (Hb i Hi). auto. }
    split. { destruct H; split; inv_fields; auto. }
    spl; auto; try (intros T; destruct T; split; auto; fail); intros; congruence.
Qed.

(** what change_parameters does to the analyzer and its ghost state *)
Definition changed E (e : ebur128) (g : ghost) (L : nat) (channels rate : N) (e' : ebur128) (g' : ghost) (L' : nat)
  : Prop :=
  if params_ok channels rate && negb ((e_rate e =? rate)%N && (N.of_nat (e_channels e) =? channels)%N) then
    let C := N.to_nat channels in
    let same := (N.of_nat (e_channels e) =? channels)%N in
    let sp := contains (e_mode e) MODE_SAMPLE_PEAK in
    let tp := contains (e_mode e) MODE_TRUE_PEAK in
    L' = N.to_nat (buffer_frames rate (e_window e)) /\ g' = fresh_ghost rate C L' tp /\
    exists f, filter_new E rate C sp tp = Ret f /\
      f_state f = repeat zero5 C /\ f_sample_peak f = repeat f64_zero C /\
      e' = {| e_mode := e_mode e; e_rate := rate; e_channels := C;
          e_audio := concat (repeat (repeat f64_zero L') C); e_index := 0; e_needed := N.to_nat (samples_in_100ms rate) * 4;
          e_cmap := if same then e_cmap e else default_channel_map C;
          e_s100 := N.to_nat (samples_in_100ms rate); e_filter := f;
          e_block := e_block e; e_short := e_short e; e_counter := 0;
          e_sample_peak := if same then e_sample_peak e else repeat f64_zero C;
          e_true_peak := if same then e_true_peak e else repeat f64_zero C;
          e_window := e_window e; e_history := e_history e |}
  else e' = e /\ g' = g /\ L' = L.

Lemma change_parameters_ok P E e g L channels rate :
  is64 P -> inv P E e g L ->
  exists r e' g' L', change_parameters P E e channels rate = Ret (r, e') /\ inv P E e' g' L' /\
    ((params_ok channels rate = true -> good_rate (e_mode e) rate) -> timing e L -> timing e' L') /\
    (r <> Ok tt -> e' = e) /\
    (r = Ok tt <-> params_ok channels rate = true) /\ (r = Ok tt \/ r = Err NoMem) /\
    changed E e g L channels rate e' g' L'.
Proof.
  intros HP H. unfold change_parameters, changed. destruct (params_ok channels rate) eqn:Hpar; cbn [negb andb].
  2:{ exists (Err NoMem), e, g, L. spl; auto; try discriminate; try apply H0; try apply H1; auto. }
  pose proof (proj1 (params_ok_spec _ _) Hpar) as (Hc & Hr).
  destruct ((e_rate e =? rate)%N && (N.of_nat (e_channels e) =? channels)%N) eqn:Esame; cbn [negb].
  { exists (Ok tt), e, g, L. spl; auto; try congruence; try apply H0; try apply H1; auto. }
  rewrite allocate_64; auto; try (apply H); try (unfold MAX_CHANNELS; lia). cbn [obind].
  destruct (filter_new_ok E P rate (N.to_nat channels) (contains (e_mode e) MODE_SAMPLE_PEAK)
             (contains (e_mode e) MODE_TRUE_PEAK)) as (f & Hf & Hok & Hst & Hsp); [lia|lia|].
  rewrite Hf. cbn [obind].
  assert ((if (e_rate e =? rate)%N then e_s100 e else N.to_nat (samples_in_100ms rate))
          = N.to_nat (samples_in_100ms rate)) as Hs.
  { destruct (N.eqb_spec (e_rate e) rate); auto. subst. apply H. }
  rewrite Hs.
  set (L' := N.to_nat (buffer_frames rate (e_window e))).
  eexists (Ok tt), _, (fresh_ghost rate (N.to_nat channels) L' (contains (e_mode e) MODE_TRUE_PEAK)), L'.
  split; [reflexivity|]. split.
  { pose proof (i_dual _ _ _ _ _ H) as Hdual. pose proof (i_nn _ _ _ _ _ H) as Hnn.
    destruct H; split; unfold fresh_ghost; inv_fields; auto; try lia.
    - now rewrite repeat_length.
    - apply Forall_repeat'. now rewrite repeat_length.
    - destruct (N.eqb_spec (N.of_nat (e_channels e)) channels); [lia|apply default_map_length].
    - destruct (N.eqb_spec (N.of_nat (e_channels e)) channels).
      + intros Hin. specialize (Hdual Hin). lia.
      + intros Hin. now apply default_map_no_dual in Hin.
    - destruct (N.eqb_spec (N.of_nat (e_channels e)) channels); [lia|apply repeat_length].
    - destruct (N.eqb_spec (N.of_nat (e_channels e)) channels); [lia|apply repeat_length].
    - rewrite Hsp. destruct Hnn as (N1 & N2 & _).
      destruct (N.eqb_spec (N.of_nat (e_channels e)) channels); repeat split; auto; apply Forall_repeat', nn_zero. }
  split; [|split; [congruence|split; [tauto|split; [auto|]]]].
  2:{ cbv zeta. split; [reflexivity|]. split; [reflexivity|]. exists f. split; [reflexivity|]. split; [exact Hst|].
      split; [exact Hsp|reflexivity]. }
  intros Hg T. specialize (Hg eq_refl).
  apply (fresh_timing (e_mode e) rate (e_window e)); inv_fields; auto; try apply H; lia.
Qed.

Lemma clamp_idem m w : clamp_ms m (clamp_ms m w) = clamp_ms m w.
Proof. unfold clamp_ms. destruct (contains m MODE_S); [|destruct (contains m MODE_M)]; lia. Qed.
Lemma clamp_le_u32 m w : (w <= u32_max)%N -> (clamp_ms m w <= u32_max)%N.
Proof. unfold clamp_ms, u32_max. destruct (contains m MODE_S); [|destruct (contains m MODE_M)]; lia. Qed.

(** what set_max_window does to the analyzer and its ghost state *)
Definition rewindowed (e : ebur128) (g : ghost) (L : nat) (window : N) (e' : ebur128) (g' : ghost) (L' : nat) : Prop :=
  let w := clamp_ms (e_mode e) window in
  if (w =? e_window e)%N then e' = e /\ g' = g /\ L' = L
  else
    L' = N.to_nat (buffer_frames (e_rate e) w) /\
    g' = {| g_planes := repeat (repeat f64_zero L') (e_channels e); g_hs := g_hs g; g_pk := g_pk g |} /\
    e' = {| e_mode := e_mode e; e_rate := e_rate e; e_channels := e_channels e;
          e_audio := concat (repeat (repeat f64_zero L') (e_channels e)); e_index := 0; e_needed := e_s100 e * 4;
          e_cmap := e_cmap e; e_s100 := e_s100 e; e_filter := e_filter e;
          e_block := e_block e; e_short := e_short e; e_counter := 0;
          e_sample_peak := e_sample_peak e; e_true_peak := e_true_peak e;
          e_window := w; e_history := e_history e |}.

Lemma set_max_window_ok P E e g L window :
  is64 P -> inv P E e g L -> (window <= u32_max)%N ->
  exists e' g' L', set_max_window P e window = Ret (Ok tt, e') /\ inv P E e' g' L' /\
    e_mode e' = e_mode e /\ e_rate e' = e_rate e /\ e_window e' = clamp_ms (e_mode e) window /\
    (good_rate (e_mode e) (e_rate e) -> timing e L -> timing e' L') /\ rewindowed e g L window e' g' L'.
Proof.
  intros HP H Hw. unfold set_max_window, rewindowed. cbv zeta.
  pose proof (clamp_le_u32 (e_mode e) window Hw) as Hw'.
  pose proof (clamp_idem (e_mode e) window) as Hcl.
  set (w := clamp_ms (e_mode e) window) in *.
  destruct (N.eqb_spec w (e_window e)) as [Ew|Ew].
  { exists e, g, L. spl; auto; try apply H0; try apply H1; auto. }
  pose proof (i_rate _ _ _ _ _ H). pose proof (i_C _ _ _ _ _ H).
  rewrite allocate_64; auto; try (unfold MAX_CHANNELS; lia). cbn [obind]. rewrite Nat2N.id.
  set (L' := N.to_nat (buffer_frames (e_rate e) w)).
  eexists _, {| g_planes := repeat (repeat f64_zero L') (e_channels e); g_hs := g_hs g; g_pk := g_pk g |}, L'.
  split; [reflexivity|]. split.
  { destruct H; split; inv_fields; auto; try lia.
    - now rewrite repeat_length.
    - apply Forall_repeat'. now rewrite repeat_length. }
  inv_fields. repeat (split; [reflexivity|]).
  split; [|split; [reflexivity|split; reflexivity]].
  intros Hg T. apply (fresh_timing (e_mode e) (e_rate e) w); inv_fields; auto; try apply H; lia.
Qed.

Lemma set_max_history_ok P E e g L h :
  inv P E e g L -> inv P E (snd (set_max_history e h)) g L /\
  (timing e L -> timing (snd (set_max_history e h)) L) /\ fst (set_max_history e h) = Ok tt.
Proof.
  intros H. unfold set_max_history.
  destruct (e_history e =? clamp_ms (e_mode e) h)%N; cbn [fst snd]; auto.
  split; [|split; [|auto]].
  - destruct H; split; inv_fields; auto; now apply history_set_max_ok.
  - intros []; split; auto.
Qed.

Lemma reset_ok P E e g L : inv P E e g L ->
  exists e', ebur128_reset e = Ret e' /\
    inv P E e' (fresh_ghost (e_rate e) (e_channels e) L (contains (e_mode e) MODE_TRUE_PEAK)) L /\
    (timing e L -> timing e' L).
Proof.
  intros H. unfold ebur128_reset. pose proof (i_rate _ _ _ _ _ H). pose proof (i_C _ _ _ _ _ H).
  rewrite (filter_reset_new _ _ _ _ _ _ _ _ _ (i_filter _ _ _ _ _ H)) by lia.
  destruct (filter_new_ok E P (e_rate e) (e_channels e) (contains (e_mode e) MODE_SAMPLE_PEAK)
             (contains (e_mode e) MODE_TRUE_PEAK)) as (f & Hf & Hok & Hst & Hsp); [lia|lia|].
  rewrite Hf. cbn [obind]. eexists. split; [reflexivity|].
  pose proof (inv_s_pos _ _ _ _ _ H).
  split.
  - destruct H; split; unfold fresh_ghost; inv_fields; auto; try lia.
    + rewrite map_const_repeat, i_audio, (concat_planes_length _ L), i_planes by auto.
      now rewrite concat_repeat_zero.
    + now rewrite repeat_length.
    + apply Forall_repeat'. now rewrite repeat_length.
    + now rewrite map_length.
    + now rewrite map_length.
    + now apply history_reset_ok.
    + now apply history_reset_ok.
    + rewrite Hsp, !map_const_repeat. repeat split; apply Forall_repeat', nn_zero.
  - intros [T1 T2 T3 T4 T5]. split; inv_fields; auto; try lia. exists 4. lia.
Qed.

(** * All calls *)
Definition state_ok (P : platform) (E : ext) (e : ebur128) : Prop :=
  exists g L, inv P E e g L /\ timing e L /\ good_rate (e_mode e) (e_rate e).

(** planes of one length are as many as there are channels *)
Definition planes_ok {T} (C : nat) (l : list (list T)) : Prop :=
  l <> [] -> (exists n, Forall (fun p => length p = n) l) -> length l = C.
Definition audio_ok (C : nat) (a : audio) : Prop :=
  match a with
  | PI16 l | PI32 l => planes_ok C l
  | PF32 l => planes_ok C l
  | PF64 l => planes_ok C l
  | _ => True
  end.
Definition op_ok (e : ebur128) (o : op) : Prop :=
  match o with
  | OpChangeParameters c r => params_ok c r = true -> good_rate (e_mode e) r
  | OpSetMaxWindow w => (w <= u32_max)%N
  | OpAdd a | OpSeed a => audio_ok (e_channels e) a
  | _ => True
  end.

Lemma planar_new_cases {T} (l : list (list T)) :
  (exists n, planar_new l = Ok (Planar l 0 n) /\ l <> [] /\ Forall (fun p => length p = n) l /\ view (Planar l 0 n) n l)
  \/ (planar_new l = Err NoMem /\ (l = [] \/ exists a b, In a l /\ In b l /\ length a <> length b)).
Proof.
  destruct l as [|d0 l]; [right; split; auto|].
  cbn [planar_new].
  destruct (existsb (fun d => negb (length d0 =? length d)) (d0 :: l)) eqn:Ex.
  - right. split; auto. right. apply existsb_exists in Ex. destruct Ex as (b & Hb & Hn).
    exists d0, b. split; [now left|]. split; auto. now destruct (Nat.eqb_spec (length d0) (length b)).
  - left. exists (length d0). split; auto. split; [discriminate|].
    assert (Forall (fun p => length p = length d0) (d0 :: l)) as HF.
    { rewrite Forall_forall. intros x Hx. destruct (Nat.eqb_spec (length d0) (length x)); auto.
      exfalso. assert (existsb (fun d => negb (length d0 =? length d)) (d0 :: l) = true); [|congruence].
      apply existsb_exists. exists x. split; auto. now destruct (Nat.eqb_spec (length d0) (length x)). }
    split; auto. apply (planar_new_view (d0 :: l) (Planar (d0 :: l) 0 (length d0))).
    cbn [planar_new]. now rewrite Ex.
Qed.
Lemma interleaved_new_cases {T} (l : list T) C : 0 < C ->
  (exists n cols, interleaved_new l C = Ok (Interleaved l C) /\ length l = n * C /\
     view (Interleaved l C) n cols /\ length cols = C)
  \/ (interleaved_new l C = Err NoMem /\ ~ (exists n, length l = n * C)).
Proof.
  intros HC. unfold interleaved_new. destruct (Nat.eqb_spec C 0); [lia|].
  destruct (Nat.eqb_spec (length l mod C) 0) as [E0|E0]; cbn [negb].
  - left. exists (length l / C). assert (length l = (length l / C) * C) as Hl.
    { rewrite (Nat.div_mod_eq (length l) C) at 1. lia. }
    exists (cols_of C (chunks C l)). split; auto. split; auto. split.
    + apply (interleaved_new_view l C (Interleaved l C)). unfold interleaved_new.
      destruct (Nat.eqb_spec C 0); [lia|]. now rewrite E0.
    + unfold cols_of. now rewrite map_length, seq_length.
  - right. split; auto. intros (n' & Hn). apply E0. rewrite Hn. apply Nat.mod_mul. lia.
Qed.

Lemma add_frames_state {T} P E (S : sample T) e src n cols : state_ok P E e ->
  view src n cols -> length cols = e_channels e ->
  exists e', add_frames P S e src = Ret (Ok tt, e') /\ state_ok P E e' /\ e_mode e' = e_mode e.
Proof.
  intros (g & L & H & Ht & Hg) Hv Hc.
  destruct (add_frames_ok P E S L e g _ n cols H Ht Hv Hc) as (-> & H' & T').
  pose proof (added_config P E S e g n cols) as (F1 & F2 & _).
  eexists. split; [reflexivity|]. split; [|auto].
  exists (snd (added P E S e g n cols)), L. rewrite F1, F2. auto.
Qed.
Lemma seed_frames_state {T} P E (S : sample T) e src n cols : state_ok P E e ->
  view src n cols -> length cols = e_channels e ->
  exists e', seed_frames P S e src = Ret e' /\ state_ok P E e' /\ e_mode e' = e_mode e.
Proof.
  intros (g & L & H & Ht & Hg) Hv Hc.
  destruct (seed_frames_ok P E S L e g _ n cols H Hv Hc) as (-> & H' & T').
  eexists. split; [reflexivity|]. split; [|auto].
  exists (snd (seeded P E S e g n cols)), L. auto.
Qed.

Lemma add_interleaved_state {T} P E (S : sample T) e l : state_ok P E e ->
  exists r e', add_frames_interleaved P S e l = Ret (r, e') /\ state_ok P E e' /\ e_mode e' = e_mode e.
Proof.
  intros H. unfold add_frames_interleaved.
  assert (0 < e_channels e) by (destruct H as (g & L & H & _); pose proof (i_C _ _ _ _ _ H); lia).
  destruct (interleaved_new_cases l (e_channels e)) as [(n & cols & -> & _ & Hv & Hc)|(-> & _)]; [lia| |].
  - destruct (add_frames_state P E S e _ n cols H Hv Hc) as (e' & -> & H'). eauto.
  - eauto.
Qed.
Lemma add_planar_state {T} P E (S : sample T) e l : state_ok P E e -> planes_ok (e_channels e) l ->
  exists r e', add_frames_planar P S e l = Ret (r, e') /\ state_ok P E e' /\ e_mode e' = e_mode e.
Proof.
  intros H Hp. unfold add_frames_planar.
  destruct (planar_new_cases l) as [(n & -> & Hne & Hl & Hv)|(-> & _)].
  - destruct (add_frames_state P E S e _ n l H Hv) as (e' & -> & H'); eauto.
  - eauto.
Qed.
Lemma seed_interleaved_state {T} P E (S : sample T) e l : state_ok P E e ->
  exists r e', seed_frames_interleaved P S e l = Ret (r, e') /\ state_ok P E e' /\ e_mode e' = e_mode e.
Proof.
  intros H. unfold seed_frames_interleaved.
  assert (0 < e_channels e) by (destruct H as (g & L & H & _); pose proof (i_C _ _ _ _ _ H); lia).
  destruct (interleaved_new_cases l (e_channels e)) as [(n & cols & -> & _ & Hv & Hc)|(-> & _)]; [lia| |].
  - destruct (seed_frames_state P E S e _ n cols H Hv Hc) as (e' & -> & H'). cbn [obind]. eauto.
  - eauto.
Qed.
Lemma seed_planar_state {T} P E (S : sample T) e l : state_ok P E e -> planes_ok (e_channels e) l ->
  exists r e', seed_frames_planar P S e l = Ret (r, e') /\ state_ok P E e' /\ e_mode e' = e_mode e.
Proof.
  intros H Hp. unfold seed_frames_planar.
  destruct (planar_new_cases l) as [(n & -> & Hne & Hl & Hv)|(-> & _)].
  - destruct (seed_frames_state P E S e _ n l H Hv) as (e' & -> & H'); [eauto|]. cbn [obind]. eauto.
  - eauto.
Qed.

Lemma step_state P E e o : is64 P -> state_ok P E e -> op_ok e o ->
  exists r e', step P E e o = Ret (r, e') /\ state_ok P E e' /\ e_mode e' = e_mode e.
Proof.
  intros HP Hs Ho. destruct Hs as (g & L & H & Ht & Hg) eqn:Es. clear Es.
  destruct o as [number v|m|c rt|w|h| |a|a]; cbn [step].
  - destruct (set_channel_ok P E e g L number v H) as (r & e' & -> & H' & T' & X1 & X2 & X3).
    exists r, e'. split; [reflexivity|].
    assert (e_mode e' = e_mode e /\ e_rate e' = e_rate e) as (M & R).
    { destruct r as [[]|er]; [rewrite X3 by auto; auto|rewrite X1 by discriminate; auto]. }
    split; auto. exists g, L. rewrite M, R. auto.
  - destruct (set_channel_map_ok P E e g L m H) as (r & e' & -> & H' & T' & X1 & X2 & X3).
    exists r, e'. split; [reflexivity|].
    assert (e_mode e' = e_mode e /\ e_rate e' = e_rate e) as (M & R).
    { destruct r as [[]|er]; [rewrite X3 by auto; auto|rewrite X1 by discriminate; auto]. }
    split; auto. exists g, L. rewrite M, R. auto.
  - destruct (change_parameters_ok P E e g L c rt HP H) as (r & e' & g' & L' & Hr & H' & T' & X1 & X2 & X3 & _).
    exists r, e'. split; [exact Hr|].
    assert (e_mode e' = e_mode e /\ (e' = e \/ e_rate e' = rt /\ params_ok c rt = true)) as (M & R).
    { destruct r as [[]|er]; [|rewrite X1 by discriminate; auto].
      revert Hr. unfold change_parameters. destruct (params_ok c rt); cbn [negb]; [|congruence].
      destruct ((e_rate e =? rt)%N && (N.of_nat (e_channels e) =? c)%N); [intros [= <-]; auto|].
      destruct (allocate_audio_data P c rt (e_window e)) as [[au|er]| | |]; cbn [obind]; try discriminate.
      destruct (filter_new E rt (N.to_nat c) _ _); cbn [obind]; try discriminate.
      intros Heq. apply Ret_pair_inj in Heq. destruct Heq as (_ & <-). auto. }
    split; auto. exists g', L'. split; auto. split; [now apply T'|].
    rewrite M. destruct R as [->|(-> & R)]; auto.
  - destruct (set_max_window_ok P E e g L w HP H Ho) as (e' & g' & L' & -> & H' & M & R & _ & T' & _).
    exists (Ok tt), e'. split; auto. split; auto. exists g', L'. rewrite M, R. auto.
  - destruct (set_max_history_ok P E e g L h H) as (H' & T' & _).
    exists (fst (set_max_history e h)), (snd (set_max_history e h)).
    destruct (set_max_history e h) as (r, e') eqn:Eh. cbn [fst snd] in *. split; auto.
    assert (e_mode e' = e_mode e /\ e_rate e' = e_rate e) as (M & R).
    { revert Eh. unfold set_max_history. destruct (e_history e =? clamp_ms (e_mode e) h)%N; intros [= <- <-]; auto. }
    split; auto. exists g, L. rewrite M, R. auto.
  - destruct (reset_ok P E e g L H) as (e' & Hr & H' & T'). rewrite Hr. cbn [obind].
    exists (Ok tt), e'. split; auto.
    assert (e_mode e' = e_mode e /\ e_rate e' = e_rate e) as (M & R).
    { revert Hr. unfold ebur128_reset. destruct (filter_reset (e_filter e)); cbn [obind]; try discriminate.
      intros Heq. apply Ret_inj in Heq. subst e'. auto. }
    split; auto. eexists _, L. rewrite M, R. eauto.
  - assert (state_ok P E e) by (exists g, L; auto).
    destruct a; (now apply add_interleaved_state) || (now apply add_planar_state).
  - assert (state_ok P E e) by (exists g, L; auto).
    destruct a; (now apply seed_interleaved_state) || (now apply seed_planar_state).
Qed.

(** a call sequence whose every call is admissible in the state it is made in *)
Fixpoint ops_ok (P : platform) (E : ext) (e : ebur128) (os : list op) : Prop :=
  match os with
  | [] => True
  | o :: os => op_ok e o /\ (forall r e', step P E e o = Ret (r, e') -> ops_ok P E e' os)
  end.
Lemma run_state P E : is64 P -> forall os e, state_ok P E e -> ops_ok P E e os ->
  exists rs e', run P E e os = Ret (rs, e') /\ state_ok P E e' /\ e_mode e' = e_mode e.
Proof.
  intros HP. induction os as [|o os IH]; intros e Hs Ho; [cbn; eauto|].
  destruct Ho as (Ho & Hn). destruct (step_state P E e o HP Hs Ho) as (r & e1 & H1 & S1 & M1).
  cbn [run]. rewrite H1. cbn [obind]. destruct (IH e1 S1 (Hn r e1 H1)) as (rs & e2 & H2 & S2 & M2).
  rewrite H2. cbn [obind]. eexists _, e2. split; [reflexivity|]. split; [auto|congruence].
Qed.
