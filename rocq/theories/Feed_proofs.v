(** Feeding audio: layouts, formats, chunking, per-call peaks. *)
From Coq Require Import List Arith NArith ZArith Bool Lia.
From Flocq Require Import IEEE754.BinarySingleNaN.
From Verif Require Import Prelude Float Env Utils History Interp TruePeak Filter Ebur128 Ref Prelude_proofs Utils_proofs
  Float_proofs TruePeak_proofs Filter_proofs Ebur128_proofs Ops_proofs Chunk_proofs Spec Reach_proofs Input_proofs Format_proofs.
Import ListNotations.

(** * From reachable states to the invariant *)
Lemma reachable_inv P E e : is_64bit P -> reachable P E e -> exists g L, inv P E e g L /\ timing e L.
Proof. intros HP Hr. destruct (reachable_ok P E e HP Hr) as (g & L & H & Ht & Hg). eauto. Qed.
Lemma admissible_audio e a : admissible e (OpAdd a) -> audio_ok (e_channels e) a.
Proof. intros H. exact (admissible_op_ok e (OpAdd a) H). Qed.
Lemma admissible_seed e a : admissible e (OpSeed a) -> audio_ok (e_channels e) a.
Proof. intros H. exact (admissible_op_ok e (OpSeed a) H). Qed.

Lemma same_input_step P E e a a' : is_64bit P -> reachable P E e ->
  admissible e (OpAdd a) -> admissible e (OpAdd a') -> input P (e_channels e) a = input P (e_channels e) a' ->
  step P E e (OpAdd a) = step P E e (OpAdd a') /\ step P E e (OpSeed a) = step P E e (OpSeed a').
Proof.
  intros HP Hr Ha Ha' Hi. destruct (reachable_inv P E e HP Hr) as (g & L & H & Ht).
  apply admissible_audio in Ha, Ha'.
  rewrite (proj1 (step_add P E L e g a H Ht Ha)), (proj1 (step_add P E L e g a' H Ht Ha')).
  rewrite (step_seed P E L e g a H Ha), (step_seed P E L e g a' H Ha'). now rewrite Hi.
Qed.

(** * What the per-call peaks influence *)
Definition map_state {A} (f : ebur128 -> ebur128) (o : outcome (A * ebur128)) : outcome (A * ebur128) :=
  '(r, e) <- o ;; Ret (r, f e).
Lemma forget_idem e : forget_prev (forget_prev e) = forget_prev e.
Proof.
  unfold forget_prev. destruct e as [m r c au ix nd cm s f bl sh ct sp tp w h]. unfold with_filter.
  cbn [e_mode e_rate e_channels e_audio e_index e_needed e_cmap e_s100 e_filter e_block e_short e_counter e_sample_peak e_true_peak e_window e_history
       f_channels f_state f_b f_a f_tp f_true_peak f_calc_sample_peak f_sample_peak].
  now rewrite !map_map.
Qed.
Lemma forget_prev_forget e : forget_prev e = forget e. Proof. reflexivity. Qed.

Lemma add_frames_forget {T} P (S : sample T) e src :
  map_state forget_prev (add_frames P S e src) = map_state forget_prev (add_frames P S (forget_prev e) src).
Proof.
  unfold add_frames. change (e_channels (forget_prev e)) with (e_channels e).
  destruct (s_frames src =? 0); [cbn; now rewrite forget_idem|].
  destruct (e_channels e =? 0); [cbn; now rewrite forget_idem|].
  change (with_filter (forget_prev e) (filter_reset_peaks (e_filter (forget_prev e)))) with (forget_prev (forget_prev e)).
  change (with_filter e (filter_reset_peaks (e_filter e))) with (forget_prev e). now rewrite forget_idem.
Qed.
Lemma filter_seed_forget {T} P (S : sample T) f src cmap :
  (f' <- filter_seed P S f src cmap ;; Ret (filter_reset_peaks f')) =
  (f' <- filter_seed P S (filter_reset_peaks f) src cmap ;; Ret (filter_reset_peaks f')).
Proof.
  unfold filter_seed.
  change (f_channels (filter_reset_peaks f)) with (f_channels f).
  change (f_state (filter_reset_peaks f)) with (f_state f).
  change (f_b (filter_reset_peaks f)) with (f_b f). change (f_a (filter_reset_peaks f)) with (f_a f).
  change (f_tp (filter_reset_peaks f)) with (f_tp f).
  change (f_true_peak (filter_reset_peaks f)) with (map (fun _ => f64_zero) (f_true_peak f)).
  rewrite map_length.
  destruct (length cmap =? f_channels f); cbn [assert_ obind]; auto.
  destruct (s_channels src =? f_channels f); cbn [assert_ obind]; auto.
  destruct (length (f_state f) =? f_channels f); cbn [assert_ obind]; auto.
  destruct (seed_loop P S (f_b f) (f_a f) src 0 cmap (f_state f)) as [st| | |]; cbn [obind]; auto.
  destruct (match f_tp f with Some _ => _ | None => _ end); cbn [obind]; auto.
  unfold filter_reset_peaks.
  cbn [f_channels f_state f_b f_a f_tp f_true_peak f_calc_sample_peak f_sample_peak]. now rewrite !map_map.
Qed.
Lemma seed_frames_forget {T} P (S : sample T) e src :
  map_state forget_prev (x <- seed_frames P S e src ;; Ret (Ok (A := unit) tt, x)) =
  map_state forget_prev (x <- seed_frames P S (forget_prev e) src ;; Ret (Ok tt, x)).
Proof.
  unfold seed_frames. pose proof (filter_seed_forget P S (e_filter e) src (e_cmap e)) as H.
  change (e_filter (forget_prev e)) with (filter_reset_peaks (e_filter e)).
  change (e_cmap (forget_prev e)) with (e_cmap e).
  destruct (filter_seed P S (e_filter e) src (e_cmap e)) as [f1| | |], (filter_seed P S (filter_reset_peaks (e_filter e)) src (e_cmap e)) as [f2| | |];
    cbn [obind map_state] in *; try discriminate; auto.
  apply Ret_inj in H. unfold forget_prev, with_filter.
  cbn [e_mode e_rate e_channels e_audio e_index e_needed e_cmap e_s100 e_filter e_block e_short e_counter e_sample_peak e_true_peak e_window e_history].
  change ({| f_channels := f_channels ?f; f_b := f_b ?f; f_a := f_a ?f; f_state := f_state ?f;
     f_calc_sample_peak := f_calc_sample_peak ?f; f_sample_peak := map (fun _ => f64_zero) (f_sample_peak ?f);
     f_tp := f_tp ?f; f_true_peak := map (fun _ => f64_zero) (f_true_peak ?f) |}) with (filter_reset_peaks f).
  now rewrite H.
Qed.

Lemma step_forget P E e o : map_state forget_prev (step P E e o) = map_state forget_prev (step P E (forget_prev e) o).
Proof.
  assert (forall A (r : A), map_state forget_prev (Ret (r, e)) = map_state forget_prev (Ret (r, forget_prev e))) as Hid
    by (intros; cbn; now rewrite forget_idem).
  destruct o as [number v|m|c rt|w|h| |a|a]; cbn [step].
  - unfold set_channel. change (e_channels (forget_prev e)) with (e_channels e). change (e_cmap (forget_prev e)) with (e_cmap e).
    destruct (_ <=? _)%N; auto. destruct (dual_mono_bad _ _ _); auto.
    destruct (set_idx _ _ _); auto. cbn. 
    change (with_cmap (forget_prev e) a) with (forget_prev (with_cmap e a)). now rewrite forget_idem.
  - unfold set_channel_map. change (e_channels (forget_prev e)) with (e_channels e). change (e_cmap (forget_prev e)) with (e_cmap e).
    destruct (negb _); auto. destruct (map_has_bad_dual_mono _ _ _); auto.
    destruct (_ =? _); cbn [assert_ obind]; auto. cbn.
    change (with_cmap (forget_prev e) m) with (forget_prev (with_cmap e m)). now rewrite forget_idem.
  - unfold change_parameters. change (e_rate (forget_prev e)) with (e_rate e).
    change (e_channels (forget_prev e)) with (e_channels e). change (e_window (forget_prev e)) with (e_window e).
    destruct (negb _); auto. destruct (_ && _); auto. destruct (allocate_audio_data _ _ _ _) as [[au|]| | |]; cbn [obind]; auto.
  - unfold set_max_window. change (e_rate (forget_prev e)) with (e_rate e). change (e_mode (forget_prev e)) with (e_mode e).
    change (e_channels (forget_prev e)) with (e_channels e). change (e_window (forget_prev e)) with (e_window e).
    destruct (_ =? _)%N; auto. destruct (allocate_audio_data _ _ _ _) as [[au|er]| | |]; cbn [obind map_state]; auto; [|exact (Hid _ (Err er))].
    match goal with |- _ = Ret (_, forget_prev ?x) => change x with (forget_prev
      {| e_mode := e_mode e; e_rate := e_rate e; e_channels := e_channels e;
          e_audio := au; e_index := 0; e_needed := e_s100 e * 4;
          e_cmap := e_cmap e; e_s100 := e_s100 e; e_filter := e_filter e;
          e_block := e_block e; e_short := e_short e; e_counter := 0;
          e_sample_peak := e_sample_peak e; e_true_peak := e_true_peak e;
          e_window := clamp_ms (e_mode e) w; e_history := e_history e |}) end.
    now rewrite forget_idem.
  - unfold set_max_history. change (e_history (forget_prev e)) with (e_history e). change (e_mode (forget_prev e)) with (e_mode e).
    destruct (_ =? _)%N; auto. cbn [obind map_state].
    match goal with |- Ret (_, forget_prev ?y) = Ret (_, forget_prev ?x) => change x with (forget_prev y) end.
    now rewrite forget_idem.
  - unfold ebur128_reset, filter_reset. change (e_filter (forget_prev e)) with (filter_reset_peaks (e_filter e)).
    change (f_tp (filter_reset_peaks (filter_reset_peaks (e_filter e)))) with (f_tp (e_filter e)).
    change (f_tp (filter_reset_peaks (e_filter e))) with (f_tp (e_filter e)).
    assert (filter_reset_peaks (filter_reset_peaks (e_filter e)) = filter_reset_peaks (e_filter e)) as ->.
    { unfold filter_reset_peaks. cbn. now rewrite !map_map. }
    destruct (match f_tp (e_filter e) with Some _ => _ | None => _ end); cbn [obind]; auto.
  - destruct a; unfold add_frames_interleaved, add_frames_planar;
      change (e_channels (forget_prev e)) with (e_channels e);
      match goal with |- context [match ?x with Ok _ => _ | Err _ => _ end] => destruct x; auto using add_frames_forget end.
  - destruct a; unfold seed_frames_interleaved, seed_frames_planar;
      change (e_channels (forget_prev e)) with (e_channels e);
      match goal with |- context [match ?x with Ok _ => _ | Err _ => _ end] => destruct x; auto using seed_frames_forget end.
Qed.

(** * Without an interpolator the f32 reading does not matter *)
Definition drop32 (r : reading) : reading := {| r_level := r_level r; r_64 := r_64 r; r_32 := f32_zero |}.
Definition smp_blind : sample reading := {|
  s_raw := r_level; s_max := f64_one; s_f64 := r_64; s_f32 := fun _ _ => f32_zero |}.
Definition blind (e : ebur128) : Prop :=
  (if contains (e_mode e) MODE_TRUE_PEAK then tp_params (e_rate e) else None) = None /\ f_tp (e_filter e) = None.
Lemma fed_blind P E e g n cols : blind e ->
  fed P E smp_reading e g n cols = fed P E smp_blind e g n cols /\ blind (fst (fed P E smp_reading e g n cols)).
Proof.
  intros (H1 & H2). split.
  - unfold fed, filter_after, tp_hists, tp_pk32, tp_pushed. rewrite H1, H2. reflexivity.
  - split; auto. cbn [fed fst with_audio_filter_index e_filter filter_after f_tp]. now rewrite H2.
Qed.
Lemma block_done_blind e g : blind e -> blind (block_done e g).
Proof.
  intros (H1 & H2). destruct (block_done_config e g) as (M & R & _). unfold blind. rewrite M, R. split; auto.
  unfold block_done, advance_block, shorted, gated.
  destruct (contains (e_mode e) MODE_I); inv_fields; destruct (contains (e_mode e) MODE_LRA); auto;
    destruct (_ =? _); auto.
Qed.
Lemma feed_blind P E : forall fuel e g n cols, blind e ->
  feed P E smp_reading fuel e g n cols = feed P E smp_blind fuel e g n cols.
Proof.
  induction fuel; intros e g n cols H; cbn [feed]; auto. destruct (n =? 0); auto. destruct (e_needed e <=? n).
  - destruct (fed_blind P E e g (e_needed e) (map (firstn (e_needed e)) cols) H) as (<- & Hb).
    destruct (fed P E smp_reading e g (e_needed e) (map (firstn (e_needed e)) cols)). apply IHfuel.
    apply block_done_blind. exact Hb.
  - now rewrite (proj1 (fed_blind P E e g n cols H)).
Qed.
Lemma added_blind P E e g n cols : blind e -> added P E smp_reading e g n cols = added P E smp_blind e g n cols.
Proof.
  intros H. unfold added. destruct (n =? 0); auto. cbn [cleared]. rewrite feed_blind; auto.
Qed.
Lemma seeded_blind P E e g n cols : blind e -> seeded P E smp_reading e g n cols = seeded P E smp_blind e g n cols.
Proof. intros (H1 & H2). unfold seeded, filter_seeded, tp_hists, tp_pushed. now rewrite H1, H2. Qed.
Lemma drop_level l : map r_level (map drop32 l) = map r_level l.
Proof. now rewrite map_map. Qed.
Lemma smp_blind_ok : sample_ok smp_blind. Proof. split; reflexivity. Qed.
Lemma read_blind P r : proper P r -> read P smp_blind r = drop32 r.
Proof. intros H. pose proof (read_reading P r H) as Hr. unfold read, drop32 in *. destruct r. cbn in *. congruence. Qed.
Lemma reads_blind P cols : Forall (Forall (proper P)) cols -> reads P smp_blind cols = map (map drop32) cols.
Proof.
  intros H. unfold reads. apply map_ext_in. intros c Hc. apply map_ext_in. intros r Hr. apply read_blind.
  rewrite Forall_forall in H. specialize (H c Hc). rewrite Forall_forall in H. auto.
Qed.
Definition same_without32 (i j : option (list (list reading))) : Prop :=
  option_map (map (map drop32)) i = option_map (map (map drop32)) j.
Lemma frame_count_map {A B} (f : A -> B) cols : frame_count (map (map f) cols) = frame_count cols.
Proof. destruct cols; auto. cbn. apply map_length. Qed.
Lemma same_without32_step P E e a a' : is_64bit P -> reachable P E e ->
  (~ has_TRUE_PEAK (e_mode e) \/ (192000 <= e_rate e)%N) ->
  admissible e (OpAdd a) -> admissible e (OpAdd a') ->
  same_without32 (input P (e_channels e) a) (input P (e_channels e) a') ->
  step P E e (OpAdd a) = step P E e (OpAdd a') /\ step P E e (OpSeed a) = step P E e (OpSeed a').
Proof.
  intros HP Hr Hno Ha Ha' Hi. destruct (reachable_inv P E e HP Hr) as (g & L & H & Ht).
  apply admissible_audio in Ha, Ha'.
  destruct (step_add P E L e g a H Ht Ha) as (S1 & I1), (step_add P E L e g a' H Ht Ha') as (S2 & I2).
  assert (blind e) as Hb.
  { pose proof (i_filter _ _ _ _ _ H) as Hf. pose proof (fo_tp _ _ _ _ _ _ _ _ _ Hf) as Htp. unfold tp_ok in Htp.
    assert ((if contains (e_mode e) MODE_TRUE_PEAK then tp_params (e_rate e) else None) = None) as E0.
    { destruct (contains (e_mode e) MODE_TRUE_PEAK) eqn:Ec; auto. destruct Hno as [Hno|Hno].
      - exfalso. apply Hno. now apply contains_TP.
      - unfold tp_params. destruct (N.ltb_spec (e_rate e) 96000); [lia|]. destruct (N.ltb_spec (e_rate e) 192000); [lia|auto]. }
    split; auto. rewrite E0 in Htp. destruct (f_tp (e_filter e)); auto. contradiction. }
  rewrite S1, S2, (step_seed P E L e g a H Ha), (step_seed P E L e g a' H Ha').
  unfold same_without32 in Hi.
  destruct (input P (e_channels e) a) as [c|], (input P (e_channels e) a') as [c'|]; try discriminate; auto.
  cbn [option_map add_result seed_result input_ok] in *.
  assert (map (map drop32) c = map (map drop32) c') as Hd by congruence.
  assert (frame_count c = frame_count c') as Hn by (rewrite <- (frame_count_map drop32 c), Hd; apply frame_count_map).
  destruct I1 as (_ & Q1), I2 as (_ & Q2).
  assert (forall c, Forall (Forall (proper P)) c -> added P E smp_reading e g (frame_count c) c = added P E smp_reading e g (frame_count c) (map (map drop32) c)) as A.
  { intros x Q. rewrite added_blind, added_read by (auto; apply smp_blind_ok). now rewrite reads_blind. }
  assert (forall c, Forall (Forall (proper P)) c -> seeded P E smp_reading e g (frame_count c) c = seeded P E smp_reading e g (frame_count c) (map (map drop32) c)) as B.
  { intros x Q. rewrite seeded_blind, seeded_read by auto. now rewrite reads_blind. }
  rewrite (A c Q1), (A c' Q2), (B c Q1), (B c' Q2), Hd, Hn. auto.
Qed.

(** * Chunks *)
Lemma added_inv P E L e g cols : inv P E e g L -> timing e L -> columns (e_channels e) cols ->
  let r := added P E smp_reading e g (frame_count cols) cols in inv P E (fst r) (snd r) L /\ timing (fst r) L.
Proof.
  intros H Ht (HL & HF). pose proof (i_C _ _ _ _ _ H) as HC.
  assert (cols <> []) as Hne by (intros ->; cbn in HL; lia).
  destruct (add_frames_ok P E smp_reading L e g _ _ _ H Ht (planar_view cols _ Hne HF) HL) as (_ & H1 & H2). auto.
Qed.
Lemma no_audio_columns {T} C : 0 < C -> @columns T C (no_audio C) /\ @frame_count T (no_audio C) = 0.
Proof.
  intros HC. unfold no_audio. assert (frame_count (repeat (@nil T) C) = 0) as E by (destruct C; [lia|reflexivity]).
  split; auto. split; [apply repeat_length|]. rewrite E. clear. induction C; simpl; auto.
Qed.
Lemma join_columns {T} C (a b : list (list T)) : 0 < C -> columns C a -> columns C b ->
  columns C (join a b) /\ frame_count (join a b) = frame_count a + frame_count b.
Proof.
  intros HC (A1 & A2) (B1 & B2).
  assert (forall n m (a b : list (list T)), Forall (fun c => length c = n) a -> Forall (fun c => length c = m) b ->
    Forall (fun c => length c = n + m) (join a b)) as HJ.
  { intros n m. unfold join. induction a0 as [|x xs IH]; destruct b0 as [|y ys]; cbn [map2]; intros F G; auto.
    inversion_clear F. inversion_clear G. constructor; [rewrite app_length; lia|]. now apply IH. }
  pose proof (HJ _ _ a b A2 B2) as HF.
  assert (length (join a b) = C) as HL.
  { unfold join. rewrite map2_length. lia. }
  assert (frame_count (join a b) = frame_count a + frame_count b) as E by (apply columns_frames with C; auto).
  split; auto. split; auto. now rewrite E.
Qed.
Lemma all_input_columns P E L : forall l e g cols, inv P E e g L -> timing e L -> Forall (audio_ok (e_channels e)) l ->
  all_input P (e_channels e) l = Some cols -> columns (e_channels e) cols.
Proof.
  induction l as [|a l IH]; cbn [all_input]; intros e g cols H Ht Ha Hi; pose proof (i_C _ _ _ _ _ H) as HC.
  - injection Hi as <-. apply no_audio_columns. lia.
  - inversion_clear Ha. destruct (step_add P E L e g a H Ht) as (_ & I1); auto.
    destruct (input P (e_channels e) a) as [x|]; try discriminate.
    destruct (all_input P (e_channels e) l) as [y|] eqn:Ey; try discriminate. injection Hi as <-.
    destruct I1 as (I1 & _). apply join_columns; auto; [lia|]. now apply IH with g.
Qed.
Lemma run_adds P E L : p_ftz P = true -> forall l e g cols, inv P E e g L -> timing e L ->
  Forall (audio_ok (e_channels e)) l -> all_input P (e_channels e) l = Some cols ->
  exists e1 g1, run P E e (map OpAdd l) = Ret (repeat (Ok tt) (length l), e1) /\
    eqv (e1, g1) (added P E smp_reading e g (frame_count cols) cols).
Proof.
  intros HP. induction l as [|a l IH]; cbn [all_input map run]; intros e g cols H Ht Ha Hi; pose proof (i_C _ _ _ _ _ H) as HC.
  - injection Hi as <-. rewrite (proj2 (no_audio_columns (e_channels e) (ltac:(lia)))).
    exists e, g. split; reflexivity.
  - inversion_clear Ha as [|? ? Ha1 Ha2]. destruct (step_add P E L e g a H Ht Ha1) as (-> & I1).
    destruct (input P (e_channels e) a) as [x|]; try discriminate.
    destruct (all_input P (e_channels e) l) as [y|] eqn:Ey; try discriminate. injection Hi as <-.
    destruct I1 as (I1 & _). cbn [add_result obind].
    destruct (added_inv P E L e g x H Ht I1) as (H1 & T1).
    pose proof (added_config P E smp_reading e g (frame_count x) x) as (_ & _ & EC & _).
    pose proof (all_input_columns P E L l e g y H Ht Ha2 Ey) as I2.
    destruct (IH _ _ y H1 T1) as (e1 & g1 & Hrun & Heq); try (rewrite EC; auto).
    rewrite Hrun. cbn [obind]. exists e1, g1. split; [reflexivity|].
    destruct (join_columns (e_channels e) x y ltac:(lia) I1 I2) as (_ & ->).
    pose proof (added_app P E smp_reading L (frame_count x) (frame_count y) e g x y HP smp_reading_ok H Ht
      (proj1 I1) (proj1 I2) (proj2 I1) (proj2 I2)) as Happ. cbv zeta in Happ.
    unfold eqv in *. rewrite Heq. symmetry. exact Happ.
Qed.

Lemma run_forget P E : forall os e, map_state forget_prev (run P E e os) = map_state forget_prev (run P E (forget_prev e) os).
Proof.
  assert (forall os e e', forget_prev e = forget_prev e' ->
    map_state forget_prev (run P E e os) = map_state forget_prev (run P E e' os)) as HX.
  { induction os as [|o os IH]; intros e e' He; cbn [run].
    - cbn. now rewrite He.
    - pose proof (step_forget P E e o) as H1. pose proof (step_forget P E e' o) as H2. rewrite He in H1. rewrite <- H1 in H2. clear H1.
      destruct (step P E e o) as [[r1 e1]| | |], (step P E e' o) as [[r2 e2]| | |]; cbn [obind map_state] in *; try discriminate; auto.
      apply Ret_pair_inj in H2. destruct H2 as (-> & H2). specialize (IH e1 e2 (eq_sym H2)).
      destruct (run P E e1 os) as [[q1 x1]| | |], (run P E e2 os) as [[q2 x2]| | |]; cbn [obind map_state] in *; try discriminate; auto.
      apply Ret_pair_inj in IH. destruct IH as (-> & ->). reflexivity. }
  intros os e. apply HX. now rewrite forget_idem.
Qed.
(** Two analyzers that differ only in the peaks of the last call behave alike. *)
Definition alike (o o' : outcome (list (result unit) * ebur128)) : Prop :=
  match o, o' with
  | Ret (rs, e), Ret (rs', e') => rs = rs' /\ same_except_prev e e'
  | Panic, Panic | UB, UB | OutOfFuel, OutOfFuel => True
  | _, _ => False
  end.
Lemma same_run P E e e' os : same_except_prev e e' -> alike (run P E e os) (run P E e' os).
Proof.
  intros He. pose proof (run_forget P E os e) as H1. pose proof (run_forget P E os e') as H2. unfold same_except_prev in He.
  rewrite He in H1. rewrite <- H1 in H2. clear H1.
  destruct (run P E e os) as [[r1 e1]| | |], (run P E e' os) as [[r2 e2]| | |]; cbn [obind map_state alike] in *; try discriminate; auto.
  apply Ret_pair_inj in H2. destruct H2 as (-> & H2). split; auto. now symmetry.
Qed.
Lemma ask_forget P E e q : is_prev q = false -> ask P E e q = ask P E (forget_prev e) q.
Proof. destruct q; try discriminate; reflexivity. Qed.
Lemma same_answers P E e e' q : same_except_prev e e' -> is_prev q = false -> ask P E e q = ask P E e' q.
Proof. intros H Hq. rewrite (ask_forget P E e q Hq), (ask_forget P E e' q Hq), H. reflexivity. Qed.

Lemma chunks_same P E e l l' cols : is_64bit P -> p_ftz P = true -> reachable P E e ->
  Forall (fun a => admissible e (OpAdd a)) l -> Forall (fun a => admissible e (OpAdd a)) l' ->
  all_input P (e_channels e) l = Some cols -> all_input P (e_channels e) l' = Some cols ->
  exists e1 e2, run P E e (map OpAdd l) = Ret (repeat (Ok tt) (length l), e1) /\
                run P E e (map OpAdd l') = Ret (repeat (Ok tt) (length l'), e2) /\
                same_except_prev e1 e2.
Proof.
  intros HP Hf Hr Ha Ha' Hi Hi'. destruct (reachable_inv P E e HP Hr) as (g & L & H & Ht).
  assert (forall l, Forall (fun a => admissible e (OpAdd a)) l -> Forall (audio_ok (e_channels e)) l) as Hau.
  { intros x Hx. eapply Forall_impl; [|apply Hx]. intros. now apply admissible_audio. }
  destruct (run_adds P E L Hf l e g cols H Ht (Hau _ Ha) Hi) as (e1 & g1 & R1 & Q1).
  destruct (run_adds P E L Hf l' e g cols H Ht (Hau _ Ha') Hi') as (e2 & g2 & R2 & Q2).
  exists e1, e2. repeat split; auto. unfold same_except_prev. rewrite !forget_prev_forget.
  apply (eqv_forget (e1, g1) (e2, g2)). unfold eqv in *. congruence.
Qed.
Lemma chunked_same_measurement P E e l l' cols : is_64bit P -> p_ftz P = true -> reachable P E e ->
  Forall (fun a => admissible e (OpAdd a)) l -> Forall (fun a => admissible e (OpAdd a)) l' ->
  all_input P (e_channels e) l = Some cols -> all_input P (e_channels e) l' = Some cols ->
  forall os, match run P E e (map OpAdd l ++ os), run P E e (map OpAdd l' ++ os) with
             | Ret (rs, e1), Ret (rs', e2) =>
                 skipn (length l) rs = skipn (length l') rs' /\
                 (forall q, is_prev q = false -> ask P E e1 q = ask P E e2 q) /\ same_except_prev e1 e2
             | Panic, Panic | UB, UB | OutOfFuel, OutOfFuel => True
             | _, _ => False
             end.
Proof.
  intros HP Hf Hr Ha Ha' Hi Hi' os.
  destruct (chunks_same P E e l l' cols HP Hf Hr Ha Ha' Hi Hi') as (e1 & e2 & R1 & R2 & Q).
  assert (forall os1 os2 e, run P E e (os1 ++ os2) = ('(r, e) <- run P E e os1 ;; '(r', e) <- run P E e os2 ;; Ret (r ++ r', e))) as Happ.
  { induction os1 as [|o os1 IH]; intros os2 x; cbn [app run].
    - cbn [obind]. destruct (run P E x os2) as [[]| | |]; reflexivity.
    - destruct (step P E x o) as [[]| | |]; cbn [obind]; auto. rewrite IH. 
      destruct (run P E e0 os1) as [[]| | |]; cbn [obind]; auto. destruct (run P E e3 os2) as [[]| | |]; cbn [obind]; auto. }
  rewrite !Happ, R1, R2. cbn [obind]. pose proof (same_run P E e1 e2 os Q) as Hs.
  destruct (run P E e1 os) as [[r1 x1]| | |], (run P E e2 os) as [[r2 x2]| | |]; cbn [obind alike] in *; auto.
  destruct Hs as (-> & Hs). split.
  - rewrite !skipn_app, !repeat_length, !Nat.sub_diag. 
    assert (forall n, skipn n (repeat (Ok (A := unit) tt) n) = []) as K by (induction n; auto). now rewrite !K.
  - split; auto. intros q Hq. now apply same_answers.
Qed.

(** * Layouts and formats *)
Lemma planar_for_admissible e a : planar_for (e_channels e) a -> admissible e (OpAdd a).
Proof. destruct a; simpl; auto; intros (_ & H) _; auto. Qed.
Lemma interleaved_same P E e a : is_64bit P -> reachable P E e -> planar_for (e_channels e) a ->
  step P E e (OpAdd a) = step P E e (OpAdd (to_interleaved a)) /\
  step P E e (OpSeed a) = step P E e (OpSeed (to_interleaved a)).
Proof.
  intros HP Hr Ha. pose proof (reachable_inv P E e HP Hr) as (g & L & H & _). pose proof (i_C _ _ _ _ _ H) as HC.
  apply same_input_step; auto using planar_for_admissible.
  - destruct a; simpl in *; auto.
  - destruct a; simpl in Ha |- *; auto; destruct Ha; apply input_interleave; auto; lia.
Qed.
Lemma planar_same P E e a : is_64bit P -> reachable P E e -> admissible e (OpAdd a) -> whole_frames (e_channels e) a ->
  step P E e (OpAdd a) = step P E e (OpAdd (to_planar (e_channels e) a)) /\
  step P E e (OpSeed a) = step P E e (OpSeed (to_planar (e_channels e) a)).
Proof.
  intros HP Hr Hadm Ha. pose proof (reachable_inv P E e HP Hr) as (g & L & H & _). pose proof (i_C _ _ _ _ _ H) as HC.
  apply same_input_step; auto.
  - destruct a; simpl in *; auto; intros _; apply deinterleave_length.
  - destruct a; simpl in Ha |- *; auto; apply input_deinterleave; auto; lia.
Qed.
Lemma to_f64_admissible e a : admissible e (OpAdd a) -> admissible e (OpAdd (to_f64 a)).
Proof.
  assert (forall A (f : A -> f64) (l : list (list A)), planes_match (e_channels e) l -> planes_match (e_channels e) (map (map f) l)) as K.
  { intros A f l Hl (Hne & n & HF). rewrite map_length. apply Hl. split.
    - intros ->. now apply Hne.
    - exists n. rewrite Forall_map in HF. eapply Forall_impl; [|apply HF]. intros c. cbn. now rewrite map_length. }
  destruct a; simpl; auto.
Qed.
Lemma f64_same P E e a : is_64bit P -> reachable P E e -> admissible e (OpAdd a) -> samples_ok P a ->
  step P E e (OpAdd a) = step P E e (OpAdd (to_f64 a)) /\
  step P E e (OpSeed a) = step P E e (OpSeed (to_f64 a)).
Proof. intros HP Hr Ha Hs. apply same_input_step; auto using to_f64_admissible, input_to_f64. Qed.

Lemma without32_interleaved {A B} P (S : sample A) (S' : sample B) (f : A -> B) C l :
  (forall x, drop32 (read P S x) = drop32 (read P S' (f x))) ->
  same_without32 (interleaved_input P S C l) (interleaved_input P S' C (map f l)).
Proof.
  intros H. unfold same_without32, interleaved_input. rewrite map_length. destruct (_ =? _); auto. cbn [option_map].
  rewrite <- !deinterleave_map, !map_map. do 2 f_equal. apply map_ext. auto.
Qed.
Lemma without32_planar {A B} P (S : sample A) (S' : sample B) (f : A -> B) l :
  (forall x, drop32 (read P S x) = drop32 (read P S' (f x))) ->
  same_without32 (planar_input P S l) (planar_input P S' (map (map f) l)).
Proof.
  intros H. unfold same_without32. destruct l as [|p l]; auto. unfold planar_input.
  assert (forallb (fun q => length q =? length p) (p :: l) =
    forallb (fun q => length q =? length (map f p)) (map (map f) (p :: l))) as Hb.
  { rewrite map_length. generalize (p :: l). intros l'. induction l'; simpl; auto. now rewrite map_length, IHl'. }
  cbn [map] in *. rewrite Hb. match goal with |- option_map _ (if ?b then _ else _) = _ => destruct b; auto end.
  cbn [option_map].
  enough (map (map drop32) (map (map (read P S)) (p :: l)) = map (map drop32) (map (map (read P S')) (map (map f) (p :: l)))) as Hx
    by exact (f_equal Some Hx).
  rewrite !map_map. apply map_ext. intros q. rewrite !map_map. now apply map_ext.
Qed.
Lemma f32_same P E e a : is_64bit P -> reachable P E e -> (~ has_TRUE_PEAK (e_mode e) \/ (192000 <= e_rate e)%N) ->
  admissible e (OpAdd a) -> (exists l, a = AF32 l) \/ (exists l, a = PF32 l) ->
  step P E e (OpAdd a) = step P E e (OpAdd (to_f64 a)) /\
  step P E e (OpSeed a) = step P E e (OpSeed (to_f64 a)).
Proof.
  intros HP Hr Hno Ha Hs. apply same_without32_step; auto using to_f64_admissible.
  destruct Hs as [(l & ->)|(l & ->)]; cbn [to_f64 input];
    [apply without32_interleaved|apply without32_planar]; intros x; reflexivity.
Qed.
