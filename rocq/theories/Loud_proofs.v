(** Loudness of recent audio, recorded blocks, comparisons between analyzers. *)
From Coq Require Import List Arith NArith ZArith Bool Lia Reals Lra.
From Flocq Require Import Core.Core IEEE754.BinarySingleNaN.
From Verif Require Import Prelude Float Env Utils History Interp TruePeak Filter Ebur128 Ref
  Prelude_proofs Utils_proofs Interp_proofs Float_proofs TruePeak_proofs Filter_proofs
  Geometry_proofs History_proofs Ebur128_proofs Ops_proofs Chunk_proofs Spec Reach_proofs Input_proofs Trace_proofs
  Peak_proofs Stream_proofs.
Import ListNotations.
Local Open Scope nat_scope.
Ltac Zify.zify_post_hook ::= Z.div_mod_to_equations.

(** * Intervals *)
Lemma interval_ok P E e t w : is_64bit P -> taped P E e t ->
  energy_in_interval e w =
  Ret (if capacity e <? w then Err InvalidMode else Ok (energy (capacity e) w (e_cmap e) (signals t))).
Proof.
  intros HP HT. destruct (taped_ok P E e t HP HT) as (g & L & (H & _) & (Y & _)).
  rewrite (energy_in_interval_ok P E e g L w H), (capacity_L _ _ _ _ _ H).
  destruct (Nat.ltb_spec L w); [reflexivity|]. do 2 f_equal. now rewrite (energy_synced P E e g L t _ w H Y).
Qed.
Lemma reported_ok E x : loudness_of_energy E (Ok x) = Ok (reported E x).
Proof. unfold loudness_of_energy, reported. now destruct (f64_le x f64_zero). Qed.
Lemma recent_ok P E e t w : is_64bit P -> taped P E e t ->
  (r <- energy_in_interval e w ;; Ret (loudness_of_energy E r)) = Ret (recent_loudness E e t w).
Proof.
  intros HP HT. rewrite (interval_ok P E e t w HP HT). cbn [obind]. f_equal. unfold recent_loudness.
  destruct (capacity e <? w); [reflexivity|apply reported_ok].
Qed.
Lemma hop_eq P E e t : is_64bit P -> taped P E e t -> e_s100 e = hop e.
Proof. intros HP HT. destruct (taped_ok P E e t HP HT) as (g & L & (H & _) & _). symmetry. eapply hop_s; eauto. Qed.

Lemma ask_momentary P E e t : is_64bit P -> taped P E e t ->
  ask P E e QMomentary = Ret (AValue (Ok (reported E (energy (capacity e) (4 * hop e) (e_cmap e) (signals t))))).
Proof.
  intros HP HT. cbn [ask]. unfold loudness_momentary. rewrite (recent_ok P E e t) by auto. cbn [obind].
  unfold recent_loudness. rewrite (hop_eq P E e t) by auto.
  destruct (taped_ok P E e t HP HT) as (g & L & (H & Ht & _) & _).
  rewrite (capacity_L _ _ _ _ _ H). pose proof (t_4 _ _ Ht) as H4. rewrite (hop_eq P E e t) in H4 by auto.
  destruct (Nat.ltb_spec L (hop e * 4)); [lia|]. now rewrite (Nat.mul_comm (hop e)).
Qed.
Lemma ask_shortterm P E e t : is_64bit P -> taped P E e t ->
  ask P E e QShortterm = Ret (AValue (recent_loudness E e t (30 * hop e))).
Proof.
  intros HP HT. cbn [ask]. unfold loudness_shortterm, energy_shortterm. rewrite (recent_ok P E e t) by auto.
  cbn [obind]. rewrite (hop_eq P E e t) by auto. now rewrite (Nat.mul_comm (hop e)).
Qed.
Lemma ask_window P E e t ms : is_64bit P -> taped P E e t -> (ms <= 4294967295)%N ->
  ask P E e (QWindow ms) = Ret (AValue (recent_loudness E e t (N.to_nat (e_rate e * ms / 1000)))).
Proof.
  intros HP HT Hms. cbn [ask]. unfold loudness_window, checked.
  destruct (taped_ok P E e t HP HT) as (g & L & (H & Ht & _) & _).
  pose proof (i_rate _ _ _ _ _ H) as Hr. unfold MAX_RATE in Hr. red in HP. rewrite HP.
  destruct (N.leb_spec (e_rate e * ms) 18446744073709551615); [|nia].
  rewrite (recent_ok P E e t) by auto. reflexivity.
Qed.

Lemma four_hops P E e t : is_64bit P -> taped P E e t -> 1 <= hop e /\ 4 * hop e <= capacity e.
Proof.
  intros HP HT. destruct (taped_ok P E e t HP HT) as (g & L & (H & Ht & _) & _).
  rewrite (capacity_L _ _ _ _ _ H). pose proof (t_4 _ _ Ht) as H4. rewrite (hop_eq P E e t) in H4 by auto.
  pose proof (hop_eq P E e t HP HT). pose proof (t_step _ _ Ht) as (k & Hk & _). pose proof (t_needed _ _ Ht). split; [|lia]. destruct (hop e); lia.
Qed.

(** * Recorded blocks *)
Lemma record_all_fold hg : forall l h, hist_ok hg h -> record_all h l = Ret (fold_left hist_add l h).
Proof.
  induction l as [|x l IH]; intros h H; cbn [record_all fold_left]; auto.
  rewrite (hist_add_eq _ _ _ H). cbn [obind]. apply IH. now apply hist_add_ok.
Qed.
Lemma add_records P E e t a cols r e' : is_64bit P -> taped P E e t -> admissible e (OpAdd a) ->
  step P E e (OpAdd a) = Ret (r, e') -> input P (e_channels e) a = Some cols ->
  let t' := tape_after P E e (OpAdd a) t in
  let n := frames_of (signals t) in let n' := n + frames_of cols in
  frames_of (signals t') = n' /\ map (firstn n) (signals t') = signals t /\
  (has_I (e_mode e) ->
   record_all (e_block e) (map (energy_at (capacity e) (4 * hop e) (e_cmap e) (signals t')) (block_ends (hop e) n n'))
   = Ret (e_block e')) /\
  (~ has_I (e_mode e) -> e_block e' = e_block e) /\
  (has_LRA (e_mode e) ->
   record_all (e_short e) (map (energy_at (capacity e) (30 * hop e) (e_cmap e) (signals t')) (short_ends (hop e) n n'))
   = Ret (e_short e')) /\
  (~ has_LRA (e_mode e) -> e_short e' = e_short e).
Proof.
  intros HP HT Ha Hs Hin. destruct (taped_ok P E e t HP HT) as (g & L & HG & HO).
  destruct (step_moves P E e g L _ r e' HP HG Ha Hs) as (g' & L' & HG' & HM). cbn [moved] in HM.
  destruct HM as (-> & Hi & Heq). rewrite Hin in Hi, Heq. destruct Hi as (Hc & _).
  pose proof (added_taped P E e g L t cols HG HO Hc) as X. cbv zeta in X. rewrite <- Heq in X. cbn [fst snd] in X.
  cbn [tape_after]. rewrite Hin. cbv zeta. destruct X as (_ & X1 & _ & X3 & X4 & X5).
  destruct HG as (H & _ & _). rewrite (capacity_L _ _ _ _ _ H).
  unfold recorded_in in X4, X5. rewrite <- contains_I, <- contains_LRA.
  spl; auto.
  - intros EI. rewrite EI in X4. rewrite X4. apply (record_all_fold _ _ _ (i_block _ _ _ _ _ H)).
  - intros EI. destruct (contains (e_mode e) MODE_I); [congruence|exact X4].
  - intros EI. rewrite EI in X5. rewrite X5. apply (record_all_fold _ _ _ (i_short _ _ _ _ _ H)).
  - intros EI. destruct (contains (e_mode e) MODE_LRA); [congruence|exact X5].
Qed.

(** no other call records anything *)
Lemma others_record P E e t o r e' : is_64bit P -> taped P E e t -> admissible e o -> step P E e o = Ret (r, e') ->
  (forall a, o <> OpAdd a) -> o <> OpReset -> (forall h, o <> OpSetMaxHistory h) ->
  e_block e' = e_block e /\ e_short e' = e_short e.
Proof.
  intros HP HT Ha Hs H1 H2 H3. destruct (taped_ok P E e t HP HT) as (g & L & HG & HO).
  destruct (step_moves P E e g L _ r e' HP HG Ha Hs) as (g' & L' & HG' & HM).
  destruct o as [number v|m|c rt|w|h| |a|a]; cbn [moved] in HM; try congruence.
  - destruct HM as ((m & ->) & _). auto.
  - destruct HM as ((m' & ->) & _). auto.
  - unfold changed in HM. destruct (_ && _).
    + destruct HM as (_ & _ & f & _ & _ & _ & ->). auto.
    + destruct HM as (-> & _). auto.
  - unfold rewindowed in HM. cbv zeta in HM. destruct (_ =? _)%N.
    + destruct HM as (-> & _). auto.
    + destruct HM as (_ & _ & ->). auto.
  - destruct HM as (_ & _ & Heq). destruct (input P (e_channels e) a) as [cols|].
    + apply pair_equal_spec in Heq. destruct Heq as (-> & _). auto.
    + apply pair_equal_spec in Heq. destruct Heq as (-> & _). auto.
Qed.
Lemma reset_records P E e t r e' : is_64bit P -> taped P E e t -> step P E e OpReset = Ret (r, e') ->
  e_block e' = history_reset (e_block e) /\ e_short e' = history_reset (e_short e).
Proof.
  intros HP HT Hs. destruct (taped_ok P E e t HP HT) as (g & L & HG & HO).
  destruct (step_moves P E e g L OpReset r e' HP HG I Hs) as (g' & L' & HG' & ((f & _ & _ & _ & ->) & _)). auto.
Qed.

(** number of blocks *)
Lemma block_ends_spec s n n' k : In k (block_ends s n n') <-> (n < k <= n' /\ 4 * s <= k /\ k mod s = 0).
Proof.
  unfold block_ends. rewrite filter_In, in_seq, andb_true_iff, Nat.leb_le, Nat.eqb_eq. lia.
Qed.
Lemma filter_length_split {A} (f : A -> bool) l m : length (List.filter f (l ++ m)) = length (List.filter f l) + length (List.filter f m).
Proof. now rewrite filter_app, app_length. Qed.
Lemma seq_app_S n : seq 1 (S n) = seq 1 n ++ [S n].
Proof. now rewrite seq_S. Qed.
Lemma block_ends_0 s n : 1 <= s -> block_ends s 0 n = map (fun k => k * s) (seq 4 (n / s - 3)).
Proof.
  intros Hs. unfold block_ends. rewrite Nat.sub_0_r. induction n as [|n IH].
  - rewrite Nat.div_0_l by lia. reflexivity.
  - rewrite seq_app_S, filter_app, IH. clear IH. cbn [List.filter].
    pose proof (Nat.div_mod n s ltac:(lia)) as Hd. pose proof (Nat.mod_upper_bound n s ltac:(lia)) as Hr.
    set (q := n / s) in *. set (r := n mod s) in *. clearbody q r.
    destruct (Nat.eq_dec (S r) s) as [Hw|Hw].
    + assert (S n / s = q + 1) as -> by (symmetry; apply Nat.div_unique with (r := 0); nia).
      assert (S n mod s = 0) as -> by (symmetry; apply Nat.mod_unique with (q := q + 1); nia).
      rewrite Nat.eqb_refl, andb_true_r. destruct (Nat.leb_spec (4 * s) (S n)) as [H4|H4].
      * assert (3 <= q) by nia. replace (q + 1 - 3) with (S (q - 3)) by lia. rewrite seq_S, map_app. cbn [map].
        do 2 f_equal. nia.
      * rewrite app_nil_r. assert (q < 3) by nia. replace (q + 1 - 3) with 0 by lia. replace (q - 3) with 0 by lia. reflexivity.
    + assert (S n / s = q) as -> by (symmetry; apply Nat.div_unique with (r := S r); nia).
      assert (S n mod s = S r) as -> by (symmetry; apply Nat.mod_unique with (q := q); nia).
      rewrite andb_false_r, app_nil_r. reflexivity.
Qed.
Lemma short_ends_spec s n n' k : In k (short_ends s n n') <-> (n < k <= n' /\ 30 * s <= k /\ (k - 30 * s) mod (10 * s) = 0).
Proof.
  unfold short_ends. rewrite filter_In, in_seq, andb_true_iff, Nat.leb_le, Nat.eqb_eq. lia.
Qed.
Lemma ends_app f n m k : n <= m -> m <= k ->
  List.filter f (seq (S n) (k - n)) = List.filter f (seq (S n) (m - n)) ++ List.filter f (seq (S m) (k - m)).
Proof.
  intros H1 H2. replace (k - n) with ((m - n) + (k - m)) by lia. rewrite seq_app, filter_app.
  now replace (S n + (m - n)) with (S m) by lia.
Qed.
Lemma block_ends_app s n m k : n <= m -> m <= k -> block_ends s n k = block_ends s n m ++ block_ends s m k.
Proof. intros. unfold block_ends. now apply ends_app. Qed.
Lemma short_ends_app s n m k : n <= m -> m <= k -> short_ends s n k = short_ends s n m ++ short_ends s m k.
Proof. intros. unfold short_ends. now apply ends_app. Qed.
Lemma record_all_app : forall l m h, record_all h (l ++ m) = (h <- record_all h l ;; record_all h m).
Proof.
  induction l as [|x l IH]; intros m h; cbn [record_all app obind]; auto.
  destruct (history_add h x); cbn [obind]; auto.
Qed.

(** * Sequences of add calls *)
Lemma adds_config P E e t a r e' : is_64bit P -> taped P E e t -> admissible e (OpAdd a) ->
  step P E e (OpAdd a) = Ret (r, e') -> settings e' = settings e.
Proof.
  intros HP HT Ha Hs. destruct (taped_ok P E e t HP HT) as (g & L & HG & HO).
  destruct (step_moves P E e g L _ r e' HP HG Ha Hs) as (g' & L' & HG' & HM). cbn [moved] in HM.
  destruct HM as (-> & Hi & Heq). destruct (input P (e_channels e) a) as [cols|].
  - destruct (added_config P E smp_reading e g (frame_count cols) cols) as (C1 & C2 & C3 & C4 & C5 & C6 & C7).
    rewrite <- Heq in *. cbn [fst] in *. unfold settings. congruence.
  - apply pair_equal_spec in Heq. destruct Heq as (-> & _). reflexivity.
Qed.
Lemma settings_hop e e' : settings e' = settings e -> hop e' = hop e /\ capacity e' = capacity e /\ e_cmap e' = e_cmap e
  /\ e_mode e' = e_mode e /\ e_channels e' = e_channels e /\ e_rate e' = e_rate e /\ e_window e' = e_window e.
Proof. intros H. unfold settings in H. injection H as H1 H2 H3 H4 H5 H6. unfold hop, capacity. rewrite H2, H5. auto 8. Qed.

Lemma energy_at_prefix L w cm ss ss' n k : map (firstn n) ss' = ss -> k <= n ->
  energy_at L w cm ss' k = energy_at L w cm ss k.
Proof. intros <- H. unfold energy_at. now rewrite firstn_map_trans. Qed.
Lemma energies_prefix L w cm ss ss' n l : map (firstn n) ss' = ss -> (forall k, In k l -> k <= n) ->
  map (energy_at L w cm ss') l = map (energy_at L w cm ss) l.
Proof. intros H1 H2. apply map_ext_in. intros k Hk. eapply energy_at_prefix; eauto. Qed.

Lemma session_records P E : is_64bit P -> forall e t os e' t', taped_session P E e t os e' t' ->
  taped P E e t -> Forall is_add os ->
  let n := frames_of (signals t) in let n' := frames_of (signals t') in
  taped P E e' t' /\ n <= n' /\ settings e' = settings e /\ map (firstn n) (signals t') = signals t /\
  (has_I (e_mode e) ->
   record_all (e_block e) (map (energy_at (capacity e) (4 * hop e) (e_cmap e) (signals t')) (block_ends (hop e) n n'))
   = Ret (e_block e')) /\
  (has_LRA (e_mode e) ->
   record_all (e_short e) (map (energy_at (capacity e) (30 * hop e) (e_cmap e) (signals t')) (short_ends (hop e) n n'))
   = Ret (e_short e')).
Proof.
  intros HP e t os e' t' HS. induction HS as [e t|e t o r e1 os e2 t2 Ha Hst HS IH]; intros HT Hadd.
  - cbv zeta. unfold block_ends, short_ends. rewrite Nat.sub_diag. cbn [seq List.filter map record_all]. spl; auto.
    destruct (taped_ok P E e t HP HT) as (g & L & HG & (Y & _)). destruct Y as [_ _ Y3 _ _].
    unfold signals. rewrite map_map. apply map_ext_in. intros tr Htr. rewrite Forall_forall in Y3.
    unfold signals in Y3. rewrite <- (Y3 tr Htr). apply firstn_all.
  - inversion Hadd as [|o' os' Ho Hos]; subst. destruct o as [| | | | | |a|]; try contradiction.
    pose proof (taped_step P E e _ r e1 t HT Ha Hst) as HT1. specialize (IH HT1 Hos). cbv zeta in *.
    destruct IH as (I0 & I1 & I2 & I3 & I4 & I5).
    pose proof (adds_config P E e t a r e1 HP HT Ha Hst) as C. destruct (settings_hop _ _ C) as (C1 & C2 & C3 & C4 & _).
    rewrite C1, C2, C3, C4 in *. set (n2 := frames_of (signals t2)) in *.
    destruct (input P (e_channels e) a) as [cols|] eqn:Hin.
    + pose proof (add_records P E e t a cols r e1 HP HT Ha Hst Hin) as R. cbv zeta in R.
      set (t1 := tape_after P E e (OpAdd a) t) in *. set (n := frames_of (signals t)) in *.
      destruct R as (R1 & R2 & R3 & R4 & R5 & R6). rewrite R1 in *.
      assert (map (firstn n) (signals t2) = signals t) as Hpre.
      { rewrite <- (firstn_map_trans (signals t2) n (n + frames_of cols)) by lia. rewrite I3. exact R2. }
      spl; auto; try lia; try congruence.
      * intros HI. rewrite (block_ends_app (hop e) n (n + frames_of cols) n2) by lia.
        rewrite map_app, record_all_app.
        rewrite (energies_prefix _ _ _ _ (signals t2) (n + frames_of cols) (block_ends (hop e) n (n + frames_of cols)) I3)
          by (intros k Hk; apply block_ends_spec in Hk; lia).
        rewrite (R3 HI). cbn [obind]. now apply I4.
      * intros HI. rewrite (short_ends_app (hop e) n (n + frames_of cols) n2) by lia.
        rewrite map_app, record_all_app.
        rewrite (energies_prefix _ _ _ _ (signals t2) (n + frames_of cols) (short_ends (hop e) n (n + frames_of cols)) I3)
          by (intros k Hk; apply short_ends_spec in Hk; lia).
        rewrite (R5 HI). cbn [obind]. now apply I5.
    + cbn [tape_after] in *. rewrite Hin in *. spl; auto; try congruence.
      all: destruct (taped_ok P E e t HP HT) as (g & L & HG & HO);
        destruct (step_moves P E e g L _ r e1 HP HG Ha Hst) as (g' & L' & HG' & HM); cbn [moved] in HM;
        rewrite Hin in HM; destruct HM as (_ & _ & Heq); apply pair_equal_spec in Heq; destruct Heq as (-> & _); assumption.
Qed.

(** * Where subnormals are flushed by hardware the pieces do not matter *)
Lemma track_join P E e ch tr xs ys : p_ftz P = true ->
  track_after P E e ch (track_after P E e ch tr xs) ys = track_after P E e ch tr (xs ++ ys).
Proof.
  intros HP. destruct (filter_coefficients E (f64_of_N (e_rate e))) as (b, a) eqn:Hc. symmetry in Hc.
  unfold track_after. rewrite unused_eqb. destruct (channel_eqb ch Unused) eqn:Eu; cbn [fst snd].
  - rewrite app_length, hold_add. reflexivity.
  - rewrite !(weigh_reading P E e b a) by auto. cbn [fst snd].
    pose proof (chan_state_app P smp_reading b a ch (fst tr) xs ys HP) as H1.
    pose proof (chan_ys_app P smp_reading b a ch (fst tr) xs ys HP Eu) as H2.
    unfold chan_state in H1, H2. rewrite Eu in H1, H2. rewrite <- H1, H2, app_assoc. reflexivity.
Qed.
Lemma per_channel_join P E e k : p_ftz P = true -> forall cm t cols, length cm = length t -> length cols = length t ->
  per_channel (track_after P E e) cm (per_channel (track_after P E e) cm t (map (firstn k) cols)) (map (skipn k) cols) =
  per_channel (track_after P E e) cm t cols.
Proof.
  intros HP. induction cm as [|ch cm IH]; intros [|tr t] [|c cols] H1 H2; cbn in *; try congruence; auto.
  f_equal; [|apply IH; lia]. rewrite track_join by auto. now rewrite firstn_skipn.
Qed.
Lemma track_nil P E e ch tr : p_ftz P = true -> track_after P E e ch tr [] = tr.
Proof.
  intros HP. unfold track_after, weigh, flush_state. destruct (unused ch); [now destruct tr|].
  destruct (filter_coefficients E (f64_of_N (e_rate e))) as (b, a). cbn. rewrite HP, app_nil_r. now destruct tr.
Qed.
Lemma per_channel_none P E e : p_ftz P = true -> forall cm t cols, length cm = length t -> length cols = length t ->
  Forall (fun c => length c = 0) cols -> per_channel (track_after P E e) cm t cols = t.
Proof.
  intros HP. induction cm as [|ch cm IH]; intros [|tr t] [|c cols] H1 H2 H3; cbn in *; try congruence; auto.
  inversion H3 as [|? ? Hc H3']; subst. destruct c; [|discriminate]. f_equal; [now apply track_nil|]. apply IH; auto; lia.
Qed.
Lemma pieces_one P E e : p_ftz P = true -> 1 <= hop e -> forall fuel n m t cols,
  length (e_cmap e) = length t -> length cols = length t -> Forall (fun c => length c = m) cols -> m <= fuel ->
  tape_pieces P E e (pieces fuel (hop e) n m) t cols = per_channel (track_after P E e) (e_cmap e) t cols.
Proof.
  intros HP Hs. induction fuel as [|fuel IH]; intros n m t cols H1 H2 H3 Hm; cbn [pieces].
  - assert (m = 0) by lia. subst. cbn [tape_pieces]. symmetry. now apply per_channel_none.
  - destruct (Nat.eqb_spec m 0) as [->|Hm0].
    { cbn [tape_pieces]. symmetry. now apply per_channel_none. }
    pose proof (next_block_gt (hop e) n Hs). set (k := next_block (hop e) n - n) in *.
    destruct (Nat.leb_spec k m).
    + cbn [tape_pieces]. rewrite IH.
      * now apply per_channel_join.
      * rewrite per_channel_length; rewrite ?map_length; lia.
      * rewrite per_channel_length; rewrite ?map_length; lia.
      * eapply skipn_lengths; eauto.
      * lia.
    + cbn [tape_pieces]. now rewrite (map_firstn_all m cols).
Qed.
Lemma tape_add_one P E e t a cols : is_64bit P -> p_ftz P = true -> taped P E e t -> admissible e (OpAdd a) ->
  input P (e_channels e) a = Some cols ->
  tape_after P E e (OpAdd a) t = per_channel (track_after P E e) (e_cmap e) t cols.
Proof.
  intros HP HF HT Ha Hin. destruct (taped_ok P E e t HP HT) as (g & L & HG & (Y & _)).
  pose proof (input_cases_ok P E e g L a HG (admissible_op_ok _ _ Ha)) as Hi. rewrite Hin in Hi. destruct Hi as ((Hc1 & Hc2) & _).
  destruct HG as (H & _ & _). cbn [tape_after]. rewrite Hin. unfold tape_add.
  pose proof (inv_s_pos _ _ _ _ _ H) as Hs. rewrite <- (hop_s _ _ _ _ _ H) in Hs.
  apply pieces_one; auto; try lia.
  - rewrite (i_cmap _ _ _ _ _ H). symmetry. apply Y.
  - rewrite Hc1. symmetry. apply Y.
Qed.

(** * Unused channels *)
Fixpoint alike (cm : list Filter.channel) (x y : list (list reading)) : Prop :=
  match cm, x, y with
  | ch :: cm, a :: x, b :: y => length a = length b /\ (ch = Unused \/ a = b) /\ alike cm x y
  | [], [], [] => True
  | _, _, _ => False
  end.
Lemma same_used_alike n : forall cm x y, length x = length cm -> same_used cm x y ->
  Forall (fun c => length c = n) x -> Forall (fun c => length c = n) y -> alike cm x y.
Proof.
  induction cm as [|ch cm IH]; intros [|a x] [|b y] H0 (H1 & H2 & H3) Hx Hy; cbn in *; try congruence; auto.
  inversion Hx; inversion Hy; subst. split; [congruence|]. split.
  - specialize (H3 0 ch eq_refl). destruct ch; auto; right; specialize (H3 ltac:(discriminate)); cbn in H3; congruence.
  - apply IH; auto. split; [congruence|]. split.
    + destruct x as [|x1 x], y as [|y1 y]; cbn in *; try congruence; auto.
      repeat match goal with H : Forall _ (_ :: _) |- _ => inversion H; clear H; subst end. congruence.
    + intros c ch' Hc Hu. exact (H3 (S c) ch' Hc Hu).
Qed.
Lemma alike_cut f cm : (forall a b : list reading, length a = length b -> length (f a) = length (f b)) ->
  forall x y, alike cm x y -> alike cm (map f x) (map f y).
Proof.
  intros Hf. induction cm as [|ch cm IH]; intros [|a x] [|b y] H; cbn in *; auto.
  destruct H as (H1 & H2 & H3). split; [auto|]. split; [|auto]. destruct H2 as [-> | ->]; auto.
Qed.
Lemma alike_track P E e cm : forall t x y, alike cm x y ->
  per_channel (track_after P E e) cm t x = per_channel (track_after P E e) cm t y.
Proof.
  induction cm as [|ch cm IH]; intros [|tr t] [|a x] [|b y] H; cbn in *; auto; try contradiction.
  destruct H as (H1 & H2 & H3). f_equal; [|now apply IH]. destruct H2 as [-> | ->]; auto.
  unfold track_after. cbn [unused]. now rewrite H1.
Qed.
Lemma alike_seed P E e cm : forall t x y, alike cm x y ->
  per_channel (seed_track P E e) cm t x = per_channel (seed_track P E e) cm t y.
Proof.
  induction cm as [|ch cm IH]; intros [|tr t] [|a x] [|b y] H; cbn in *; auto; try contradiction.
  destruct H as (H1 & H2 & H3). f_equal; [|now apply IH]. destruct H2 as [-> | ->]; auto.
Qed.
Lemma alike_pieces P E e : forall ks t x y, alike (e_cmap e) x y ->
  tape_pieces P E e ks t x = tape_pieces P E e ks t y.
Proof.
  induction ks as [|k ks IH]; intros t x y H; cbn [tape_pieces]; auto.
  rewrite (alike_track P E e (e_cmap e) t (map (firstn k) x) (map (firstn k) y)).
  - apply IH. apply alike_cut; auto. intros a b Hl. rewrite !skipn_length. lia.
  - apply alike_cut; auto. intros a b Hl. rewrite !firstn_length. lia.
Qed.
Definition matched (e f : ebur128) : Prop :=
  settings e = settings f /\ e_block e = e_block f /\ e_short e = e_short f.
Lemma matched_fields e f : matched e f -> e_mode e = e_mode f /\ e_rate e = e_rate f /\ e_channels e = e_channels f /\
  e_cmap e = e_cmap f /\ e_window e = e_window f /\ e_history e = e_history f /\ e_block e = e_block f /\ e_short e = e_short f.
Proof. intros (H & H1 & H2). unfold settings in H. injection H as A1 A2 A3 A4 A5 A6. auto 10. Qed.
Lemma matched_intro e f : e_mode e = e_mode f -> e_rate e = e_rate f -> e_channels e = e_channels f ->
  e_cmap e = e_cmap f -> e_window e = e_window f -> e_history e = e_history f -> e_block e = e_block f -> e_short e = e_short f ->
  matched e f.
Proof. intros. unfold matched, settings. split; [congruence|auto]. Qed.

Lemma tape_matched P E e f o o' t : matched e f -> same_call P e o o' ->
  (forall a b x y, o = OpAdd a -> o' = OpAdd b -> input P (e_channels e) a = Some x -> input P (e_channels e) b = Some y ->
     alike (e_cmap e) x y /\ frames_of x = frames_of y) ->
  (forall a b x y, o = OpSeed a -> o' = OpSeed b -> input P (e_channels e) a = Some x -> input P (e_channels e) b = Some y ->
     alike (e_cmap e) x y) ->
  tape_after P E e o t = tape_after P E f o' t.
Proof.
  intros HM HC HA HS. destruct (matched_fields _ _ HM) as (A1 & A2 & A3 & A4 & A5 & A6 & A7 & A8).
  destruct o as [number v|m|c rt|w|h| |a|a], o' as [number' v'|m'|c' rt'|w'|h'| |b|b];
    cbn [same_call] in HC; try discriminate; try (injection HC; intros; subst);
    cbn [tape_after]; rewrite <- ?A1, <- ?A2, <- ?A3, <- ?A5; try reflexivity.
  - unfold same_input in HC. specialize (HA a b).
    destruct (input P (e_channels e) a) as [x|], (input P (e_channels e) b) as [y|]; try contradiction; auto.
    destruct (HA x y eq_refl eq_refl eq_refl eq_refl) as (X1 & X2).
    unfold tape_add, hop. rewrite X2. rewrite <- A2. rewrite (tape_config P E e f) by congruence. now apply alike_pieces.
  - unfold same_input in HC. specialize (HS a b).
    destruct (input P (e_channels e) a) as [x|], (input P (e_channels e) b) as [y|]; try contradiction; auto.
    specialize (HS x y eq_refl eq_refl eq_refl eq_refl). rewrite <- A4.
    transitivity (per_channel (seed_track P E e) (e_cmap e) t y); [now apply alike_seed|].
    unfold seed_track. now rewrite A2.
Qed.

Lemma det_step P E e f t o o' r r' e' f' : is_64bit P -> taped P E e t -> taped P E f t -> matched e f ->
  same_call P e o o' -> admissible e o -> admissible f o' -> step P E e o = Ret (r, e') -> step P E f o' = Ret (r', f') ->
  matched e' f' /\ tape_after P E e o t = tape_after P E f o' t.
Proof.
  intros HP HT HT' HM HC Ha Ha' Hs Hs'.
  destruct (matched_fields _ _ HM) as (A1 & A2 & A3 & A4 & A5 & A6 & A7 & A8).
  destruct (taped_ok P E e t HP HT) as (g & L & HG & HO). destruct (taped_ok P E f t HP HT') as (g1 & L1 & HG1 & HO1).
  destruct (step_moves P E e g L o r e' HP HG Ha Hs) as (g' & L' & HG' & HMv).
  destruct (step_moves P E f g1 L1 o' r' f' HP HG1 Ha' Hs') as (g1' & L1' & HG1' & HMv').
  assert (forall a b, (o = OpAdd a /\ o' = OpAdd b) \/ (o = OpSeed a /\ o' = OpSeed b) -> forall x y,
     input P (e_channels e) a = Some x -> input P (e_channels e) b = Some y ->
     alike (e_cmap e) x y /\ frames_of x = frames_of y) as HAl.
  { intros a b Hab x y Hx Hy.
    assert (same_used (e_cmap e) x y) as Hu.
    { destruct Hab as [(-> & ->)|(-> & ->)]; cbn [same_call] in HC; unfold same_input in HC; now rewrite Hx, Hy in HC. }
    assert (columns (e_channels e) x /\ columns (e_channels e) y) as ((X1 & X2) & (Y1 & Y2)).
    { destruct Hab as [(-> & ->)|(-> & ->)]; cbn [moved] in HMv, HMv';
        destruct HMv as (_ & Hi & _); destruct HMv' as (_ & Hi' & _); rewrite <- A3 in Hi';
        rewrite Hx in Hi; rewrite Hy in Hi'; split; [apply Hi|apply Hi'|apply Hi|apply Hi']. }
    pose proof Hu as (U1 & U2 & U3). split; auto. destruct HG as (H & _).
    apply (same_used_alike (frame_count x)); auto.
    - rewrite (i_cmap _ _ _ _ _ H). exact X1.
    - change (frame_count x) with (frames_of x). rewrite U2. exact Y2. }
  assert (tape_after P E e o t = tape_after P E f o' t) as Htape.
  { apply tape_matched; auto.
    - intros. eapply HAl; eauto.
    - intros. eapply HAl; eauto. }
  split; [|exact Htape].
  destruct o as [number v|m|c rt|w|h| |a|a], o' as [number' v'|m'|c' rt'|w'|h'| |b|b];
    cbn [same_call] in HC; try discriminate; try (injection HC; intros; subst); cbn [moved] in HMv, HMv'.
  - cbn [step] in Hs, Hs'. unfold set_channel in Hs, Hs'. rewrite A3, A4 in Hs.
    destruct (N.of_nat (e_channels f) <=? number')%N.
    { apply Ret_pair_inj in Hs, Hs'. destruct Hs as (_ & <-). destruct Hs' as (_ & <-). exact HM. }
    destruct (dual_mono_bad _ _ _).
    { apply Ret_pair_inj in Hs, Hs'. destruct Hs as (_ & <-). destruct Hs' as (_ & <-). exact HM. }
    destruct (set_idx (e_cmap f) (N.to_nat number') v') as [cm| | |]; try discriminate. cbn [obind] in Hs, Hs'.
    apply Ret_pair_inj in Hs, Hs'. destruct Hs as (_ & <-). destruct Hs' as (_ & <-).
    apply matched_intro; cbn; auto.
  - cbn [step] in Hs, Hs'. unfold set_channel_map in Hs, Hs'. rewrite A3, A4 in Hs.
    destruct (negb (length m' =? e_channels f)).
    { apply Ret_pair_inj in Hs, Hs'. destruct Hs as (_ & <-). destruct Hs' as (_ & <-). exact HM. }
    destruct (map_has_bad_dual_mono _ _ _).
    { apply Ret_pair_inj in Hs, Hs'. destruct Hs as (_ & <-). destruct Hs' as (_ & <-). exact HM. }
    destruct (length (e_cmap f) =? length m'); [|discriminate]. cbn [obind] in Hs, Hs'.
    apply Ret_pair_inj in Hs, Hs'. destruct Hs as (_ & <-). destruct Hs' as (_ & <-).
    apply matched_intro; cbn; auto.
  - unfold changed in HMv, HMv'. rewrite <- A2, <- A3 in HMv'.
    destruct (params_ok c' rt' && _).
    + destruct HMv as (_ & _ & f1 & _ & _ & _ & ->). destruct HMv' as (_ & _ & f2 & _ & _ & _ & ->).
      apply matched_intro; inv_fields; auto. now destruct (_ =? _)%N.
    + destruct HMv as (-> & _). destruct HMv' as (-> & _). exact HM.
  - unfold rewindowed in HMv, HMv'. cbv zeta in HMv, HMv'. rewrite <- A1, <- A5 in HMv'. destruct (_ =? _)%N.
    + destruct HMv as (-> & _). destruct HMv' as (-> & _). exact HM.
    + destruct HMv as (_ & _ & ->). destruct HMv' as (_ & _ & ->). apply matched_intro; inv_fields; auto.
  - destruct HMv as (-> & _). destruct HMv' as (-> & _). unfold set_max_history. rewrite A6, A1.
    destruct (_ =? _)%N; [exact HM|]. cbn [snd]. apply matched_intro; cbn; auto; congruence.
  - destruct HMv as ((f1 & _ & _ & _ & ->) & _). destruct HMv' as ((f2 & _ & _ & _ & ->) & _).
    apply matched_intro; inv_fields; auto; congruence.
  - destruct HMv as (-> & Hi & Heq). destruct HMv' as (-> & Hi' & Heq'). rewrite <- A3 in Hi', Heq'.
    unfold same_input in HC. specialize (HAl a b (or_introl (conj eq_refl eq_refl))).
    destruct (input P (e_channels e) a) as [x|] eqn:Ex, (input P (e_channels e) b) as [y|] eqn:Ey; try contradiction.
    2:{ apply pair_equal_spec in Heq, Heq'. destruct Heq as (-> & _). destruct Heq' as (-> & _). exact HM. }
    destruct (HAl x y eq_refl eq_refl) as (_ & Hfr).
    destruct Hi as (Hc & _). destruct Hi' as (Hc' & _). rewrite A3 in Hc'.
    pose proof (added_taped P E e g L t x HG HO Hc) as X. pose proof (added_taped P E f g1 L1 t y HG1 HO1 Hc') as X'.
    cbv zeta in X, X'. rewrite <- Heq in X. rewrite <- Heq' in X'. cbn [fst snd] in X, X'.
    destruct X as (_ & _ & _ & _ & X4 & X5). destruct X' as (_ & _ & _ & _ & X4' & X5').
    cbn [tape_after] in Htape. rewrite <- A3, Ex, Ey in Htape.
    assert (L1 = L) as ->.
    { destruct HG as (H & _). destruct HG1 as (H1 & _). rewrite <- (capacity_L _ _ _ _ _ H), <- (capacity_L _ _ _ _ _ H1).
      unfold capacity. congruence. }
    assert (hop f = hop e) as Hh by (unfold hop; congruence).
    rewrite <- A1, <- A4, <- A7, <- A8, <- Hfr, Hh, <- Htape in *.
    pose proof (added_config P E smp_reading e g (frame_count x) x) as (C1 & C2 & C3 & C4 & C5 & C6 & C7).
    pose proof (added_config P E smp_reading f g1 (frame_count y) y) as (D1 & D2 & D3 & D4 & D5 & D6 & D7).
    rewrite <- Heq in *. rewrite <- Heq' in *. cbn [fst] in *. apply matched_intro; congruence.
  - destruct HMv as (-> & _ & Heq). destruct HMv' as (-> & _ & Heq'). rewrite <- A3 in Heq'.
    destruct (input P (e_channels e) a) as [x|], (input P (e_channels e) b) as [y|];
      apply pair_equal_spec in Heq, Heq'; destruct Heq as (-> & _); destruct Heq' as (-> & _); apply matched_intro; auto.
Qed.

Lemma ask_matched P E e f t q : is_64bit P -> taped P E e t -> taped P E f t -> matched e f -> about_loudness q = true ->
  ask P E e q = ask P E f q.
Proof.
  intros HP HT HT' HM Hq. destruct (matched_fields _ _ HM) as (A1 & A2 & A3 & A4 & A5 & A6 & A7 & A8).
  assert (forall w, energy_in_interval e w = energy_in_interval f w) as HE.
  { intros w. rewrite (interval_ok P E e t w HP HT), (interval_ok P E f t w HP HT'). unfold capacity. now rewrite A2, A4, A5. }
  assert (e_s100 e = e_s100 f) as Hs.
  { rewrite (hop_eq P E e t), (hop_eq P E f t) by auto. unfold hop. congruence. }
  destruct q; try discriminate; cbn [ask].
  - unfold loudness_momentary. now rewrite HE, Hs.
  - unfold loudness_shortterm, energy_shortterm. now rewrite HE, Hs.
  - unfold loudness_window. rewrite A2. destruct (checked _ _); auto. now rewrite HE.
  - unfold loudness_global. now rewrite A1, A7.
  - unfold loudness_range. now rewrite A1, A8.
  - unfold relative_threshold. now rewrite A1, A7.
  - unfold gating_block_count_and_energy. now rewrite A7.
Qed.

Lemma sessions_matched P E : is_64bit P -> forall e f e' f', same_session P E e f e' f' -> forall t,
  taped P E e t -> taped P E f t -> matched e f ->
  exists t', taped P E e' t' /\ taped P E f' t' /\ matched e' f'.
Proof.
  intros HP e f e' f' HS. induction HS as [e f|e f o o' r r' e1 f1 e2 f2 HC Ha Ha' Hs Hs' HS IH]; intros t HT HT' HM.
  - eauto.
  - destruct (det_step P E e f t o o' r r' e1 f1 HP HT HT' HM HC Ha Ha' Hs Hs') as (M1 & T1).
    apply (IH (tape_after P E e o t)); auto.
    + eapply taped_step; eauto.
    + rewrite T1. eapply taped_step; eauto.
Qed.
Lemma unused_irrelevant P E e e' f' : is_64bit P -> reachable P E e -> same_session P E e e e' f' ->
  recorded e' = recorded f' /\ settings e' = settings f' /\
  forall q, about_loudness q = true -> ask P E e' q = ask P E f' q.
Proof.
  intros HP HR HS. destruct (reachable_taped P E e HR) as (t & HT).
  destruct (sessions_matched P E HP e e e' f' HS t HT HT) as (t' & T1 & T2 & M); [now repeat split|].
  destruct (matched_fields _ _ M) as (A1 & A2 & A3 & A4 & A5 & A6 & A7 & A8).
  unfold recorded. split; [congruence|]. split; [apply M|]. intros q Hq. eapply ask_matched; eauto.
Qed.
