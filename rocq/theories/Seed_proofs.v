(** seed_frames against add_frames (C41). *)
From Coq Require Import List Arith NArith ZArith Bool Lia.
From Flocq Require Import IEEE754.BinarySingleNaN.
From Verif Require Import Prelude Float Env Utils Interp History TruePeak Filter Ebur128 Ref Prelude_proofs Utils_proofs
  TruePeak_proofs Filter_proofs Geometry_proofs History_proofs Ebur128_proofs Ops_proofs Chunk_proofs Spec Reach_proofs
  Input_proofs Trace_proofs Stream_proofs.
Import ListNotations.
Local Open Scope nat_scope.

Lemma capp_split {T} k (cols : list (list T)) : cols = capp (map (firstn k) cols) (map (skipn k) cols).
Proof. unfold capp. induction cols as [|c cols IH]; cbn [map map2]; [reflexivity|]. now rewrite firstn_skipn, <- IH. Qed.
Lemma tp_pushed_app tp n m (c1 c2 : list (list f32)) : length c1 = length c2 -> Forall (fun c => length c = n) c1 ->
  tp_pushed tp (n + m) (capp c1 c2) = tp_pushed (tp_pushed tp n c1) m c2.
Proof. intros H1 H2. unfold tp_pushed. destruct tp as [sc|]; [|reflexivity]. cbn [option_map]. f_equal. now apply scanner_push_app. Qed.
Lemma lengths_32 {T} P (S : sample T) n (cols : list (list T)) : Forall (fun c => length c = n) cols ->
  Forall (fun c => length c = n) (map (map (s_f32 S P)) cols).
Proof. rewrite Forall_map. apply Forall_impl. intros c. now rewrite map_length. Qed.
Lemma block_done_filter e g : e_filter (block_done e g) = e_filter e.
Proof.
  unfold block_done, advance_block, shorted, gated. destruct (contains (e_mode e) MODE_I); inv_fields;
    destruct (contains (e_mode e) MODE_LRA); inv_fields; try reflexivity; destruct (_ =? _); reflexivity.
Qed.
Lemma block_done_cmap e g : e_cmap (block_done e g) = e_cmap e.
Proof.
  unfold block_done, advance_block, shorted, gated. destruct (contains (e_mode e) MODE_I); inv_fields;
    destruct (contains (e_mode e) MODE_LRA); inv_fields; try reflexivity; destruct (_ =? _); reflexivity.
Qed.
Lemma tail_done_filter e n : e_filter (tail_done e n) = e_filter e.
Proof. unfold tail_done. now destruct (contains (e_mode e) MODE_LRA). Qed.

Lemma block_done_go e g : 0 < e_s100 e -> 0 < e_needed (block_done e g) /\ 0 < e_s100 (block_done e g).
Proof.
  intros H. unfold block_done, advance_block, shorted, gated. destruct (contains (e_mode e) MODE_I); inv_fields;
    destruct (contains (e_mode e) MODE_LRA); inv_fields; try (destruct (_ =? _); inv_fields); lia.
Qed.
Lemma feed_0 {T} P E (S : sample T) fuel e g cols : feed P E S fuel e g 0 cols = (e, g).
Proof. now destruct fuel. Qed.

Lemma feed_tp {T} P E (S : sample T) : forall fuel e g n cols, n <= fuel -> Forall (fun c => length c = n) cols -> 0 < n ->
  0 < e_needed e -> 0 < e_s100 e ->
  f_tp (e_filter (fst (feed P E S fuel e g n cols))) = tp_pushed (f_tp (e_filter e)) n (map (map (s_f32 S P)) cols).
Proof.
  induction fuel as [|fuel IH]; intros e g n cols Hn HF Hp Hne Hs; [lia|]. cbn [feed].
  destruct (Nat.eqb_spec n 0); [lia|].
  destruct (Nat.leb_spec (e_needed e) n) as [Hle|Hgt].
  - set (k := e_needed e) in *.
    pose proof (fed_fields P E S e g k (map (firstn k) cols)) as F. cbv zeta in F.
    assert (f_tp (e_filter (fst (fed P E S e g k (map (firstn k) cols)))) =
            tp_pushed (f_tp (e_filter e)) k (map (map (s_f32 S P)) (map (firstn k) cols))) as Hfed by reflexivity.
    destruct (fed P E S e g k (map (firstn k) cols)) as (e1, g1). cbn [fst] in *.
    destruct F as (_ & F2 & _).
    destruct (block_done_go e1 g1) as (B1 & B2); [lia|].
    destruct (Nat.eq_dec n k) as [->|Hnk].
    + rewrite Nat.sub_diag, feed_0. cbn [fst]. rewrite block_done_filter, Hfed, map_firstn_all by exact HF. reflexivity.
    + assert (Forall (fun c => length c = n - k) (map (skipn k) cols)) as HF'.
      { rewrite Forall_map. eapply Forall_impl; [|exact HF]. cbn. intros c Hc. rewrite skipn_length. lia. }
      rewrite IH by (auto; lia). rewrite block_done_filter, Hfed, <- tp_pushed_app.
      * rewrite <- map_capp, <- capp_split. f_equal. lia.
      * now rewrite !map_length.
      * apply lengths_32. rewrite Forall_map. eapply Forall_impl; [|exact HF]. cbn. intros c Hc. rewrite firstn_length. lia.
  - destruct (fed P E S e g n cols) as (e1, g1) eqn:Ef. cbn [fst]. rewrite tail_done_filter.
    replace e1 with (fst (fed P E S e g n cols)) by now rewrite Ef. reflexivity.
Qed.
Lemma feed_state {T} P E (S : sample T) : p_ftz P = true -> forall fuel e g n cols, n <= fuel ->
  Forall (fun c => length c = n) cols -> 0 < n -> 0 < e_needed e -> 0 < e_s100 e ->
  length (f_state (e_filter e)) = length (e_cmap e) -> length cols = length (e_cmap e) ->
  f_state (e_filter (fst (feed P E S fuel e g n cols))) =
    map3 (chan_state P S (f_b (e_filter e)) (f_a (e_filter e))) (e_cmap e) (f_state (e_filter e)) cols.
Proof.
  intros HP. induction fuel as [|fuel IH]; intros e g n cols Hn HF Hp Hne Hs HL HC; [lia|]. cbn [feed].
  destruct (Nat.eqb_spec n 0); [lia|].
  destruct (Nat.leb_spec (e_needed e) n) as [Hle|Hgt].
  - set (k := e_needed e) in *.
    pose proof (fed_fields P E S e g k (map (firstn k) cols)) as F. cbv zeta in F.
    assert (let e1 := fst (fed P E S e g k (map (firstn k) cols)) in
      f_b (e_filter e1) = f_b (e_filter e) /\ f_a (e_filter e1) = f_a (e_filter e) /\
      f_state (e_filter e1) = map3 (chan_state P S (f_b (e_filter e)) (f_a (e_filter e))) (e_cmap e)
        (f_state (e_filter e)) (map (firstn k) cols)) as Hfed by (repeat split).
    destruct (fed P E S e g k (map (firstn k) cols)) as (e1, g1). cbn [fst] in *. cbv zeta in Hfed.
    destruct F as (_ & F2 & _ & _ & _ & F6 & _). destruct Hfed as (G1 & G2 & G3).
    destruct (block_done_go e1 g1) as (B1 & B2); [lia|].
    destruct (Nat.eq_dec n k) as [->|Hnk].
    + rewrite Nat.sub_diag, feed_0. cbn [fst]. rewrite block_done_filter, G3, map_firstn_all by exact HF. reflexivity.
    + assert (Forall (fun c => length c = n - k) (map (skipn k) cols)) as HF'.
      { rewrite Forall_map. eapply Forall_impl; [|exact HF]. cbn. intros c Hc. rewrite skipn_length. lia. }
      rewrite IH; auto; try lia.
      * rewrite block_done_filter, block_done_cmap, G1, G2, G3, F6.
        rewrite (capp_split k cols) at 3. symmetry. apply map3_capp with (n := k); rewrite ?map_length; auto.
        -- intros. now apply chan_state_app.
        -- rewrite Forall_map. eapply Forall_impl; [|exact HF]. cbn. intros c Hc. rewrite firstn_length. lia.
      * rewrite block_done_filter, block_done_cmap, G3, F6. rewrite map3_length; rewrite ?map_length; auto.
      * rewrite block_done_cmap, F6, map_length. exact HC.
  - destruct (fed P E S e g n cols) as (e1, g1) eqn:Ef. cbn [fst]. rewrite tail_done_filter.
    replace e1 with (fst (fed P E S e g n cols)) by now rewrite Ef. reflexivity.
Qed.

Lemma tp_pushed_0 E rate C calc tp hs (c32 : list (list f32)) : tp_ok E rate C calc tp hs -> length c32 = C ->
  Forall (fun c => length c = 0) c32 -> tp_pushed tp 0 c32 = tp.
Proof.
  intros H HC HF. destruct tp as [sc|]; [|reflexivity]. cbn. f_equal.
  unfold tp_ok in H. destruct (if calc then tp_params rate else None) as [[taps factor]|]; [|contradiction].
  destruct H as (H & _). destruct sc as [ch i|is]; cbn [scanner_push].
  - reflexivity.
  - f_equal. destruct H as (Hl & _). assert (length is = length c32) as Hl' by congruence. clear - Hl' HF.
    revert c32 Hl' HF. induction is as [|i is IH]; intros [|c c32] Hl HF; try discriminate; [reflexivity|].
    inversion_clear HF. destruct c; [|discriminate]. cbn. f_equal. apply IH; auto.
Qed.
Lemma map3_id {A B C} (f : A -> B -> C -> B) l m n : (forall a b c, In c n -> f a b c = b) -> length m = length l ->
  length n = length l -> map3 f l m n = m.
Proof.
  revert m n. induction l as [|a l IH]; intros [|b m] [|c n] H H1 H2; try discriminate; [reflexivity|]. cbn [map3]. f_equal.
  - apply H. now left.
  - apply IH; auto. intros. apply H. now right.
Qed.

Lemma seed_memories P E e a r e' : is_64bit P -> reachable P E e -> admissible e (OpSeed a) ->
  step P E e (OpSeed a) = Ret (r, e') -> same_but_memories e e'.
Proof.
  intros HP HR Ha Hs. destruct (reachable_taped P E e HR) as (t & HT).
  destruct (taped_ok P E e t HP HT) as (g & L & HG & HO).
  destruct (step_moves P E e g L _ r e' HP HG Ha Hs) as (g' & L' & HG' & (_ & _ & Heq)).
  destruct (input P (e_channels e) a) as [x|].
  - unfold seeded in Heq. apply pair_equal_spec in Heq. destruct Heq as (-> & _). unfold filter_seeded. eexists. eexists. reflexivity.
  - apply pair_equal_spec in Heq. destruct Heq as (-> & _). exists (f_state (e_filter e)), (f_tp (e_filter e)).
    destruct e as [? ? ? ? ? ? ? ? f ? ? ? ? ? ? ?]. now destruct f.
Qed.
Lemma memories_ask P E e e' q : same_but_memories e e' -> ask P E e' q = ask P E e q.
Proof. intros (st & tp & ->). destruct q; reflexivity. Qed.
Lemma memories_rest e e' : same_but_memories e e' -> settings e' = settings e /\ recorded e' = recorded e /\
  buffered e' = buffered e /\ overall_peaks e' = overall_peaks e.
Proof. intros (st & tp & ->). repeat split. Qed.

Lemma seed_interpolator P E e a r r' es ea : is_64bit P -> reachable P E e -> admissible e (OpAdd a) ->
  step P E e (OpSeed a) = Ret (r, es) -> step P E e (OpAdd a) = Ret (r', ea) ->
  r = r' /\ snd (memories es) = snd (memories ea) /\ (p_ftz P = true -> fst (memories es) = fst (memories ea)).
Proof.
  intros HP HR Ha Hs Hs'. destruct (reachable_taped P E e HR) as (t & HT).
  destruct (taped_ok P E e t HP HT) as (g & L & HG & HO). pose proof HG as (H & Ht & _).
  pose proof (admissible_op_ok _ _ Ha) as Hok. cbn [op_ok] in Hok.
  destruct (step_add P E L e g a H Ht Hok) as (X & Hi). rewrite X in Hs'.
  rewrite (step_seed P E L e g a H Hok) in Hs.
  unfold add_result in Hs'. unfold seed_result in Hs.
  destruct (input P (e_channels e) a) as [cols|].
  2:{ apply Ret_pair_inj in Hs, Hs'. destruct Hs as (<- & <-). destruct Hs' as (<- & <-). auto. }
  apply Ret_pair_inj in Hs, Hs'. destruct Hs as (<- & <-). destruct Hs' as (<- & <-). split; [reflexivity|].
  destruct Hi as ((Hc1 & Hc2) & _). pose proof (i_filter _ _ _ _ _ H) as HF.
  assert (length (f_state (e_filter e)) = length (e_cmap e)) as HL.
  { rewrite (i_cmap _ _ _ _ _ H). apply (fo_state _ _ _ _ _ _ _ _ _ HF). }
  assert (length cols = length (e_cmap e)) as HC by (rewrite (i_cmap _ _ _ _ _ H); exact Hc1).
  unfold memories, added, seeded. cbn [fst snd]. inv_fields. cbn [filter_seeded f_tp f_state].
  destruct (Nat.eqb_spec (frame_count cols) 0) as [Z|Z].
  - cbn [fst]. rewrite Z in *. split.
    + eapply tp_pushed_0; [apply (fo_tp _ _ _ _ _ _ _ _ _ HF)|rewrite map_length; exact Hc1|]. now apply lengths_32.
    + intros HFt. apply map3_id; auto. intros ch st c Hin. rewrite Forall_forall in Hc2.
      specialize (Hc2 c Hin). destruct c; [|discriminate]. unfold chan_state, flush_state. rewrite HFt. cbn [map filter_run fst].
      now destruct (channel_eqb ch Unused).
  - pose proof (t_needed _ _ Ht) as Hn. pose proof (inv_s_pos _ _ _ _ _ H) as Hsp.
    destruct (cleared e g) as (e1, g1) eqn:Ec. unfold cleared in Ec. apply pair_equal_spec in Ec. destruct Ec as (<- & <-).
    match goal with |- context [feed P E smp_reading ?n ?e1 ?g1 ?n cols] =>
      pose proof (feed_tp P E smp_reading n e1 g1 n cols (le_n _) Hc2) as Y1;
      pose proof (fun HFt => feed_state P E smp_reading HFt n e1 g1 n cols (le_n _) Hc2) as Y2;
      destruct (feed P E smp_reading n e1 g1 n cols) as (e2, g2) end.
    cbn [fst snd] in *. unfold retained. inv_fields. split.
    + rewrite Y1; try (inv_fields; lia). reflexivity.
    + intros HFt. rewrite (Y2 HFt); try (inv_fields; lia); auto.
Qed.
