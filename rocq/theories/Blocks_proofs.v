(** Histories of reachable analyzers. *)
From Coq Require Import List Arith NArith ZArith Bool Lia Reals Lra Sorted Permutation.
From Flocq Require Import Core IEEE754.BinarySingleNaN.
From Verif Require Import Prelude Float Env Tables Utils History Interp Filter Ebur128 Spec Spec_real Spec_history
  Prelude_proofs Utils_proofs Float_proofs Order_proofs History_proofs Ebur128_proofs Ops_proofs Reach_proofs Trace_proofs Stream_proofs Loud_proofs
  Energy_proofs Accuracy_proofs Table_proofs Gate_proofs Gating_proofs Pass_proofs Percent_proofs Range_proofs.
Import ListNotations.
Local Open Scope nat_scope.

(** * How the histories move *)
Lemma failed_add P E e t a r e' : is_64bit P -> taped P E e t -> admissible e (OpAdd a) -> step P E e (OpAdd a) = Ret (r, e') ->
  input P (e_channels e) a = None -> e' = e.
Proof.
  intros HP HT Ha Hs Hin. destruct (taped_ok P E e t HP HT) as (g & L & HG & HO).
  destruct (step_moves P E e g L _ r e' HP HG Ha Hs) as (g' & L' & HG' & HM). cbn [moved] in HM.
  destruct HM as (-> & _ & Heq). rewrite Hin in Heq. now injection Heq.
Qed.
Lemma mode_kept P E e t o r e' : is_64bit P -> taped P E e t -> admissible e o -> step P E e o = Ret (r, e') -> e_mode e' = e_mode e.
Proof.
  intros HP HT Ha Hs. destruct (taped_ok P E e t HP HT) as (g & L & HG & HO).
  destruct (step_moves P E e g L _ r e' HP HG Ha Hs) as (g' & L' & HG' & HM).
  destruct o as [number v|m|c rt|w|h| |a|a]; cbn [moved] in HM.
  - destruct HM as ((m & ->) & _). auto.
  - destruct HM as ((m' & ->) & _). auto.
  - unfold changed in HM. destruct (_ && _).
    + destruct HM as (_ & _ & f & _ & _ & _ & ->). auto.
    + destruct HM as (-> & _). auto.
  - unfold rewindowed in HM. cbv zeta in HM. destruct (_ =? _)%N.
    + destruct HM as (-> & _). auto.
    + destruct HM as (_ & _ & ->). auto.
  - destruct HM as (-> & _). unfold set_max_history. now destruct (_ =? _)%N.
  - destruct HM as ((f & _ & _ & _ & ->) & _). auto.
  - destruct HM as (_ & _ & Heq). apply (f_equal fst) in Heq. cbn [fst] in Heq. destruct (input P (e_channels e) a) as [cols|]; rewrite Heq; auto.
    destruct (added_config P E Input_proofs.smp_reading e g (Input_proofs.frame_count cols) cols) as (-> & _). auto.
  - destruct HM as (_ & _ & Heq). apply (f_equal fst) in Heq. cbn [fst] in Heq. destruct (input P (e_channels e) a) as [cols|]; rewrite Heq; auto.
Qed.
Definition moves (h h' : history) : Prop :=
  (exists xs, record_all h xs = Ret h') \/ h' = history_reset h \/ exists n, h' = history_set_max_size h n.
Lemma moves_refl h : moves h h. Proof. left. now exists []. Qed.
Lemma step_histories P E e t o r e' : is_64bit P -> taped P E e t -> admissible e o -> step P E e o = Ret (r, e') ->
  moves (e_block e) (e_block e') /\ moves (e_short e) (e_short e').
Proof.
  intros HP HT Ha Hs.
  destruct o as [number v|m|c rt|w|h| |a|a];
    try (destruct (others_record P E e t _ r e' HP HT Ha Hs) as (-> & ->); try congruence; split; apply moves_refl).
  - destruct (taped_ok P E e t HP HT) as (g & L & HG & HO).
    destruct (step_moves P E e g L _ r e' HP HG Ha Hs) as (g' & L' & HG' & HM). cbn [moved] in HM. destruct HM as (-> & _).
    unfold set_max_history. cbv zeta. destruct (_ =? _)%N; cbn [snd e_block e_short]; [split; apply moves_refl|]. split; right; right; eauto.
  - destruct (reset_records P E e t r e' HP HT Hs) as (-> & ->). split; right; left; auto.
  - destruct (input P (e_channels e) a) as [cols|] eqn:Hin.
    + destruct (add_records P E e t a cols r e' HP HT Ha Hs Hin) as (_ & _ & X1 & X2 & X3 & X4).
      rewrite <- contains_I in *. rewrite <- contains_LRA in *. split.
      * destruct (contains (e_mode e) MODE_I); [left; eauto|]. rewrite X2 by congruence. apply moves_refl.
      * destruct (contains (e_mode e) MODE_LRA); [left; eauto|]. rewrite X4 by congruence. apply moves_refl.
    + rewrite (failed_add P E e t a r e' HP HT Ha Hs Hin). split; apply moves_refl.
Qed.
Lemma moves_storable h h' : moves h h' -> all_storable h -> all_storable h'.
Proof. intros [(xs & H)|[-> |(n & ->)]] Hs; [eapply storable_record; eauto|apply storable_reset|now apply storable_max]. Qed.
Lemma reachable_storable P E e : is_64bit P -> reachable P E e -> all_storable (e_block e) /\ all_storable (e_short e).
Proof.
  intros HP HR. destruct (reachable_taped P E e HR) as (t & HT). clear HR. induction HT as [channels rate m e Hn Hs|e o r e' t HT IH Ha Hst].
  - destruct (new_good P E channels rate m e HP Hn Hs) as (g & L & _ & NB).
    rewrite (nb_block _ _ _ _ _ _ _ _ NB), (nb_short _ _ _ _ _ _ _ _ NB). split; apply storable_new.
  - destruct (step_histories P E e t o r e' HP HT Ha Hst) as (H1 & H2). destruct IH. split; eapply moves_storable; eauto.
Qed.
Lemma reachable_kind P E e : is_64bit P -> reachable P E e ->
  hist_ok (contains (e_mode e) MODE_HISTOGRAM) (e_block e) /\ hist_ok (contains (e_mode e) MODE_HISTOGRAM) (e_short e).
Proof. intros HP HR. destruct (reachable_ok P E e HP HR) as (g & L & H & _). split; apply H. Qed.
Lemma reachable_histories P E e : is_64bit P -> reachable P E e -> well_formed (e_block e) /\ well_formed (e_short e).
Proof.
  intros HP HR. destruct (reachable_storable P E e HP HR) as (H1 & H2). destruct (reachable_kind P E e HP HR) as (H3 & H4).
  split; [destruct (e_block e), (contains (e_mode e) MODE_HISTOGRAM)|destruct (e_short e), (contains (e_mode e) MODE_HISTOGRAM)]; cbn in *; auto; tauto.
Qed.

(** * All blocks ever measured *)
Lemma hits_app i a b : hits i (a ++ b) = (hits i a + hits i b)%N.
Proof. unfold hits. rewrite filter_app, app_length. lia. Qed.
Lemma holds_record h lim b xs h' : (1 <= lim)%N -> holds h lim b -> record_all h xs = Ret h' -> holds h' lim (b ++ xs).
Proof.
  intros Hl. unfold holds. cbv zeta. rewrite filter_app. destruct h as [q|c]; intros (H1 & H2) HR.
  - pose proof (record_queue_latest (N.to_nat lim) ltac:(lia) xs (List.filter measurable b)) as X. rewrite N2Nat.id in X.
    destruct q as [l mx]. cbn [q_max q_queue] in *. subst mx l. rewrite X in HR. apply Ret_inj in HR. subst h'. auto.
  - destruct (record_histogram xs c H1) as (c' & EC & L & HC). rewrite EC in HR. apply Ret_inj in HR. subst h'.
    split; auto. intros i. rewrite HC, H2, hits_app. reflexivity.
Qed.
Lemma holds_new hg lim : holds (history_new hg lim) lim [].
Proof.
  unfold holds, history_new. cbn [List.filter]. destruct hg.
  - split; [apply repeat_length|]. intros i. unfold histogram_new. change (hits i []) with 0%N.
    destruct (Nat.lt_ge_cases i 1000); [apply nth_repeat'|]. apply nth_overflow. now rewrite repeat_length.
  - cbn [q_max q_queue queue_new]. split; auto.
Qed.
Lemma holds_reset h lim b : holds h lim b -> holds (history_reset h) lim [].
Proof.
  unfold holds. cbn [List.filter]. destruct h as [q|c]; intros (H1 & H2); cbn [history_reset queue_reset q_max q_queue].
  - split; auto.
  - unfold histogram_reset. rewrite map_length. split; auto. intros i. change (hits i []) with 0%N.
    rewrite map_const_repeat. destruct (Nat.lt_ge_cases i (length c)); [apply nth_repeat'|]. apply nth_overflow. now rewrite repeat_length.
Qed.
Lemma ended_I P E e t a cols : input P (e_channels e) a = Some cols ->
  ended_blocks P E e (OpAdd a) t [0; 2]%N 4 block_ends =
  if contains (e_mode e) MODE_I then map (energy_at (capacity e) (4 * hop e) (e_cmap e) (signals (tape_after P E e (OpAdd a) t)))
      (block_ends (hop e) (frames_of (signals t)) (frames_of (signals t) + frames_of cols)) else [].
Proof.
  intros Hin. unfold ended_blocks. rewrite Hin. cbv zeta. replace (contains (e_mode e) MODE_I) with (forallb (N.testbit (e_mode e)) [0; 2]%N); auto.
  apply eq_true_iff_eq. rewrite contains_I. unfold has_I. cbn [forallb]. rewrite andb_true_r. now rewrite andb_true_iff.
Qed.
Lemma ended_LRA P E e t a cols : input P (e_channels e) a = Some cols ->
  ended_blocks P E e (OpAdd a) t [0; 1; 3]%N 30 short_ends =
  if contains (e_mode e) MODE_LRA then map (energy_at (capacity e) (30 * hop e) (e_cmap e) (signals (tape_after P E e (OpAdd a) t)))
      (short_ends (hop e) (frames_of (signals t)) (frames_of (signals t) + frames_of cols)) else [].
Proof.
  intros Hin. unfold ended_blocks. rewrite Hin. cbv zeta. replace (contains (e_mode e) MODE_LRA) with (forallb (N.testbit (e_mode e)) [0; 1; 3]%N); auto.
  apply eq_true_iff_eq. rewrite contains_LRA. unfold has_LRA, has_S. cbn [forallb]. rewrite andb_true_r, !andb_true_iff. tauto.
Qed.
Lemma noted_holds P E e t b s : is_64bit P -> noted P E e t b s ->
  taped P E e t /\ holds (e_block e) (p_usize_max P / 100) b /\ holds (e_short e) (p_usize_max P / 3000) s.
Proof.
  intros HP H. assert (1 <= p_usize_max P / 100 /\ 1 <= p_usize_max P / 3000)%N as (L1 & L2) by (rewrite HP; vm_compute; split; discriminate).
  induction H as [channels rate m e Hn Hs|e t b s o r e' HN (HT & IH1 & IH2) Ha Hst Ho1 Ho2|e t b s r e' HN (HT & IH1 & IH2) Hst].
  - split; [econstructor; eauto|]. destruct (new_good P E channels rate m e HP Hn Hs) as (g & L & _ & NB).
    rewrite (nb_block _ _ _ _ _ _ _ _ NB), (nb_short _ _ _ _ _ _ _ _ NB). split; apply holds_new.
  - split; [econstructor; eauto|].
    destruct o as [number v|m|c rt|w|h| |a|a];
      try (destruct (others_record P E e t _ r e' HP HT Ha Hst) as (-> & ->); try congruence; cbn [ended_blocks]; rewrite !app_nil_r; split; assumption).
    destruct (input P (e_channels e) a) as [cols|] eqn:Hin.
      * destruct (add_records P E e t a cols r e' HP HT Ha Hst Hin) as (_ & _ & X1 & X2 & X3 & X4).
        rewrite (ended_I _ _ _ _ _ _ Hin), (ended_LRA _ _ _ _ _ _ Hin).
        rewrite <- contains_I in *. rewrite <- contains_LRA in *. split.
        -- destruct (contains (e_mode e) MODE_I); [eapply holds_record; eauto|]. rewrite app_nil_r, X2 by congruence. assumption.
        -- destruct (contains (e_mode e) MODE_LRA); [eapply holds_record; eauto|]. rewrite app_nil_r, X4 by congruence. assumption.
      * rewrite (failed_add P E e t a r e' HP HT Ha Hst Hin). cbn [ended_blocks]. rewrite Hin, !app_nil_r. split; assumption.
  - split; [econstructor; eauto; exact I|]. destruct (reset_records P E e t r e' HP HT Hst) as (-> & ->). split; eapply holds_reset; eauto.
Qed.

(** * Nothing panics *)
Lemma start_index_total g : exists s, start_index g = Ret s /\ s <= 1000.
Proof.
  unfold start_index. rewrite (idx_bnd 0) by lia. cbn [obind]. destruct (f64_lt g (bnd 0)); [exists 0; split; [auto|lia]|].
  destruct (find_histogram_index_ok g) as (i & -> & Hi & _). cbn [obind]. rewrite idx_cen by lia. cbn [obind].
  destruct (f64_gt g (cen i)); eexists; (split; [reflexivity|lia]).
Qed.
Definition sized (h : history) : Prop := match h with HQueue _ => True | HHistogram c => length c = 1000 end.
Lemma well_formed_sized h : well_formed h -> sized h. Proof. destruct h; cbn; auto. Qed.
Lemma gating_total P E hs : Forall sized hs -> exists v, gating_block_count_and_energy_multiple P E hs = Ret v.
Proof.
  intros H. unfold gating_block_count_and_energy_multiple, iter_gating. destruct (total_relative_threshold P hs) as (n, t).
  destruct (n =? 0)%N; [eexists; reflexivity|]. destruct (f64_is_nan t); [eexists; reflexivity|].
  set (g := f64_mul _ _). destruct (start_index_total g) as (s & -> & Hs). cbn [obind].
  assert (exists items, omap (gated_items g s) hs = Ret items) as (items & ->).
  { induction H as [|h hs Hh _ (items & IH)]; [eexists; reflexivity|]. cbn [omap]. destruct h as [q|c]; cbn [gated_items].
    - cbn [obind]. rewrite IH. eexists. reflexivity.
    - unfold slice_from. cbn in Hh. rewrite Hh, ENERGIES_length. destruct (Nat.leb_spec s 1000); [|lia]. cbn [obind]. rewrite IH. eexists. reflexivity. }
  cbn [obind]. destruct (fold_left _ _ _) as (n', l'). eexists. reflexivity.
Qed.
Lemma take_while_le {A} (p : A -> bool) l : take_while_count p l <= length l.
Proof. induction l; cbn; [lia|]. destruct (p a); cbn; lia. Qed.
Lemma queue_range_total P E l : is_64bit P -> exists v, queue_loudness_range P E l = Ret v.
Proof.
  intros HP. unfold queue_loudness_range. destruct l as [|x0 l0]; [eexists; reflexivity|]. set (l := x0 :: l0). cbv zeta.
  set (g := f64_mul _ _). set (k := take_while_count _ l).
  assert (k <= length l) as Hk by apply take_while_le.
  unfold sub_usize. destruct (Nat.leb_spec k (length l)); [|lia]. cbn [obind]. destruct (length l - k) as [|n] eqn:En; [eexists; reflexivity|].
  replace (f64_of_nat n) with (f64_of_N (N.of_nat n)) by (unfold f64_of_nat, f64_of_N; f_equal; lia).
  fold (position (p_usize_max P) lit_0_95 (N.of_nat n)). fold (position (p_usize_max P) lit_0_1 (N.of_nat n)).
  assert (N.of_nat n < 18446744073709551616 \/ p_usize_max P <= N.of_nat n)%N as Hn by (rewrite HP; lia).
  pose proof (position_bound (p_usize_max P) lit_0_95 (N.of_nat n) ltac:(auto) Hn). pose proof (position_bound (p_usize_max P) lit_0_1 (N.of_nat n) ltac:(auto) Hn).
  destruct (idx_lt l (k + N.to_nat (position (p_usize_max P) lit_0_95 (N.of_nat n)))) as (v1 & -> & _); [lia|]. cbn [obind].
  destruct (idx_lt l (k + N.to_nat (position (p_usize_max P) lit_0_1 (N.of_nat n)))) as (v2 & -> & _); [lia|]. cbn [obind]. eexists. reflexivity.
Qed.
Lemma histogram_range_total E c : bsearch_contract E -> length c = 1000 -> exists v, histogram_loudness_range E c = Ret v.
Proof.
  intros HB Hl. unfold histogram_loudness_range, histogram_sums. rewrite sums_ok by (rewrite ENERGIES_length; lia). cbn [app]. rewrite N.add_0_l.
  destruct (N.eqb_spec (total_count c) 0) as [|H0]; [eexists; reflexivity|]. destruct (f64_is_nan _); [eexists; reflexivity|]. cbv zeta.
  destruct (start_index_total (f64_mul (minus_twenty_decibels E) (f64_div (fold_left (fun t '(n, x) => f64_add t (f64_mul (f64_of_N n) x)) (combine c ENERGIES) f64_zero)
    (f64_of_N (total_count c))))) as (s & -> & Ls). cbn [obind].
  set (before := match s with O => 0%N | S prev => match nth_error (running 0 c) prev with Some v => v | None => 0%N end end).
  assert (before = total_count (firstn s c)) as EB.
  { unfold before. destruct s as [|s']; [reflexivity|]. rewrite running_nth by lia. now rewrite N.add_0_l. }
  pose proof (total_split s c) as TS. rewrite EB. unfold sub_u64. destruct (N.leb_spec (total_count (firstn s c)) (total_count c)); [|lia]. cbn [obind].
  replace (total_count c - total_count (firstn s c))%N with (total_count (skipn s c)) by lia.
  set (n := total_count (skipn s c)) in *. destruct (N.eqb_spec n 0) as [|Hn]; [eexists; reflexivity|].
  fold (position u64_max lit_0_95 (n - 1)). fold (position u64_max lit_0_1 (n - 1)).
  assert (n - 1 < 18446744073709551616 \/ u64_max <= n - 1)%N as Hc by (unfold u64_max; lia).
  pose proof (position_bound u64_max lit_0_1 (n - 1) ltac:(auto) Hc) as PL.
  pose proof (position_bound u64_max lit_0_95 (n - 1) ltac:(auto) Hc) as PH.
  destruct (percentile_bin_ok E c s (position u64_max lit_0_1 (n - 1) + total_count (firstn s c)) HB ltac:(lia) ltac:(lia) ltac:(lia)) as (J1 & -> & L1 & _).
  cbn [obind]. rewrite idx_cen by lia. cbn [obind].
  destruct (percentile_bin_ok E c s (position u64_max lit_0_95 (n - 1) + total_count (firstn s c)) HB ltac:(lia) ltac:(lia) ltac:(lia)) as (J2 & -> & L2 & _).
  cbn [obind]. rewrite idx_cen by lia. cbn [obind]. eexists. reflexivity.
Qed.
Lemma map2_length {A B C} (f : A -> B -> C) : forall l m, length (map2 f l m) = Nat.min (length l) (length m).
Proof. induction l; intros [|b m]; cbn; auto. Qed.
Lemma combine_histograms_length hs : Forall sized hs -> forall acc c, length acc = 1000 -> combine_histograms hs acc = Some c -> length c = 1000.
Proof.
  induction 1 as [|h hs Hh _ IH]; intros acc c Ha H; cbn [combine_histograms] in H; [now injection H as <-|].
  destruct h as [q|d]; [discriminate|]. eapply IH; [|exact H]. cbn in Hh. rewrite map2_length, Hh, Ha. reflexivity.
Qed.
Lemma range_multiple_total P E hs : is_64bit P -> bsearch_contract E -> Forall sized hs -> exists v, history_loudness_range_multiple P E hs = Ret v.
Proof.
  intros HP HB Hs. unfold history_loudness_range_multiple. destruct hs as [|[q|c] rest]; [eexists; reflexivity| |].
  - destruct (combine_queues _ []) as [l|]; [|eexists; reflexivity]. destruct (e_sort E l) as (sorted, nan). destruct nan; [eexists; reflexivity|].
    destruct (queue_range_total P E sorted HP) as (v & ->). eexists. reflexivity.
  - set (comb := match rest with [] => _ | _ => _ end).
    assert (forall d, comb = Some d -> length d = 1000) as HL.
    { intros d Hd. unfold comb in Hd. destruct rest; [inversion Hs; subst; injection Hd as <-; assumption|].
      eapply combine_histograms_length; [exact Hs| |exact Hd]. apply repeat_length. }
    destruct comb as [d|]; [|eexists; reflexivity]. destruct (histogram_range_total E d HB (HL d eq_refl)) as (v & ->). eexists. reflexivity.
Qed.
Lemma range_total P E h : is_64bit P -> bsearch_contract E -> sized h -> exists v, history_loudness_range P E h = Ret v.
Proof.
  intros HP HB Hs. unfold history_loudness_range. destruct h as [q|c].
  - unfold history_loudness_range_multiple. cbn [combine_queues]. destruct (e_sort E _) as (sorted, nan). destruct nan; [eexists; reflexivity|].
    destruct (queue_range_total P E sorted HP) as (v & ->). eexists. reflexivity.
  - unfold history_loudness_range_multiple. cbn in Hs. destruct (histogram_range_total E c HB Hs) as (v & ->). eexists. reflexivity.
Qed.
