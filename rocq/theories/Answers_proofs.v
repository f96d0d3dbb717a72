(** What the queries about recorded blocks answer. *)
From Coq Require Import List Arith NArith ZArith Bool Lia Reals Lra Sorted Permutation.
From Flocq Require Import Core IEEE754.BinarySingleNaN.
From Verif Require Import Prelude Float Env Tables Utils History Interp Filter Ebur128 Spec Spec_real Spec_history
  Prelude_proofs Utils_proofs Float_proofs Order_proofs History_proofs Ebur128_proofs Ops_proofs Reach_proofs Config_proofs Trace_proofs
  Stream_proofs Loud_proofs Peak_proofs
  Energy_proofs Accuracy_proofs Table_proofs Gate_proofs Gating_proofs Pass_proofs Percent_proofs Range_proofs Blocks_proofs.
Import ListNotations.
Import Spec_history.
Local Open Scope nat_scope.

(** * Preconditions *)
Lemma bits_I m : forallb (N.testbit m) [0; 2]%N = contains m MODE_I.
Proof. apply eq_true_iff_eq. rewrite contains_I. unfold has_I. cbn [forallb]. rewrite !andb_true_iff. tauto. Qed.
Lemma bits_LRA m : forallb (N.testbit m) [0; 1; 3]%N = contains m MODE_LRA.
Proof. apply eq_true_iff_eq. rewrite contains_LRA. unfold has_LRA, has_S. cbn [forallb]. rewrite !andb_true_iff. tauto. Qed.
Lemma bits_SP m : forallb (N.testbit m) [0; 4]%N = contains m MODE_SAMPLE_PEAK.
Proof. apply eq_true_iff_eq. rewrite contains_SP. unfold has_SAMPLE_PEAK. cbn [forallb]. rewrite !andb_true_iff. tauto. Qed.
Lemma bits_TP m : forallb (N.testbit m) [0; 4; 5]%N = contains m MODE_TRUE_PEAK.
Proof. apply eq_true_iff_eq. rewrite contains_TP. unfold has_TRUE_PEAK, has_SAMPLE_PEAK. cbn [forallb]. rewrite !andb_true_iff. tauto. Qed.

Lemma queries_total P E e q : is_64bit P -> bsearch_contract E -> reachable P E e -> askable q ->
  exists a, ask P E e q = Ret a /\ refused a = refusal e q.
Proof.
  intros HP HB Hr Hq. destruct (reachable_taped P E e Hr) as (t & HT). destruct (reachable_logged P E e Hr) as (lg & HL).
  destruct (reachable_histories P E e HP Hr) as (Hb & Hs).
  destruct q as [| |ms| | | | |c|c|c|c]; cbn [askable] in Hq; unfold refusal; rewrite ?bits_I, ?bits_LRA, ?bits_SP, ?bits_TP.
  - rewrite (ask_momentary P E e t HP HT). eexists; split; reflexivity.
  - rewrite (ask_shortterm P E e t HP HT). eexists; split; [reflexivity|]. unfold recent_loudness. now destruct (_ <? _).
  - rewrite (ask_window P E e t ms HP HT Hq). eexists; split; [reflexivity|]. unfold recent_loudness. now destruct (_ <? _).
  - cbn [ask]. unfold loudness_global. destruct (contains (e_mode e) MODE_I) eqn:EM; cbn [negb]; [|eexists; split; reflexivity].
    unfold gated_loudness, gated_loudness_multiple.
    destruct (gating_total P E [e_block e]) as (v & ->). { constructor; auto. now apply well_formed_sized. }
    eexists; split; reflexivity.
  - cbn [ask]. unfold loudness_range. destruct (contains (e_mode e) MODE_LRA) eqn:EM; cbn [negb]; [|eexists; split; reflexivity].
    destruct (range_total P E (e_short e) HP HB (well_formed_sized _ Hs)) as (v & ->). eexists; split; reflexivity.
  - cbn [ask]. unfold relative_threshold. destruct (contains (e_mode e) MODE_I); cbn [negb]; eexists; split; reflexivity.
  - cbn [ask]. unfold gating_block_count_and_energy, history_gating_block_count_and_energy.
    destruct (gating_total P E [e_block e]) as (v & ->). { constructor; auto. now apply well_formed_sized. }
    eexists; split; reflexivity.
  - destruct (contains (e_mode e) MODE_SAMPLE_PEAK) eqn:EM.
    + destruct (N.ltb_spec c (N.of_nat (e_channels e))) as [Hc|Hc].
      * apply contains_SP in EM. destruct (sample_peak_log P E e lg c HP HL EM Hc) as (v & -> & _). eexists; split; reflexivity.
      * cbn [ask]. unfold sample_peak, peak_query. rewrite EM. cbn [negb]. destruct (N.leb_spec (N.of_nat (e_channels e)) c); [|lia].
        eexists; split; reflexivity.
    + cbn [ask]. unfold sample_peak, peak_query. rewrite EM. eexists; split; reflexivity.
  - destruct (contains (e_mode e) MODE_SAMPLE_PEAK) eqn:EM.
    + destruct (N.ltb_spec c (N.of_nat (e_channels e))) as [Hc|Hc].
      * apply contains_SP in EM. destruct (prev_sample_peak_log P E e lg c HP HL EM Hc) as (v & -> & _). eexists; split; reflexivity.
      * cbn [ask]. unfold prev_sample_peak, peak_query. rewrite EM. cbn [negb]. destruct (N.leb_spec (N.of_nat (e_channels e)) c); [|lia].
        eexists; split; reflexivity.
    + cbn [ask]. unfold prev_sample_peak, peak_query. rewrite EM. eexists; split; reflexivity.
  - destruct (contains (e_mode e) MODE_TRUE_PEAK) eqn:EM.
    + destruct (N.ltb_spec c (N.of_nat (e_channels e))) as [Hc|Hc].
      * apply contains_TP in EM. destruct (true_peak_log P E e lg c HP HL EM Hc) as (v & -> & _). eexists; split; reflexivity.
      * cbn [ask]. unfold true_peak, peak_query. rewrite EM. cbn [negb]. destruct (N.leb_spec (N.of_nat (e_channels e)) c); [|lia].
        eexists; split; reflexivity.
    + cbn [ask]. unfold true_peak, peak_query. rewrite EM. eexists; split; reflexivity.
  - destruct (contains (e_mode e) MODE_TRUE_PEAK) eqn:EM.
    + destruct (N.ltb_spec c (N.of_nat (e_channels e))) as [Hc|Hc].
      * apply contains_TP in EM. destruct (prev_true_peak_log P E e lg c HP HL EM Hc) as (v & -> & _). eexists; split; reflexivity.
      * cbn [ask]. unfold prev_true_peak, peak_query. rewrite EM. cbn [negb]. destruct (N.leb_spec (N.of_nat (e_channels e)) c); [|lia].
        eexists; split; reflexivity.
    + cbn [ask]. unfold prev_true_peak, peak_query. rewrite EM. eexists; split; reflexivity.
Qed.

Lemma steps_total P E e o : is_64bit P -> reachable P E e -> admissible e o ->
  exists r e', step P E e o = Ret (r, e') /\ reachable P E e'.
Proof.
  intros HP Hr Ha. destruct (step_state P E e o HP (reachable_ok P E e HP Hr) (admissible_op_ok _ _ Ha)) as (r & e' & Hs & _).
  exists r, e'. split; auto. eapply reach_step; eauto.
Qed.
Lemma runs_total P E : is_64bit P -> forall os e, reachable P E e -> all_admissible P E e os ->
  exists rs e', run P E e os = Ret (rs, e') /\ reachable P E e'.
Proof.
  intros HP. induction os as [|o os IH]; intros e Hr Ha; cbn [run all_admissible] in *; [eauto|]. destruct Ha as (Ha & Hn).
  destruct (steps_total P E e o HP Hr Ha) as (r & e1 & Hs & Hr1). rewrite Hs. cbn [obind].
  destruct (IH e1 Hr1 (Hn r e1 Hs)) as (rs & e' & -> & Hr'). cbn [obind]. eauto.
Qed.
Lemma news_total P E channels rate m : is_64bit P -> exists r, ebur128_new P E channels rate m = Ret r.
Proof.
  intros HP. destruct (new_spec P E channels rate m HP) as (H1 & H2 & H3).
  destruct (Classical_Prop.classic (channels_valid channels /\ rate_valid rate)) as [(V1 & V2)|V]; [|eexists; auto].
  destruct (Classical_Prop.classic (has_M m)) as [HM|HM]; [|eexists; auto]. destruct (H3 V1 V2 HM) as (e & He & _). eauto.
Qed.
Lemma multiples_total P E es : is_64bit P -> bsearch_contract E -> Forall (reachable P E) es ->
  (exists r, loudness_global_multiple P E es = Ret r) /\ (exists r, loudness_range_multiple P E es = Ret r).
Proof.
  intros HP HB Hr. split.
  - unfold loudness_global_multiple. destruct (forallb _ _); [|eexists; reflexivity]. unfold gated_loudness_multiple.
    destruct (gating_total P E (map e_block es)) as (v & ->).
    { rewrite Forall_map. eapply Forall_impl; [|exact Hr]. intros e He. apply well_formed_sized, (reachable_histories P E e HP He). }
    eexists; reflexivity.
  - unfold loudness_range_multiple. destruct (forallb _ _); [|eexists; reflexivity]. apply range_multiple_total; auto.
    rewrite Forall_map. eapply Forall_impl; [|exact Hr]. intros e He. apply well_formed_sized, (reachable_histories P E e HP He).
Qed.

(** * Gated loudness *)
Lemma reachable_blocks P E es : is_64bit P -> Forall (reachable P E) es -> Forall well_formed (map e_block es).
Proof. intros HP Hr. rewrite Forall_map. eapply Forall_impl; [|exact Hr]. intros e He. apply (reachable_histories P E e HP He). Qed.
Lemma reachable_shorts P E es : is_64bit P -> Forall (reachable P E) es -> Forall well_formed (map e_short es).
Proof. intros HP Hr. rewrite Forall_map. eapply Forall_impl; [|exact Hr]. intros e He. apply (reachable_histories P E e HP He). Qed.
Lemma all_I es : Forall (fun e => has_I (e_mode e)) es -> forallb (fun e => contains (e_mode e) MODE_I) es = true.
Proof. rewrite forallb_forall, Forall_forall. intros H e He. apply contains_I. auto. Qed.
Lemma all_LRA es : Forall (fun e => has_LRA (e_mode e)) es -> forallb (fun e => contains (e_mode e) MODE_LRA) es = true.
Proof. rewrite forallb_forall, Forall_forall. intros H e He. apply contains_LRA. auto. Qed.

Lemma global_multiple_ok P E es : is_64bit P -> powf_contract E -> Forall (reachable P E) es ->
  Forall (fun e => has_I (e_mode e)) es -> countable (concat (map blocks es)) ->
  loudness_global_multiple P E es = Ret (Ok (programme_loudness E (map blocks es))).
Proof.
  intros HP HE Hr Hm Hc. unfold loudness_global_multiple. rewrite all_I by auto.
  assert (map blocks es = map contents (map e_block es)) as Hb by now rewrite map_map.
  rewrite gated_loudness_ok; auto; [|apply (reachable_blocks P E); auto|now rewrite <- Hb]. cbn [obind]. now rewrite Hb.
Qed.
Lemma global_multiple_one P E e : loudness_global_multiple P E [e] = loudness_global P E e.
Proof. unfold loudness_global_multiple, loudness_global. cbn [forallb map]. rewrite andb_true_r. now destruct (contains _ _). Qed.
Lemma global_multiple_none P E : loudness_global_multiple P E [] = Ret (Ok (f64_neg f64_inf)). Proof. reflexivity. Qed.
Lemma global_multiple_mode P E es : ~ Forall (fun e => has_I (e_mode e)) es -> loudness_global_multiple P E es = Ret (Err InvalidMode).
Proof.
  intros H. unfold loudness_global_multiple. destruct (forallb _ es) eqn:EF; auto. destruct H.
  rewrite forallb_forall in EF. rewrite Forall_forall. intros e He. apply contains_I. auto.
Qed.
Lemma range_multiple_mode P E es : ~ Forall (fun e => has_LRA (e_mode e)) es -> loudness_range_multiple P E es = Ret (Err InvalidMode).
Proof.
  intros H. unfold loudness_range_multiple. destruct (forallb _ es) eqn:EF; auto. destruct H.
  rewrite forallb_forall in EF. rewrite Forall_forall. intros e He. apply contains_LRA. auto.
Qed.
Lemma concat_one {A} (l : list A) : concat [l] = l. Proof. cbn. apply app_nil_r. Qed.

Lemma global_ok P E e : is_64bit P -> powf_contract E -> reachable P E e -> countable (blocks e) ->
  (has_I (e_mode e) -> ask P E e QGlobal = Ret (AValue (Ok (programme_loudness E [blocks e])))) /\
  (has_I (e_mode e) -> ask P E e QThreshold = Ret (AValue (Ok (threshold E (blocks e))))) /\
  ask P E e QCount = Ret (ACount (gated E [blocks e])).
Proof.
  intros HP HE Hr Hc. destruct (reachable_histories P E e HP Hr) as (Hb & _). unfold blocks in *. split; [|split].
  - intros Hm. cbn [ask]. rewrite <- global_multiple_one. rewrite global_multiple_ok; auto.
    cbn [map concat]. rewrite app_nil_r. exact Hc.
  - intros Hm. cbn [ask]. unfold relative_threshold. apply contains_I in Hm. rewrite Hm. cbn [negb]. now rewrite threshold_ok.
  - cbn [ask]. unfold gating_block_count_and_energy, history_gating_block_count_and_energy.
    rewrite gating_multiple_ok; auto; [|cbn [map concat]; now rewrite app_nil_r]. cbn [obind map]. unfold verdict. now destruct (gated E _).
Qed.

Lemma population_filter p l : (population (List.filter p l) <= population l)%N.
Proof. induction l as [|(n, x) l IH]; cbn [List.filter]; [lia|]. destruct (p _); rewrite ?population_cons; lia. Qed.
Lemma gated_count E ls n x : gated E ls = Some (n, x) -> (0 < n <= population (concat ls))%N.
Proof.
  unfold gated. destruct (_ || _) eqn:EB; [discriminate|]. intros H. injection H as <- <-.
  apply orb_false_iff in EB. destruct EB as (_ & EB). apply N.eqb_neq in EB.
  pose proof (population_filter (fun b => f64_ge (snd b) (gate E ls)) (concat ls)). unfold passing, at_least in *. lia.
Qed.

(** * The range of list histories *)
Lemma cmp_ascending l : Forall (fun x => f64_is_nan x = false) l -> StronglySorted (fun a b => cmp_le a b = true) l -> ascending l.
Proof.
  intros Hn Hs. induction Hs as [|a l Hs IH Ha]; [constructor|]. inversion Hn; subst. constructor; [apply IH; auto|].
  rewrite Forall_forall in *. intros x Hx. specialize (Ha x Hx). unfold cmp_le in Ha. apply orb_true_iff in Ha.
  destruct Ha as [Ha|Ha]; auto. match goal with H : forall x, In x l -> f64_is_nan x = false |- _ => now rewrite (H x Hx) in Ha end.
Qed.
Definition list_range (P : platform) (E : ext) (l : list f64) : outcome (result f64) :=
  let '(sorted, contains_nan) := e_sort E l in
  if contains_nan then Ret (Ok f64_nan) else r <- queue_loudness_range P E sorted ;; Ret (Ok r).
Lemma no_nan_existsb l : existsb f64_is_nan l = false <-> Forall (fun x => f64_is_nan x = false) l.
Proof.
  rewrite Forall_forall. split.
  - intros H x Hx. destruct (f64_is_nan x) eqn:Ex; auto. rewrite <- H. symmetry. apply existsb_exists. eauto.
  - intros H. destruct (existsb f64_is_nan l) eqn:Ex; auto. apply existsb_exists in Ex. destruct Ex as (x & Hx & Hn). now rewrite H in Hn.
Qed.
Lemma perm_existsb {A} (p : A -> bool) l m : Permutation l m -> existsb p l = existsb p m.
Proof.
  induction 1; cbn [existsb]; auto; try congruence. destruct (p x), (p y); reflexivity.
Qed.
Lemma sort_unique E l m : sort_contract E -> Forall storable l -> existsb f64_is_nan l = false -> ascending m -> Permutation l m ->
  e_sort E l = (m, false).
Proof.
  intros HS Hst Hn Ha Hp. destruct (HS l) as (H1 & H2 & H3). destruct (e_sort E l) as (s & b) eqn:ES. cbn [fst snd] in *.
  assert (b = false) as ->. { destruct b; auto. destruct H3 as (H3 & _). destruct (H3 eq_refl) as (_ & H4). congruence. }
  f_equal. assert (Forall (fun x => f64_is_nan x = false) s) as Hs.
  { apply no_nan_existsb. rewrite <- Hn. symmetry. apply perm_existsb. auto. }
  apply (sorted_unique (fun a b => f64_le a b = true)).
  - intros x y Hx Hy. rewrite Forall_forall in Hst. apply storable_antisym; apply Hst; apply (Permutation_in _ (Permutation_sym H1)); auto.
  - apply cmp_ascending; auto.
  - exact Ha.
  - transitivity l; auto. now symmetry.
Qed.
Lemma list_range_perm P E l m : sort_contract E -> Forall storable l -> Permutation l m -> list_range P E l = list_range P E m.
Proof.
  intros HS Hst Hp. destruct (existsb f64_is_nan l) eqn:En.
  - destruct (Nat.leb_spec 2 (length l)) as [Hl|Hl].
    + unfold list_range. destruct (HS l) as (_ & _ & H3). destruct (HS m) as (_ & _ & M3).
      destruct (e_sort E l) as (s & b). destruct (e_sort E m) as (s' & b'). cbn [fst snd] in *.
      rewrite (proj2 H3) by auto. rewrite (proj2 M3). { reflexivity. }
      rewrite <- (Permutation_length Hp), <- (perm_existsb _ _ _ Hp). auto.
    + replace m with l; auto. destruct l as [|a [|]]; cbn in Hl; [apply Permutation_nil in Hp; auto|apply Permutation_length_1_inv in Hp; auto|lia].
  - destruct (HS l) as (H1 & H2 & H3). destruct (e_sort E l) as (s & b) eqn:ES. cbn [fst snd] in *.
    assert (ascending s) as Ha. { apply cmp_ascending; auto. apply no_nan_existsb. rewrite <- En. symmetry. apply perm_existsb. auto. }
    unfold list_range. rewrite (sort_unique E l s), (sort_unique E m s); auto.
    + eapply Permutation_Forall; eauto.
    + now rewrite <- (perm_existsb _ _ _ Hp).
    + transitivity l; auto. now symmetry.
Qed.
Lemma list_range_ok P E l m : is_64bit P -> powf_contract E -> sort_contract E -> Forall storable l -> Forall (fun x => f64_is_nan x = false) l ->
  ascending m -> Permutation l m -> (N.of_nat (length l) <= small_count)%N -> list_range P E l = Ret (Ok (range_of E (singly m))).
Proof.
  intros HP HE HS Hst Hn Ha Hp Hlen. unfold list_range. rewrite (sort_unique E l m); auto; [|now apply no_nan_existsb].
  rewrite queue_range_ok; auto.
  - eapply Permutation_Forall; eauto.
  - eapply Permutation_Forall; eauto.
  - rewrite <- (Permutation_length Hp). red in HP. rewrite HP. unfold small_count in Hlen. lia.
  - now rewrite <- (Permutation_length Hp).
Qed.
(** ... and the result is NaN if a block is *)
Lemma list_range_nan P E l : sort_contract E -> log10_nan E -> existsb f64_is_nan l = true -> Forall storable l -> list_range P E l = Ret (Ok f64_nan).
Proof.
  intros HS HL Hn Hst. unfold list_range. destruct (HS l) as (H1 & H2 & H3). destruct (e_sort E l) as (s & b) eqn:ES. cbn [fst snd] in *.
  destruct b; auto.
  assert (exists x, l = [x] /\ x = f64_nan) as (x & -> & ->).
  { destruct l as [|x [|y l]]; [discriminate| |].
    - exists x. split; auto. cbn in Hn. rewrite orb_false_r in Hn. destruct x; try discriminate. reflexivity.
    - destruct H3 as (_ & H3). discriminate H3. split; auto. cbn. lia. }
  apply Permutation_length_1_inv in H1. subst s. unfold queue_loudness_range. cbn [length].
  set (g := f64_mul _ _). assert (take_while_count (fun v => f64_lt v g) [f64_nan] = 0) as ->. { cbn. destruct g; reflexivity. }
  unfold sub_usize. cbn [Nat.leb Nat.sub obind].
  assert (forall M, N.to_nat (f64_to_N M (f64_add (f64_mul (f64_of_nat 0) lit_0_95) lit_0_5)) = 0) as -> by (intros; vm_compute; now destruct M).
  assert (forall M, N.to_nat (f64_to_N M (f64_add (f64_mul (f64_of_nat 0) lit_0_1) lit_0_5)) = 0) as -> by (intros; vm_compute; now destruct M).
  cbn [Nat.add idx nth_error obind]. unfold energy_to_loudness. rewrite HL. unfold f64_nan, f64_mul, f64_sub. cbn.
  destruct (f64_ten); reflexivity.
Qed.

(** * Combining histories *)
Lemma combine_queues_ok qs : forall acc, combine_queues (map HQueue qs) acc = Some (acc ++ concat (map q_queue qs)).
Proof. induction qs as [|q qs IH]; intros acc; cbn [map combine_queues concat]; [now rewrite app_nil_r|]. now rewrite IH, <- app_assoc. Qed.
Lemma combine_queues_mixed hs : forall acc, (exists c, In (HHistogram c) hs) -> combine_queues hs acc = None.
Proof.
  induction hs as [|[q|c] hs IH]; intros acc (d & Hd); cbn [combine_queues]; [destruct Hd|..|reflexivity].
  destruct Hd as [Hd|Hd]; [discriminate|]. eauto.
Qed.
Lemma combine_histograms_mixed hs : forall acc, (exists q, In (HQueue q) hs) -> combine_histograms hs acc = None.
Proof.
  induction hs as [|[q|c] hs IH]; intros acc (d & Hd); cbn [combine_histograms]; [destruct Hd|reflexivity|].
  destruct Hd as [Hd|Hd]; [discriminate|]. eauto.
Qed.
Lemma map2_nth {A B C} (f : A -> B -> C) a b : forall l m i, length l = length m ->
  nth i (map2 f l m) (f a b) = f (nth i l a) (nth i m b).
Proof.
  induction l as [|x l IH]; intros [|y m] i Hl; try discriminate; destruct i; cbn [map2 nth]; auto.
Qed.
Definition binwise (cs : list (list N)) (i : nat) : N := fold_right (fun d n => (nth i d 0 + n)%N) 0%N cs.
Lemma combine_histograms_ok cs : Forall (fun c => length c = 1000) cs -> forall acc, length acc = 1000 ->
  exists c, combine_histograms (map HHistogram cs) acc = Some c /\ length c = 1000 /\ forall i, nth i c 0%N = (nth i acc 0 + binwise cs i)%N.
Proof.
  induction 1 as [|d cs Hd Hcs IH]; intros acc Hacc; cbn [map combine_histograms].
  - exists acc. split; [|split]; auto. intros i. cbn. lia.
  - destruct (IH (map2 (fun i o => (o + i)%N) d acc)) as (c & H1 & H2 & H3). { rewrite map2_length. lia. }
    exists c. split; [|split]; auto. intros i. rewrite H3. cbn [binwise fold_right]. fold (binwise cs i).
    change 0%N with ((fun i o : N => (o + i)%N) 0 0)%N at 1. rewrite map2_nth by lia. lia.
Qed.
Lemma zeros_nth i : nth i (repeat 0%N 1000) 0%N = 0%N.
Proof. destruct (Nat.ltb_spec i 1000). { apply nth_repeat. } apply nth_overflow. now rewrite repeat_length. Qed.
Lemma list_eq_nth (c d : list N) : length c = length d -> (forall i, nth i c 0%N = nth i d 0%N) -> c = d.
Proof. intros Hl H. apply (nth_ext _ _ 0%N 0%N); auto. Qed.

(** one of the two algorithms on the merged history *)
Definition one_range (P : platform) (E : ext) (h : history) : outcome (result f64) :=
  match h with
  | HQueue q => list_range P E (q_queue q)
  | HHistogram c => r <- histogram_loudness_range E c ;; Ret (Ok r)
  end.
Lemma range_single P E h : history_loudness_range_multiple P E [h] = one_range P E h.
Proof.
  destruct h as [q|c]; cbn [history_loudness_range_multiple one_range]; [|reflexivity].
  cbn [combine_queues app]. unfold list_range. now destruct (e_sort E _).
Qed.
Lemma one_range_unwrap P E h : (v <- history_loudness_range P E h ;; Ret (Ok v)) = one_range P E h.
Proof.
  unfold history_loudness_range. rewrite range_single. destruct h as [q|c]; cbn [one_range].
  - unfold list_range. destruct (e_sort E _) as (s & b). destruct b; [reflexivity|]. destruct (queue_loudness_range P E s); reflexivity.
  - destruct (histogram_loudness_range E c); reflexivity.
Qed.
Lemma range_merged P E hs h : sort_contract E -> hs <> [] -> Forall well_formed hs -> merges hs h ->
  history_loudness_range_multiple P E hs = one_range P E h.
Proof.
  intros HS Hne Hw Hm. destruct h as [q|c]; cbn [merges] in Hm.
  - destruct Hm as (qs & -> & Hp). destruct qs as [|q0 qs]; [now destruct Hne|]. cbn [map history_loudness_range_multiple].
    rewrite <- (map_cons HQueue). rewrite combine_queues_ok. cbn [app]. cbn [one_range]. rewrite (list_range_perm P E _ _ HS) with (2 := Hp).
    + unfold list_range. now destruct (e_sort E _).
    + eapply Permutation_Forall; [symmetry; exact Hp|]. rewrite Forall_concat. rewrite Forall_map in Hw. rewrite Forall_map. exact Hw.
  - destruct Hm as (Hl & cs & -> & Hc). destruct cs as [|d cs]; [now destruct Hne|]. rewrite Forall_map in Hw.
    destruct cs as [|d' cs].
    + cbn [map]. rewrite range_single. cbn [one_range]. replace c with d; auto. apply list_eq_nth.
      * inversion Hw; subst. cbn in *. congruence.
      * intros i. rewrite Hc. cbn [fold_right]. lia.
    + cbn [map history_loudness_range_multiple]. rewrite <- !(map_cons HHistogram).
      destruct (combine_histograms_ok (d :: d' :: cs) Hw (repeat 0%N 1000) (repeat_length _ _)) as (c' & -> & H2 & H3).
      cbn [one_range]. replace c' with c; auto. apply list_eq_nth; [congruence|]. intros i. rewrite H3, zeros_nth, Hc. unfold binwise. lia.
Qed.
Lemma range_mixed P E hs : (exists q, In (HQueue q) hs) -> (exists c, In (HHistogram c) hs) -> 
  history_loudness_range_multiple P E hs = Ret (Err InvalidMode).
Proof.
  intros Hq Hc. destruct hs as [|[q|c] hs]; cbn [history_loudness_range_multiple]; [destruct Hq as (? & [])|..].
  - now rewrite combine_queues_mixed.
  - destruct hs as [|h hs]; [destruct Hq as (? & [|[]]); discriminate|]. now rewrite combine_histograms_mixed.
Qed.
(** every list of histories of one kind merges into something *)
Lemma merges_kind b hs : Forall (hist_ok b) hs -> exists h, merges hs h /\ hist_ok b h.
Proof.
  intros H. destruct b.
  - assert (exists cs, hs = map HHistogram cs /\ Forall (fun c => length c = 1000) cs) as (cs & -> & Hcs).
    { induction H as [|[q|c] hs Hh H IH]; [now exists []|discriminate Hh|]. destruct IH as (cs & -> & IH).
      exists (c :: cs). split; auto. constructor; auto. apply Hh. }
    destruct (combine_histograms_ok cs Hcs (repeat 0%N 1000) (repeat_length _ _)) as (c & _ & H2 & H3).
    exists (HHistogram c). cbn [merges hist_ok]. split; [|auto]. split; auto. exists cs. split; auto. intros i. rewrite H3, zeros_nth. reflexivity.
  - assert (exists qs, hs = map HQueue qs) as (qs & ->).
    { induction H as [|[q|c] hs Hh H IH]; [now exists []| |destruct Hh; discriminate]. destruct IH as (qs & ->). now exists (q :: qs). }
    exists (HQueue {| q_queue := concat (map q_queue qs); q_max := 0 |}). cbn [merges hist_ok q_queue]. split; [|auto]. exists qs. split; auto.
Qed.
Lemma merges_perm hs hs' h : Permutation hs hs' -> merges hs h -> merges hs' h.
Proof.
  intros Hp. destruct h as [q|c]; cbn [merges].
  - intros (qs & -> & Hq). apply Permutation_sym, Permutation_map_inv in Hp. destruct Hp as (qs' & -> & Hp). exists qs'. split; auto.
    transitivity (concat (map q_queue qs)); auto. clear Hq. induction Hp; cbn [map concat]; auto.
    + now apply Permutation_app_head.
    + rewrite !app_assoc. apply Permutation_app_tail, Permutation_app_comm.
    + etransitivity; eauto.
  - intros (Hl & cs & -> & Hc). apply Permutation_sym, Permutation_map_inv in Hp. destruct Hp as (cs' & -> & Hp). split; auto. exists cs'. split; auto.
    intros i. rewrite Hc. clear Hc. induction Hp; cbn [fold_right]; lia.
Qed.
