(** Loudness, thresholds and ranges reported by reachable analyzers. *)
From Coq Require Import List Arith NArith ZArith Bool Lia Reals Lra Sorted Permutation.
From Flocq Require Import Core IEEE754.BinarySingleNaN.
From Verif Require Import Prelude Float Env Tables Utils History Interp Filter Ebur128 Spec Spec_real Spec_history
  Prelude_proofs Utils_proofs Float_proofs Order_proofs History_proofs Ebur128_proofs Ops_proofs Reach_proofs Config_proofs Trace_proofs
  Stream_proofs Loud_proofs Energy_proofs Accuracy_proofs Table_proofs Gate_proofs Gating_proofs Pass_proofs Percent_proofs Range_proofs Blocks_proofs
  Answers_proofs Value_proofs.
Import ListNotations.
Import Spec_history.
Local Open Scope nat_scope.

Lemma is_histogram P E e : is_64bit P -> reachable P E e -> has_HISTOGRAM (e_mode e) ->
  exists b s, e_block e = HHistogram b /\ e_short e = HHistogram s /\ length b = 1000 /\ length s = 1000.
Proof.
  intros HP Hr Hm. apply contains_H in Hm. destruct (reachable_kind P E e HP Hr) as (Hb & Hs). rewrite Hm in *.
  destruct (e_block e) as [q|b]; [discriminate Hb|]. destruct (e_short e) as [q|s]; [discriminate Hs|]. destruct Hb, Hs. eauto 8.
Qed.
Lemma is_list P E e : is_64bit P -> reachable P E e -> ~ has_HISTOGRAM (e_mode e) ->
  exists b s, e_block e = HQueue b /\ e_short e = HQueue s /\ Forall storable (q_queue b) /\ Forall storable (q_queue s) /\
    blocks e = singly (q_queue b) /\ short_blocks e = singly (q_queue s).
Proof.
  intros HP Hr Hm. destruct (contains (e_mode e) MODE_HISTOGRAM) eqn:EH; [apply contains_H in EH; tauto|].
  destruct (reachable_kind P E e HP Hr) as (Hb & Hs). rewrite EH in *. destruct (reachable_histories P E e HP Hr) as (Wb & Ws).
  unfold blocks, short_blocks.
  destruct (e_block e) as [b|b]; [|destruct Hb; discriminate]. destruct (e_short e) as [s|s]; [|destruct Hs; discriminate].
  exists b, s. cbn [well_formed contents] in *. auto 8.
Qed.
Lemma ask_range P E e : has_LRA (e_mode e) -> ask P E e QRange = (r <- one_range P E (e_short e) ;; Ret (AValue r)).
Proof. intros Hm. cbn [ask]. unfold loudness_range. apply contains_LRA in Hm. rewrite Hm. cbn [negb]. now rewrite one_range_unwrap. Qed.
Lemma singly_inj l m : Permutation (singly l) (singly m) -> Permutation l m.
Proof.
  intros H. apply (Permutation_map snd) in H. unfold singly in H. rewrite !map_map in H. cbn in H. now rewrite !map_id in H.
Qed.

(** * Loudness range of one analyzer *)
Lemma range_list P E e m : is_64bit P -> powf_contract E -> sort_contract E -> reachable P E e -> has_LRA (e_mode e) -> ~ has_HISTOGRAM (e_mode e) ->
  Permutation (short_blocks e) (singly m) -> ascending m -> Forall (fun x => f64_is_nan x = false) m -> (N.of_nat (length m) <= small_count)%N ->
  ask P E e QRange = Ret (AValue (Ok (range_of E (singly m)))).
Proof.
  intros HP HE HS Hr Hm Hh Hp Ha Hn Hl. destruct (is_list P E e HP Hr Hh) as (b & s & _ & Es & _ & Ss & _ & EB).
  rewrite EB in Hp. apply singly_inj in Hp. rewrite ask_range by auto. rewrite Es. cbn [one_range].
  rewrite (list_range_ok P E (q_queue s) m); auto.
  - eapply Permutation_Forall; [symmetry; exact Hp|exact Hn].
  - now rewrite (Permutation_length Hp).
Qed.
Lemma range_histogram P E e : is_64bit P -> powf_contract E -> bsearch_contract E -> reachable P E e -> has_LRA (e_mode e) -> has_HISTOGRAM (e_mode e) ->
  (population (short_blocks e) <= small_count)%N -> ask P E e QRange = Ret (AValue (Ok (range_of E (short_blocks e)))).
Proof.
  intros HP HE HB Hr Hm Hh Hl. destruct (is_histogram P E e HP Hr Hh) as (b & s & _ & Es & _ & Ls).
  rewrite ask_range by auto. unfold short_blocks in *. rewrite Es in *. cbn [one_range contents] in *. now rewrite histogram_range_ok.
Qed.
Lemma range_order P E e f : is_64bit P -> sort_contract E -> reachable P E e -> reachable P E f -> has_LRA (e_mode e) -> has_LRA (e_mode f) ->
  ~ has_HISTOGRAM (e_mode e) -> ~ has_HISTOGRAM (e_mode f) -> Permutation (short_blocks e) (short_blocks f) -> ask P E e QRange = ask P E f QRange.
Proof.
  intros HP HS He Hf Me Mf Ne Nf Hp. destruct (is_list P E e HP He Ne) as (b & s & _ & Es & _ & Ss & _ & EB).
  destruct (is_list P E f HP Hf Nf) as (b' & s' & _ & Es' & _ & _ & _ & EB'). rewrite EB, EB' in Hp. apply singly_inj in Hp.
  rewrite !ask_range by auto. rewrite Es, Es'. cbn [one_range]. now rewrite (list_range_perm P E _ _ HS Ss Hp).
Qed.
Lemma population_short_list P E e : is_64bit P -> reachable P E e -> ~ has_HISTOGRAM (e_mode e) ->
  exists l, short_blocks e = singly l /\ Forall storable l /\ population (short_blocks e) = N.of_nat (length l) /\
    exists m, sort_contract E -> Permutation l m /\ (Forall (fun x => f64_is_nan x = false) l -> ascending m).
Proof.
  intros HP Hr Hh. destruct (is_list P E e HP Hr Hh) as (b & s & _ & Es & _ & Ss & _ & EB). exists (q_queue s). split; auto. split; auto.
  rewrite EB. split; [apply population_singly|]. exists (fst (e_sort E (q_queue s))). intros HS. destruct (HS (q_queue s)) as (H1 & H2 & _). split; auto.
  intros Hn. apply cmp_ascending; auto. eapply Permutation_Forall; eauto.
Qed.
Lemma range_not_negative P E e : is_64bit P -> powf_contract E -> sort_contract E -> bsearch_contract E -> log10_contract E ->
  reachable P E e -> has_LRA (e_mode e) -> (population (short_blocks e) <= small_count)%N ->
  Forall (fun b => measurable (snd b) = true /\ is_finite (snd b) = true) (short_blocks e) ->
  exists v, ask P E e QRange = Ret (AValue (Ok v)) /\ is_finite v = true /\ f64_le f64_zero v = true.
Proof.
  intros HP HE HS HB HL Hr Hm Hlen HF. destruct (contains (e_mode e) MODE_HISTOGRAM) eqn:EH.
  - apply contains_H in EH. eexists. split; [apply range_histogram; auto|]. apply range_nonneg; auto.
    + destruct (is_histogram P E e HP Hr EH) as (b & s & _ & Es & _ & Ls). unfold short_blocks. rewrite Es. apply bins_rising.
    + rewrite Forall_forall in HF. intros b Hb. apply measurable_positive; apply HF; auto.
  - assert (~ has_HISTOGRAM (e_mode e)) as Hh by (intros X; apply contains_H in X; congruence).
    destruct (population_short_list P E e HP Hr Hh) as (l & El & Sl & Pl & m & Hsort). destruct (Hsort HS) as (Hp & Ha).
    assert (Forall (fun x => measurable x = true /\ is_finite x = true) l) as HF'.
    { rewrite El in HF. unfold singly in HF. rewrite Forall_map in HF. exact HF. }
    assert (Forall (fun x => f64_is_nan x = false) l) as Hn. { eapply Forall_impl; [|exact HF']. intros x (_ & F). now apply finite_not_nan. }
    specialize (Ha Hn). eexists. split.
    + apply (range_list P E e m); auto.
      * rewrite El. now apply Permutation_map.
      * eapply Permutation_Forall; eauto.
      * rewrite <- (Permutation_length Hp). lia.
    + apply range_nonneg; auto; [now apply singly_rising|]. intros b Hb. apply in_map_iff in Hb. destruct Hb as (x & <- & Hx). cbn [snd].
      apply (Permutation_in _ (Permutation_sym Hp)) in Hx. rewrite Forall_forall in HF'. apply measurable_positive; apply HF'; auto.
Qed.
Lemma histogram_measured P E e : is_64bit P -> reachable P E e -> has_HISTOGRAM (e_mode e) ->
  Forall (fun b => measurable (snd b) = true /\ is_finite (snd b) = true) (blocks e ++ short_blocks e).
Proof.
  intros HP Hr Hh. destruct (is_histogram P E e HP Hr Hh) as (b & s & Eb & Es & _). unfold blocks, short_blocks. rewrite Eb, Es. cbn [contents].
  apply Forall_app; split; apply Forall_forall; intros (n, x) Hx; apply In_combine_cen in Hx; destruct Hx as (i & Hi & -> & _); now apply cen_measurable.
Qed.

(** * Several analyzers *)
Lemma range_multiple_eq P E es : Forall (fun e => has_LRA (e_mode e)) es -> loudness_range_multiple P E es = history_loudness_range_multiple P E (map e_short es).
Proof. intros H. unfold loudness_range_multiple. now rewrite all_LRA. Qed.
Lemma range_multiple_merged P E es f : is_64bit P -> sort_contract E -> es <> [] -> Forall (reachable P E) es ->
  Forall (fun e => has_LRA (e_mode e)) es -> has_LRA (e_mode f) -> merges (map e_short es) (e_short f) ->
  loudness_range_multiple P E es = loudness_range P E f.
Proof.
  intros HP HS Hne Hr Hm Mf HM. rewrite range_multiple_eq by auto. rewrite (range_merged P E _ (e_short f)); auto.
  - unfold loudness_range. apply contains_LRA in Mf. rewrite Mf. cbn [negb]. now rewrite one_range_unwrap.
  - destruct es; [congruence|discriminate].
  - apply (reachable_shorts P E); auto.
Qed.
Lemma range_multiple_list P E es m : is_64bit P -> powf_contract E -> sort_contract E -> Forall (reachable P E) es ->
  Forall (fun e => has_LRA (e_mode e) /\ ~ has_HISTOGRAM (e_mode e)) es ->
  Permutation (concat (map short_blocks es)) (singly m) -> ascending m -> Forall (fun x => f64_is_nan x = false) m -> (N.of_nat (length m) <= small_count)%N ->
  loudness_range_multiple P E es = Ret (Ok (range_of E (singly m))).
Proof.
  intros HP HE HS Hr Hm Hp Ha Hn Hl. destruct es as [|e0 es0].
  { cbn in Hp. apply Permutation_nil in Hp. destruct m; [reflexivity|discriminate]. }
  set (es := e0 :: es0) in *. assert (es <> []) as Hne by discriminate. clearbody es. clear e0 es0.
  assert (Forall (fun e => has_LRA (e_mode e)) es) as Hm' by (eapply Forall_impl; [|exact Hm]; intros e H; apply H).
  rewrite range_multiple_eq by auto.
  assert (exists qs, map e_short es = map HQueue qs /\ concat (map short_blocks es) = singly (concat (map q_queue qs)) /\ Forall storable (concat (map q_queue qs))) as (qs & Eq & Ec & Hst).
  { clear - HP Hr Hm. induction Hr as [|e es He Hr IH]; [exists []; repeat split; constructor|]. inversion Hm as [|? ? (Me & Ne) Hm']; subst.
    destruct (IH Hm') as (qs & E1 & E2 & E3). destruct (is_list P E e HP He Ne) as (b & s & _ & Es & _ & Ss & _ & EB).
    exists (s :: qs). cbn [map concat]. rewrite E1, Es, E2, EB. unfold singly. rewrite map_app. repeat split; auto. apply Forall_app. auto. }
  rewrite Eq. rewrite (range_merged P E _ (HQueue {| q_queue := concat (map q_queue qs); q_max := 0 |})); auto.
  - rewrite Ec in Hp. apply singly_inj in Hp. cbn [one_range q_queue]. apply list_range_ok; auto.
    + eapply Permutation_Forall; [symmetry; exact Hp|exact Hn].
    + now rewrite (Permutation_length Hp).
  - rewrite <- Eq. destruct es; [congruence|discriminate].
  - rewrite Forall_map. rewrite Forall_concat, Forall_map in Hst. exact Hst.
  - cbn [merges q_queue]. eauto.
Qed.
Lemma range_multiple_histogram P E es c : is_64bit P -> powf_contract E -> bsearch_contract E -> sort_contract E -> es <> [] -> Forall (reachable P E) es ->
  Forall (fun e => has_LRA (e_mode e)) es -> merges (map e_short es) (HHistogram c) -> (population (combine c ENERGIES) <= small_count)%N ->
  loudness_range_multiple P E es = Ret (Ok (range_of E (combine c ENERGIES))).
Proof.
  intros HP HE HB HS Hne Hr Hm HM Hl. rewrite range_multiple_eq by auto. rewrite (range_merged P E _ (HHistogram c)); auto.
  - cbn [one_range]. rewrite histogram_range_ok; auto. apply HM.
  - destruct es; [congruence|discriminate].
  - apply (reachable_shorts P E); auto.
Qed.
Lemma range_multiple_mixed P E es e f : is_64bit P -> Forall (reachable P E) es -> In e es -> In f es ->
  has_HISTOGRAM (e_mode e) -> ~ has_HISTOGRAM (e_mode f) -> loudness_range_multiple P E es = Ret (Err InvalidMode).
Proof.
  intros HP Hr He Hf Me Mf. rewrite Forall_forall in Hr. destruct (is_histogram P E e HP (Hr e He) Me) as (_ & c & _ & Ec & _).
  destruct (is_list P E f HP (Hr f Hf) Mf) as (_ & q & _ & Eq & _). unfold loudness_range_multiple. destruct (forallb _ _); auto.
  apply range_mixed; [exists q; rewrite <- Eq; now apply in_map|exists c; rewrite <- Ec; now apply in_map].
Qed.
Lemma range_multiple_order P E es es' : is_64bit P -> sort_contract E -> Forall (reachable P E) es -> Permutation es es' ->
  loudness_range_multiple P E es = loudness_range_multiple P E es'.
Proof.
  intros HP HS Hr Hp. destruct (forallb (fun e => contains (e_mode e) MODE_LRA) es) eqn:EF.
  - assert (forallb (fun e => contains (e_mode e) MODE_LRA) es' = true) as EF'.
    { rewrite forallb_forall in *. intros e He. apply EF. eapply Permutation_in; [symmetry; exact Hp|auto]. }
    unfold loudness_range_multiple. rewrite EF, EF'.
    pose proof (Permutation_map e_short Hp) as Hp'. assert (Forall (reachable P E) es') as Hr' by (eapply Permutation_Forall; eauto).
    pose proof (reachable_shorts P E es HP Hr) as W. pose proof (reachable_shorts P E es' HP Hr') as W'.
    assert (forall b, Forall (hist_ok b) (map e_short es) \/ exists e, In e es /\ ~ hist_ok b (e_short e)) as HK.
    { intros b. clear. induction es as [|e es IH]; [left; constructor|]. destruct IH as [IH|(f & Hf & Hn)]; [|right; exists f; split; auto; now right].
      assert (hist_ok b (e_short e) \/ ~ hist_ok b (e_short e)) as [H|H].
      { destruct (e_short e) as [q|c]; cbn [hist_ok].
        - destruct b; [right; discriminate|left; reflexivity].
        - destruct b; [|right; intros (X & _); discriminate]. destruct (Nat.eq_dec (length c) 1000); [left; auto|right; tauto]. }
      - left. cbn. constructor; auto.
      - right. exists e. split; auto. now left. }
    destruct es as [|e0 es0]. { apply Permutation_nil in Hp. now subst. }
    assert (map e_short (e0 :: es0) <> []) as Hne by discriminate. revert Hne Hp' W HK Hr. set (es := e0 :: es0). intros Hne Hp' W HK Hr. fold es in Hp, EF.
    assert (map e_short es' <> []) as Hne' by (intros X; rewrite X in Hp'; symmetry in Hp'; now apply Permutation_nil in Hp').
    destruct (HK true) as [H|H1]; [|destruct (HK false) as [H|H2]].
    + destruct (merges_kind true _ H) as (h & Hm & _). rewrite (range_merged P E _ h HS Hne W Hm). symmetry. apply range_merged; auto. eapply merges_perm; eauto.
    + destruct (merges_kind false _ H) as (h & Hm & _). rewrite (range_merged P E _ h HS Hne W Hm). symmetry. apply range_merged; auto. eapply merges_perm; eauto.
    + destruct H1 as (e & He & H1). destruct H2 as (f & Hf & H2). rewrite Forall_map, Forall_forall in W.
      pose proof (W e He) as We. pose proof (W f Hf) as Wf.
      assert (exists q, e_short e = HQueue q) as (q & Eq). { destruct (e_short e) as [q|c]; eauto. destruct H1. cbn. auto. }
      assert (exists c, e_short f = HHistogram c) as (c & Ec). { destruct (e_short f) as [q'|c]; eauto. destruct H2. reflexivity. }
      assert (In (HQueue q) (map e_short es)) as I1 by (rewrite <- Eq; now apply in_map).
      assert (In (HHistogram c) (map e_short es)) as I2 by (rewrite <- Ec; now apply in_map).
      rewrite !range_mixed; eauto; [exists q|exists c]; eapply Permutation_in; eauto.
  - rewrite !range_multiple_mode; auto; intros X; apply all_LRA in X; [|congruence].
    rewrite forallb_forall in X. assert (forallb (fun e => contains (e_mode e) MODE_LRA) es = true); [|congruence].
    apply forallb_forall. intros e He. apply X. eapply Permutation_in; eauto.
Qed.

(** * Programme loudness *)
Lemma blocks_one P E e : is_64bit P -> reachable P E e -> countable (blocks e) -> Forall block_ok (blocks e) /\ sum_all [blocks e] = energy_sum (blocks e).
Proof.
  intros HP Hr Hc. destruct (reachable_histories P E e HP Hr) as (Hb & _). unfold blocks in *. split.
  - pose proof (blocks_ok [e_block e]) as X. cbn [map concat] in X. rewrite app_nil_r in X. specialize (X ltac:(constructor; auto) Hc). now inversion X.
  - now apply sum_all_one.
Qed.
Lemma global_number P E e : is_64bit P -> powf_contract E -> log10_contract E -> reachable P E e -> has_I (e_mode e) -> countable (blocks e) ->
  population (blocks e) <> 0%N -> is_finite (energy_sum (blocks e)) = true -> Forall (fun b => measurable (snd b) = true) (blocks e) ->
  (exists n x, ask P E e QCount = Ret (ACount (Some (n, x))) /\ (0 < n)%N) /\
  (exists v, ask P E e QGlobal = Ret (AValue (Ok v)) /\ is_finite v = true) /\
  (exists v, ask P E e QThreshold = Ret (AValue (Ok v)) /\ is_finite v = true).
Proof.
  intros HP HE HL Hr Hm Hc H0 F HM. destruct (blocks_one P E e HP Hr Hc) as (Hb & HS). destruct (global_ok P E e HP HE Hr Hc) as (G1 & G2 & G3).
  rewrite Forall_forall in HM. destruct (gated_positive E (blocks e) HE Hb Hc H0 F HM HS) as (n & x & EG & Hn & Hp & Ht).
  split; [|split].
  - exists n, x. rewrite G3, EG. split; [auto|lia].
  - eexists. split; [apply G1; auto|]. unfold programme_loudness. rewrite HS, EG.
    assert (f64_is_nan (energy_sum (blocks e)) = false) as -> by (now apply finite_not_nan). rewrite andb_false_r. now apply (loudness_real E _ HL).
  - eexists. split; [apply G2; auto|]. unfold threshold. destruct (N.eqb_spec (population (blocks e)) 0); [congruence|].
    assert (f64_is_nan (energy_sum (blocks e)) = false) as -> by (now apply finite_not_nan). now apply (loudness_real E _ HL).
Qed.
Lemma multiple_number P E es : is_64bit P -> powf_contract E -> Forall (reachable P E) es -> Forall (fun e => has_I (e_mode e)) es ->
  countable (concat (map blocks es)) -> population (concat (map blocks es)) <> 0%N -> is_finite (sum_all (map blocks es)) = true ->
  exists n x, gated E (map blocks es) = Some (n, x) /\ (0 < n <= population (concat (map blocks es)))%N /\
    loudness_global_multiple P E es = Ret (Ok (loudness E (f64_div x (f64_of_N n)))).
Proof.
  intros HP HE Hr Hm Hc H0 F. assert (map blocks es = map contents (map e_block es)) as Hb by now rewrite map_map.
  rewrite global_multiple_ok by auto. rewrite Hb in *.
  destruct (gated_some E (map e_block es) HE (reachable_blocks P E es HP Hr) Hc H0 F) as (n & x & EG & Hn).
  exists n, x. split; auto. split; [eapply gated_count; eauto|]. unfold programme_loudness. rewrite EG.
  assert (f64_is_nan (sum_all (map contents (map e_block es))) = false) as -> by (now apply finite_not_nan). now rewrite andb_false_r.
Qed.
Lemma no_blocks P E e : is_64bit P -> powf_contract E -> sort_contract E -> reachable P E e ->
  (population (blocks e) = 0%N ->
     (has_I (e_mode e) -> ask P E e QGlobal = Ret (AValue (Ok (f64_neg f64_inf)))) /\
     (has_I (e_mode e) -> ask P E e QThreshold = Ret (AValue (Ok (f64_of_Z (-70))))) /\
     ask P E e QCount = Ret (ACount None)) /\
  (population (short_blocks e) = 0%N -> has_LRA (e_mode e) -> ask P E e QRange = Ret (AValue (Ok f64_zero))).
Proof.
  intros HP HE HS Hr. split.
  - intros H0. assert (countable (blocks e)) as Hc by (unfold countable; rewrite H0; lia). destruct (global_ok P E e HP HE Hr Hc) as (G1 & G2 & G3).
    assert (gated E [blocks e] = None) as EG by (unfold gated; rewrite concat_one, H0; reflexivity).
    split; [|split].
    + intros Hm. rewrite G1 by auto. unfold programme_loudness. rewrite EG, concat_one, H0. reflexivity.
    + intros Hm. rewrite G2 by auto. unfold threshold. now rewrite H0.
    + now rewrite G3, EG.
  - intros H0 Hm. rewrite ask_range by auto. unfold short_blocks in H0. destruct (reachable_histories P E e HP Hr) as (_ & W).
    destruct (e_short e) as [q|c]; cbn [one_range contents well_formed] in *.
    + rewrite population_singly in H0. destruct (q_queue q) as [|x l]; [|cbn in H0; lia].
      unfold list_range. destruct (HS []) as (H1 & _ & H3). destruct (e_sort E []) as (s & b). cbn [fst snd] in *. apply Permutation_nil in H1. subst s.
      destruct b; [destruct H3 as (H3 & _); destruct (H3 eq_refl); discriminate|reflexivity].
    + unfold histogram_loudness_range, histogram_sums. rewrite sums_ok by (rewrite ENERGIES_length; lia). rewrite population_combine in H0 by (rewrite ENERGIES_length; lia).
      rewrite H0. reflexivity.
Qed.

(** * NaN *)
Lemma add_nan_r x y : is_nan y = true -> is_nan (f64_add x y) = true.
Proof. destruct y; try discriminate. destruct x; reflexivity. Qed.
Lemma add_nan_l x y : is_nan x = true -> is_nan (f64_add x y) = true.
Proof. destruct x; try discriminate. destruct y; reflexivity. Qed.
Lemma is_nan_eq (x : f64) : is_nan x = true -> x = f64_nan. Proof. destruct x; try discriminate. reflexivity. Qed.
Lemma fold_nan l : forall t, is_nan t = true \/ existsb f64_is_nan l = true -> is_nan (fold_left f64_add l t) = true.
Proof.
  induction l as [|x l IH]; intros t H; cbn [fold_left existsb] in *; [destruct H; [auto|discriminate]|]. apply IH. destruct H as [H|H]; [left; now apply add_nan_l|].
  apply orb_true_iff in H. destruct H as [H|H]; [left; now apply add_nan_r|now right].
Qed.
Lemma nan_list P E e : is_64bit P -> powf_contract E -> sort_contract E -> log10_nan E -> reachable P E e -> ~ has_HISTOGRAM (e_mode e) ->
  (Exists (fun b => f64_is_nan (snd b) = true) (blocks e) -> countable (blocks e) ->
     (has_I (e_mode e) -> ask P E e QGlobal = Ret (AValue (Ok f64_nan))) /\
     (has_I (e_mode e) -> ask P E e QThreshold = Ret (AValue (Ok f64_nan))) /\
     ask P E e QCount = Ret (ACount None)) /\
  (Exists (fun b => f64_is_nan (snd b) = true) (short_blocks e) -> has_LRA (e_mode e) -> ask P E e QRange = Ret (AValue (Ok f64_nan))).
Proof.
  intros HP HE HS HL Hr Hh. destruct (is_list P E e HP Hr Hh) as (b & s & Eb & Es & Sb & Ss & EB & ES).
  assert (forall l, Exists (fun b => f64_is_nan (snd b) = true) (singly l) -> existsb f64_is_nan l = true) as HX.
  { intros l H. apply Exists_exists in H. destruct H as (y & Hy & N). apply in_map_iff in Hy. destruct Hy as (x & <- & Hx). apply existsb_exists. eauto. }
  split.
  - intros Hx Hc. destruct (global_ok P E e HP HE Hr Hc) as (G1 & G2 & G3). destruct (blocks_one P E e HP Hr Hc) as (_ & HSum).
    rewrite EB in Hx. apply HX in Hx.
    assert (f64_is_nan (energy_sum (blocks e)) = true) as HN. { rewrite EB. unfold singly. rewrite energy_sum_singly. apply fold_nan. now right. }
    assert (population (blocks e) <> 0%N) as H0. { rewrite EB. unfold singly. rewrite population_singly. destruct (q_queue b); [discriminate|cbn; lia]. }
    apply N.eqb_neq in H0.
    assert (gated E [blocks e] = None) as EG. { unfold gated. rewrite HSum, HN. now rewrite orb_true_r. }
    split; [|split].
    + intros Hm. rewrite G1 by auto. unfold programme_loudness. rewrite concat_one, HSum, HN, H0. reflexivity.
    + intros Hm. rewrite G2 by auto. unfold threshold. now rewrite HN, H0.
    + now rewrite G3, EG.
  - intros Hx Hm. rewrite ES in Hx. apply HX in Hx. rewrite ask_range by auto. rewrite Es. cbn [one_range]. now rewrite list_range_nan.
Qed.
Lemma histogram_numbers P E e : is_64bit P -> powf_contract E -> sort_contract E -> bsearch_contract E -> log10_contract E -> reachable P E e -> has_HISTOGRAM (e_mode e) ->
  (has_I (e_mode e) -> countable (blocks e) -> population (blocks e) <> 0%N ->
     (exists v, ask P E e QGlobal = Ret (AValue (Ok v)) /\ is_finite v = true) /\
     (exists v, ask P E e QThreshold = Ret (AValue (Ok v)) /\ is_finite v = true)) /\
  (has_LRA (e_mode e) -> (population (short_blocks e) <= small_count)%N ->
     exists v, ask P E e QRange = Ret (AValue (Ok v)) /\ is_finite v = true /\ f64_le f64_zero v = true).
Proof.
  intros HP HE HS HB HL Hr Hh. pose proof (histogram_measured P E e HP Hr Hh) as HM. apply Forall_app in HM. destruct HM as (M1 & M2). split.
  - intros Hm Hc H0. destruct (is_histogram P E e HP Hr Hh) as (b & s & Eb & Es & Lb & Ls).
    apply (global_number P E e); auto.
    + unfold blocks in *. rewrite Eb in *. now apply bins_finite.
    + eapply Forall_impl; [|exact M1]. intros x H. apply H.
  - intros Hm Hl. apply range_not_negative; auto.
Qed.

(** * The number of blocks and the loudness *)
Lemma count_agrees P E e : is_64bit P -> powf_contract E -> reachable P E e -> has_I (e_mode e) -> countable (blocks e) ->
  exists c, ask P E e QCount = Ret (ACount c) /\
    match c with
    | Some (n, x) => (0 < n <= population (blocks e))%N /\ ask P E e QGlobal = Ret (AValue (Ok (loudness E (f64_div x (f64_of_N n)))))
    | None => ask P E e QGlobal = Ret (AValue (Ok (if negb (population (blocks e) =? 0)%N && f64_is_nan (energy_sum (blocks e)) then f64_nan else f64_neg f64_inf)))
    end.
Proof.
  intros HP HE Hr Hm Hc. destruct (global_ok P E e HP HE Hr Hc) as (G1 & _ & G3). destruct (blocks_one P E e HP Hr Hc) as (_ & HS).
  exists (gated E [blocks e]). split; auto. rewrite G1 by auto. unfold programme_loudness. rewrite concat_one, HS.
  destruct (gated E [blocks e]) as [(n, x)|] eqn:EG.
  - pose proof (gated_count E [blocks e] n x EG) as Hn. rewrite concat_one in Hn. split; auto.
    destruct (negb (population (blocks e) =? 0)%N && f64_is_nan (energy_sum (blocks e))) eqn:EN; auto.
    unfold gated in EG. rewrite HS in EG. apply andb_true_iff in EN. destruct EN as (_ & EN). rewrite EN, orb_true_r in EG. discriminate.
  - now destruct (_ && _).
Qed.

(** * set_max_history *)
Lemma shrunk_history_grows q n xs : (n < N.of_nat (length (q_queue q)))%N ->
  record_all (HQueue (queue_set_max_size q n)) xs = Ret (HQueue {| q_queue := q_queue q ++ List.filter measurable xs; q_max := n |}).
Proof.
  intros Hn. unfold queue_set_max_size. destruct (N.ltb_spec (N.of_nat (length (q_queue q))) n); [lia|].
  assert (forall l, (n < N.of_nat (length l))%N -> record_all (HQueue {| q_queue := l; q_max := n |}) xs = Ret (HQueue {| q_queue := l ++ List.filter measurable xs; q_max := n |})) as G; [|auto].
  induction xs as [|x xs IH]; intros l Hl; cbn [record_all List.filter]; [now rewrite app_nil_r|]. rewrite add_queue. cbn [obind].
  destruct (measurable x).
  - unfold queue_add. cbn [q_queue q_max]. destruct (N.eqb_spec n (N.of_nat (length l))); [lia|]. rewrite IH by (rewrite app_length; cbn; lia). now rewrite <- app_assoc.
  - now apply IH.
Qed.
Lemma filled_history q n : (N.of_nat (length (q_queue q)) < n)%N ->
  queue_set_max_size q n = {| q_queue := q_queue q ++ repeat f64_zero (N.to_nat n - length (q_queue q)); q_max := n |}.
Proof. intros H. unfold queue_set_max_size. destruct (N.ltb_spec (N.of_nat (length (q_queue q))) n); [reflexivity|lia]. Qed.
Lemma set_history_list P E e h r e' b s : step P E e (OpSetMaxHistory h) = Ret (r, e') -> e_block e = HQueue b -> e_short e = HQueue s ->
  e_history e' <> e_history e -> e_block e' = HQueue (queue_set_max_size b (e_history e' / 100)) /\ e_short e' = HQueue (queue_set_max_size s (e_history e' / 3000)).
Proof.
  cbn [step]. unfold set_max_history. intros Hs Eb Es Hne. destruct (N.eqb_spec (e_history e) (clamp_ms (e_mode e) h)) as [Eh|Eh].
  - assert (e' = e) by congruence. subst. congruence.
  - injection Hs as <- <-. cbn. now rewrite Eb, Es.
Qed.
Lemma shrunk P E e h r e' b : is_64bit P -> reachable P E e -> step P E e (OpSetMaxHistory h) = Ret (r, e') -> e_block e = HQueue b ->
  e_history e' <> e_history e -> (e_history e' / 100 < population (blocks e))%N ->
  blocks e' = blocks e /\ forall xs h', record_all (e_block e') xs = Ret h' -> contents h' = blocks e ++ singly (List.filter measurable xs).
Proof.
  intros HP Hr Hs Eb Hne Hlt. destruct (reachable_kind P E e HP Hr) as (K1 & K2). rewrite Eb in K1. cbn [hist_ok] in K1. rewrite K1 in K2.
  destruct (e_short e) as [s|s] eqn:Es; [|destruct K2; discriminate]. destruct (set_history_list P E e h r e' b s Hs Eb Es Hne) as (E1 & _).
  unfold blocks in *. rewrite Eb in *. cbn [contents] in *. rewrite population_singly in Hlt. rewrite E1.
  pose proof (shrunk_history_grows b _ [] Hlt) as X. cbn [record_all List.filter] in X. rewrite app_nil_r in X.
  split; [assert (queue_set_max_size b (e_history e' / 100) = {| q_queue := q_queue b; q_max := e_history e' / 100 |}) as -> by congruence; reflexivity|].
  intros xs h' Hx. rewrite (shrunk_history_grows b _ xs Hlt) in Hx. injection Hx as <-. cbn [contents q_queue]. unfold singly. now rewrite map_app.
Qed.
Lemma filled P E e h r e' b : is_64bit P -> reachable P E e -> step P E e (OpSetMaxHistory h) = Ret (r, e') -> e_block e = HQueue b ->
  e_history e' <> e_history e -> (population (blocks e) <= e_history e' / 100)%N ->
  blocks e' = blocks e ++ singly (repeat f64_zero (N.to_nat (e_history e' / 100 - population (blocks e)))).
Proof.
  intros HP Hr Hs Eb Hne Hlt. destruct (reachable_kind P E e HP Hr) as (K1 & K2). rewrite Eb in K1. cbn [hist_ok] in K1. rewrite K1 in K2.
  destruct (e_short e) as [s|s] eqn:Es; [|destruct K2; discriminate]. destruct (set_history_list P E e h r e' b s Hs Eb Es Hne) as (E1 & _).
  unfold blocks in *. rewrite Eb in *. cbn [contents] in *. rewrite population_singly in *. rewrite E1. unfold queue_set_max_size.
  destruct (N.ltb_spec (N.of_nat (length (q_queue b))) (e_history e' / 100)) as [L|L]; cbn [contents q_queue].
  - unfold singly. rewrite map_app. do 3 f_equal. lia.
  - replace (_ - _)%N with 0%N by lia. cbn. now rewrite app_nil_r.
Qed.

(** * All blocks of a programme *)
Lemma holds_list q lim xs : holds (HQueue q) lim xs -> contents (HQueue q) = singly (latest (N.to_nat lim) (List.filter measurable xs)).
Proof. intros (_ & H). cbn [contents]. now rewrite H. Qed.
Lemma holds_bins c lim xs : holds (HHistogram c) lim xs -> contents (HHistogram c) = map (fun i => (hits i (List.filter measurable xs), centre i)) (seq 0 1000).
Proof.
  intros (Hl & H). cbn [contents]. assert (length (combine c ENERGIES) = 1000) as L by (rewrite combine_length, ENERGIES_length; lia).
  apply (nth_ext _ _ (0%N, f64_zero) (0%N, f64_zero)).
  - rewrite L, map_length, seq_length. reflexivity.
  - intros i Hi. rewrite combine_nth by (rewrite ENERGIES_length; lia). rewrite H.
    set (g := fun i => (hits i (List.filter measurable xs), centre i)).
    rewrite (nth_indep _ _ (g 0)) by (rewrite map_length, seq_length; lia). rewrite map_nth. rewrite seq_nth by lia. reflexivity.
Qed.
Lemma noted_list P E e t b s : is_64bit P -> noted P E e t b s -> ~ has_HISTOGRAM (e_mode e) ->
  blocks e = singly (latest (N.to_nat (p_usize_max P / 100)) (List.filter measurable b)) /\
  short_blocks e = singly (latest (N.to_nat (p_usize_max P / 3000)) (List.filter measurable s)).
Proof.
  intros HP HN Hm. destruct (noted_holds P E e t b s HP HN) as (HT & H1 & H2). apply taped_reachable in HT.
  destruct (is_list P E e HP HT Hm) as (q & q' & E1 & E2 & _). unfold blocks, short_blocks. rewrite E1, E2 in *. split; now apply holds_list.
Qed.
Lemma noted_bins P E e t b s : is_64bit P -> noted P E e t b s -> has_HISTOGRAM (e_mode e) ->
  blocks e = map (fun i => (hits i (List.filter measurable b), centre i)) (seq 0 1000) /\
  short_blocks e = map (fun i => (hits i (List.filter measurable s), centre i)) (seq 0 1000).
Proof.
  intros HP HN Hm. destruct (noted_holds P E e t b s HP HN) as (HT & H1 & H2). apply taped_reachable in HT.
  destruct (is_histogram P E e HP HT Hm) as (q & q' & E1 & E2 & _). unfold blocks, short_blocks. rewrite E1, E2 in *. split; eapply holds_bins; eauto.
Qed.
Lemma record_list q xs : (1 <= q_max q)%N -> (N.of_nat (length (q_queue q)) <= q_max q)%N -> exists h, record_all (HQueue q) xs = Ret h /\
  contents h = singly (latest (N.to_nat (q_max q)) (q_queue q ++ List.filter measurable xs)).
Proof. intros H1 H2. eexists. split; [apply record_queue; auto|]. reflexivity. Qed.

(** * One block *)
Lemma record_one_low h x : f64_lt x (bound 0) = true -> record_all h [x] = Ret h.
Proof.
  intros H. cbn [record_all]. unfold history_add. change (idx BOUNDARIES 0) with (Ret (bound 0)). cbn [obind]. now rewrite H.
Qed.
Lemma record_one_list q x : f64_lt x (bound 0) = false -> (N.of_nat (length (q_queue q)) < q_max q)%N ->
  exists h, record_all (HQueue q) [x] = Ret h /\ contents h = contents (HQueue q) ++ [(1%N, x)].
Proof.
  intros H L. destruct (record_list q [x]) as (h & H1 & H2); [lia|lia|]. exists h. split; auto. rewrite H2. cbn [List.filter]. unfold measurable. rewrite H. cbn [negb].
  cbn [contents]. unfold latest. rewrite app_length. cbn [length]. replace (length (q_queue q) + 1 - N.to_nat (q_max q)) with 0 by lia. cbn [skipn]. unfold singly. now rewrite map_app.
Qed.
Lemma record_one_histogram c x : f64_lt x (bound 0) = false -> length c = 1000 ->
  exists c' i, record_all (HHistogram c) [x] = Ret (HHistogram c') /\ length c' = 1000 /\ in_bin i x = true /\ nth i c' 0%N = (nth i c 0 + 1)%N /\
    forall j, j <> i -> nth j c' 0%N = nth j c 0%N.
Proof.
  intros H L. destruct (add_histogram c x L) as (c' & H1 & H2 & H3). destruct (find_in_bin x) as (i & _ & Hi). exists c', i. cbn [record_all]. rewrite H1. cbn [obind].
  split; auto. split; auto. split; auto. unfold measurable in H3. rewrite H in H3. cbn [negb andb] in H3. split; [rewrite H3, Hi; reflexivity|].
  intros j Hj. rewrite H3. destruct (in_bin j x) eqn:Ej; [destruct Hj; eapply in_bin_unique; eauto|lia].
Qed.
Lemma nan_measurable : f64_lt f64_nan (bound 0) = false. Proof. reflexivity. Qed.
(** * The tables *)
Lemma raw_bound i : i <= 1000 -> exists d m e, nth_error boundaries_raw i = Some (d, m, e) /\ is_finite (bound i) = true /\
  real (bound i) = round radix2 (FLT_exp (-1074) 53) ZnearestE (IZR d / 10 ^ 36).
Proof.
  intros Hi. destruct (raw_nth boundaries_raw i) as (d & m & e & H1 & H2 & H3); [change (length boundaries_raw) with 1001; lia|exact boundaries_rounded|].
  exists d, m, e. split; auto. destruct (rounded_spec d m e H3) as (F & _ & E). unfold bound, BOUNDARIES. rewrite H2. split; auto.
Qed.
Lemma raw_centre i : i < 1000 -> exists d m e, nth_error energies_raw i = Some (d, m, e) /\ is_finite (centre i) = true /\
  real (centre i) = round radix2 (FLT_exp (-1074) 53) ZnearestE (IZR d / 10 ^ 36).
Proof.
  intros Hi. destruct (raw_nth energies_raw i) as (d & m & e & H1 & H2 & H3); [change (length energies_raw) with 1000; lia|exact energies_rounded|].
  exists d, m, e. split; auto. destruct (rounded_spec d m e H3) as (F & _ & E). unfold centre, ENERGIES. rewrite H2. split; auto.
Qed.
Lemma refusals e :
  (refusal e QGlobal = None <-> has_I (e_mode e)) /\ (refusal e QThreshold = None <-> has_I (e_mode e)) /\
  (refusal e QRange = None <-> has_LRA (e_mode e)) /\
  (forall c, refusal e (QSamplePeak c) = None <-> has_SAMPLE_PEAK (e_mode e) /\ (c < N.of_nat (e_channels e))%N) /\
  (forall c, refusal e (QTruePeak c) = None <-> has_TRUE_PEAK (e_mode e) /\ (c < N.of_nat (e_channels e))%N) /\
  (forall c, ~ has_SAMPLE_PEAK (e_mode e) -> refusal e (QSamplePeak c) = Some InvalidMode) /\
  (forall c, ~ has_TRUE_PEAK (e_mode e) -> refusal e (QTruePeak c) = Some InvalidMode) /\
  (forall c, has_SAMPLE_PEAK (e_mode e) -> (N.of_nat (e_channels e) <= c)%N -> refusal e (QSamplePeak c) = Some InvalidChannelIndex) /\
  (forall c, has_TRUE_PEAK (e_mode e) -> (N.of_nat (e_channels e) <= c)%N -> refusal e (QTruePeak c) = Some InvalidChannelIndex) /\
  (forall c, refusal e (QPrevSamplePeak c) = refusal e (QSamplePeak c) /\ refusal e (QPrevTruePeak c) = refusal e (QTruePeak c)).
Proof.
  pose proof (contains_I (e_mode e)). pose proof (contains_LRA (e_mode e)). pose proof (contains_SP (e_mode e)). pose proof (contains_TP (e_mode e)).
  unfold refusal; cbv zeta. rewrite bits_I, bits_LRA, bits_SP, bits_TP.
  destruct (contains (e_mode e) MODE_I), (contains (e_mode e) MODE_LRA), (contains (e_mode e) MODE_SAMPLE_PEAK), (contains (e_mode e) MODE_TRUE_PEAK);
    repeat split; try (intros; destruct (N.ltb_spec c (N.of_nat (e_channels e)))); intros; try tauto; try congruence; try lia;
    try (match goal with H : _ <-> _ |- _ => apply H; reflexivity end); try (exfalso; intuition congruence).
Qed.
Lemma gate_70 : (Rabs (real (bound 0) - decibel (-70 + 691 / 1000)) <= / 10 ^ 12 * decibel (-70 + 691 / 1000))%R.
Proof. pose proof (bnd_near 0 ltac:(lia)) as H. cbv zeta in H. cbn [INR] in H. replace (0 / 10 - 70 + 691 / 1000)%R with (-70 + 691 / 1000)%R in H by lra. exact H. Qed.
Lemma search_total x : exists i, find_histogram_index x = Ret i /\ i < 1000.
Proof. destruct (find_in_bin x) as (i & H & Hi). exists i. split; auto. apply in_bin_iff in Hi. apply Hi. Qed.
Lemma bound_loudness i : i <= 1000 -> (Rabs (lufs (real (bound i)) - (INR i / 10 - 70)) <= / 10 ^ 9)%R.
Proof.
  intros Hi. pose proof (bnd_near i Hi) as H. cbv zeta in H. apply lufs_near in H; [|apply decibel_pos]. destruct H as (_ & H).
  rewrite lufs_decibel in H. change (bnd i) with (bound i) in H. unfold real. eapply Rle_trans; [|eapply Rle_trans; [exact H|lra]].
  apply Req_le. f_equal. lra.
Qed.
Lemma end_loudness : (Rabs (lufs (real (bound 0)) - -70) <= / 10 ^ 9)%R /\ (Rabs (lufs (real (bound 1000)) - 30) <= / 10 ^ 9)%R.
Proof.
  split.
  - pose proof (bound_loudness 0 ltac:(lia)) as H. cbn [INR] in H. replace (0 / 10 - 70)%R with (-70)%R in H by lra. exact H.
  - pose proof (bound_loudness 1000 ltac:(lia)) as H. rewrite INR_IZR_INZ in H. change (Z.of_nat 1000) with 1000%Z in H. replace (1000 / 10 - 70)%R with 30%R in H by lra. exact H.
Qed.
Lemma ordered_blocks P E e : is_64bit P -> sort_contract E -> reachable P E e -> ~ has_HISTOGRAM (e_mode e) ->
  exists l m, short_blocks e = singly l /\ population (short_blocks e) = N.of_nat (length l) /\ Permutation l m /\
    (Forall (fun x => f64_is_nan x = false) l -> ascending m).
Proof.
  intros HP HS Hr Hh. destruct (population_short_list P E e HP Hr Hh) as (l & H1 & _ & H2 & m & H3). exists l, m. split; auto.
Qed.
Lemma filter_repeat {A} (p : A -> bool) x n : List.filter p (repeat x n) = if p x then repeat x n else [].
Proof. induction n as [|n IH]; cbn [repeat List.filter]; [now destruct (p x)|]. rewrite IH. now destruct (p x). Qed.
Lemma expand_filter g l : expand (at_least g l) = List.filter (fun x => f64_ge x g) (expand l).
Proof.
  induction l as [|(n, x) l IH]; [reflexivity|]. unfold at_least, expand in *. cbn [List.filter flat_map fst snd]. rewrite filter_app, filter_repeat. rewrite <- IH.
  destruct (f64_ge x g); reflexivity.
Qed.
Lemma range_expanded E c : range_of E (combine c ENERGIES) =
  let l := combine c ENERGIES in
  if (population l =? 0)%N then f64_zero else
  let gate := f64_mul (hundredth E) (mean_energy l) in
  let r := List.filter (fun x => f64_ge x gate) (expand l) in
  if length r =? 0 then f64_zero else f64_sub (loudness E (high_percentile r)) (loudness E (low_percentile r)).
Proof. cbv zeta. unfold range_of. now rewrite expand_filter. Qed.
Lemma range_multiple_one P E e : has_LRA (e_mode e) -> loudness_range_multiple P E [e] = loudness_range P E e.
Proof.
  intros Hm. rewrite range_multiple_eq by (constructor; auto). cbn [map]. rewrite range_single. unfold loudness_range. apply contains_LRA in Hm. rewrite Hm. cbn [negb].
  now rewrite one_range_unwrap.
Qed.
Lemma nan_lowest c : length c = 1000 -> exists c', record_all (HHistogram c) [f64_nan] = Ret (HHistogram c') /\
  nth 0 c' 0%N = (nth 0 c 0 + 1)%N /\ forall j, j <> 0 -> nth j c' 0%N = nth j c 0%N.
Proof.
  intros Hl. destruct (record_one_histogram c f64_nan nan_measurable Hl) as (c' & i & H1 & _ & H2 & H3 & H4). apply in_bin_nan in H2. subst i. eauto.
Qed.
