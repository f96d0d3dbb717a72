(** Memory behind the C API: boxes, handles, several analyzers. *)
From Coq Require Import ZArith NArith List Bool Arith Lia Permutation.
From Verif Require Import Prelude Float Env Utils History Filter Ebur128 Capi Handles Spec Spec_history Spec_capi Spec_handles
  Config_proofs Answers_proofs Capi_proofs Instance Examples.
Import ListNotations.
Local Open Scope nat_scope.

Lemma permutation_filter {T} (f : T -> bool) l l' : Permutation l l' -> Permutation (List.filter f l) (List.filter f l').
Proof.
  induction 1; cbn; auto.
  - destruct (f x); auto.
  - destruct (f x), (f y); auto. constructor.
  - etransitivity; eauto.
Qed.
Lemma load_in h a c : NoDup (map fst h) -> In (a, c) h -> load h a = Ret c.
Proof.
  induction h as [|(b, d) h IH]; cbn [map load]; intros HN HI; [destruct HI|]. inversion HN; subst.
  destruct HI as [HI|HI].
  - injection HI as -> ->. now rewrite Nat.eqb_refl.
  - destruct (Nat.eqb_spec a b); [|auto]. subst b. exfalso. apply H1. apply in_map_iff. exists (a, c). auto.
Qed.
Lemma store_none h a c : ~ In a (map fst h) -> store h a c = h.
Proof.
  induction h as [|(b, d) h IH]; cbn [map store]; intros H; [reflexivity|]. cbn [fst] in *. destruct (Nat.eqb_spec b a).
  - subst. exfalso. apply H. now left.
  - unfold store in IH. rewrite IH; auto. intros HI. apply H. now right.
Qed.
Lemma filter_none (h : heap) a : ~ In a (map fst h) -> List.filter (fun x => negb (fst x =? a)) h = h.
Proof.
  induction h as [|(b, d) h IH]; cbn [map List.filter fst]; intros H; [reflexivity|]. destruct (Nat.eqb_spec b a).
  - subst. exfalso. apply H. now left.
  - cbn [negb]. rewrite IH; auto. intros HI. apply H. now right.
Qed.
Lemma store_two a b x y c d : a <> b -> store (store [(a, x); (b, y)] b c) a d = [(a, d); (b, c)].
Proof.
  intros Hab. apply Nat.eqb_neq in Hab. assert ((b =? a) = false) as Hba by (rewrite Nat.eqb_sym; exact Hab).
  unfold store. cbn [map fst]. rewrite Hab, !Nat.eqb_refl. cbn [fst]. rewrite ?Hba, ?Nat.eqb_refl. cbn [fst]. now rewrite ?Hba.
Qed.
Lemma fst_store h a c : map fst (store h a c) = map fst h.
Proof. unfold store. rewrite map_map. apply map_ext. intros (b, d). cbn [fst]. now destruct (b =? a). Qed.

(** * Slots: a variable with the two boxes it owns *)
Definition slot := option (cstate * nat * nat).
Definition state_cell (s : cstate) (b : nat) : cell := CellState (cs_mode s) (cs_channels s) (cs_samplerate s) b.
Definition cells (x : slot) : heap :=
  match x with None => [] | Some (s, a, b) => [(a, state_cell s b); (b, CellAnalyzer (cs_internal s))] end.
Definition seen_state (x : slot) : option cstate := match x with None => None | Some (s, _, _) => Some s end.
Definition pointer (x : slot) : option nat := match x with None => None | Some (_, a, _) => Some a end.
Definition matches (w : store_of) (W : heap * list (option nat)) (l : list slot) : Prop :=
  w = map seen_state l /\ snd W = map pointer l /\ Permutation (fst W) (flat_map cells l) /\ NoDup (map fst (fst W)).

Lemma replace_map {A B} (f : A -> B) l i x : map f (replace l i x) = replace (map f l) i (f x).
Proof. revert i. induction l as [|y l IH]; intros [|i]; cbn; auto. now rewrite IH. Qed.
Lemma replace_length {A} (l : list A) i x : length (replace l i x) = length l.
Proof. revert i. induction l as [|y l IH]; intros [|i]; cbn; auto. Qed.
Lemma replace_same {A} (l : list A) i x : nth_error l i = Some x -> replace l i x = l.
Proof. revert i. induction l as [|y l IH]; intros [|i]; cbn; try discriminate; [congruence|]. intros H. now rewrite IH. Qed.
Lemma nth_replace {A} (l : list A) i x : i < length l -> nth_error (replace l i x) i = Some x.
Proof. revert i. induction l as [|y l IH]; intros [|i]; cbn; try lia; auto. intros H. apply IH. lia. Qed.
Lemma nth_replace_other {A} (l : list A) i j x : i <> j -> nth_error (replace l i x) j = nth_error l j.
Proof. revert i j. induction l as [|y l IH]; intros [|i] [|j] H; cbn; auto; try congruence. Qed.
Lemma split_slot {A} (l : list A) i x : nth_error l i = Some x ->
  exists l1 l2, l = l1 ++ x :: l2 /\ forall y, replace l i y = l1 ++ y :: l2.
Proof.
  revert i. induction l as [|y l IH]; intros [|i]; cbn; try discriminate.
  - intros [= ->]. exists [], l. auto.
  - intros H. destruct (IH i H) as (l1 & l2 & -> & R). exists (y :: l1), l2. split; auto. intros z. now rewrite R.
Qed.
Lemma held_slot w W l i s : matches w W l -> held w i s -> exists a b, nth_error l i = Some (Some (s, a, b)).
Proof.
  intros (-> & _) H. unfold held in H. rewrite nth_error_map in H. destruct (nth_error l i) as [[((s', a), b)|]|]; cbn in H; try discriminate H.
  injection H as ->. eauto.
Qed.
Lemma slot_variable w W l i x : matches w W l -> nth_error l i = Some x -> variable (snd W) i = Ret (pointer x).
Proof. intros (_ & -> & _) H. unfold variable. now rewrite nth_error_map, H. Qed.
Lemma slot_deref w W l i s a b : matches w W l -> nth_error l i = Some (Some (s, a, b)) -> deref (fst W) (Some a) = Ret (a, b, s).
Proof.
  intros (_ & _ & HP & HN) H. destruct (split_slot l i _ H) as (l1 & l2 & -> & _).
  assert (In (a, state_cell s b) (fst W) /\ In (b, CellAnalyzer (cs_internal s)) (fst W)) as (I1 & I2).
  { split; eapply Permutation_in; try (apply Permutation_sym; exact HP); rewrite flat_map_app; apply in_or_app; right; cbn; auto. }
  unfold deref. rewrite (load_in _ _ _ HN I1). cbn [obind state_cell]. rewrite (load_in _ _ _ HN I2). cbn [obind]. now destruct s.
Qed.

(** the two cells of slot [i] are disjoint from the rest *)
Lemma slot_apart w W l1 l2 s a b : matches w W (l1 ++ Some (s, a, b) :: l2) ->
  a <> b /\ ~ In a (map fst (flat_map cells l1 ++ flat_map cells l2)) /\ ~ In b (map fst (flat_map cells l1 ++ flat_map cells l2)).
Proof.
  intros (_ & _ & HP & HN). eapply Permutation_NoDup in HN; [|apply Permutation_map; exact HP].
  rewrite flat_map_app in HN. cbn [flat_map cells] in HN.
  assert (Permutation (map fst (flat_map cells l1 ++ ([(a, state_cell s b); (b, CellAnalyzer (cs_internal s))] ++ flat_map cells l2)))
                      (a :: b :: map fst (flat_map cells l1 ++ flat_map cells l2))) as HQ.
  { change (a :: b :: map fst (flat_map cells l1 ++ flat_map cells l2)) with
      (map fst ([(a, state_cell s b); (b, CellAnalyzer (cs_internal s))] ++ (flat_map cells l1 ++ flat_map cells l2))).
    apply Permutation_map. apply Permutation_app_swap_app. }
  eapply Permutation_NoDup in HN; [|exact HQ]. inversion HN as [|? ? N1 N2]; subst. inversion N2 as [|? ? N3 N4]; subst. cbn [In] in N1.
  split; [intros ->; apply N1; now left|]. split; auto.
Qed.

Lemma matches_call w W l i s a b s' : matches w W l -> nth_error l i = Some (Some (s, a, b)) ->
  matches (replace w i (Some s')) (store (store (fst W) b (CellAnalyzer (cs_internal s'))) a (state_cell s' b), snd W) (replace l i (Some (s', a, b))).
Proof.
  intros HM H. destruct (split_slot l i _ H) as (l1 & l2 & El & R). rewrite R. subst l. destruct (slot_apart w W l1 l2 s a b HM) as (Hab & Ha & Hb).
  destruct HM as (Hw & Hv & HP & HN). split; [|split; [|split]]; cbn [fst snd].
  - rewrite Hw. rewrite <- (R (Some (s', a, b))), replace_map. reflexivity.
  - rewrite Hv, !map_app. reflexivity.
  - rewrite flat_map_app in HP |- *. cbn [flat_map cells] in HP |- *. rewrite map_app in Ha, Hb.
    assert (forall c c' c2, ~ In c (map fst (flat_map cells l1) ++ map fst (flat_map cells l2)) -> forall x, Permutation x (flat_map cells l1 ++ c2 ++ flat_map cells l2) ->
      Permutation (store x c c') (flat_map cells l1 ++ store c2 c c' ++ flat_map cells l2)) as X.
    { intros c c' c2 Hc x Hx. apply (Permutation_map (fun y => if fst y =? c then (fst y, c') else y)) in Hx. fold (store x c c') in Hx. rewrite !map_app in Hx.
      fold (store (flat_map cells l1) c c') (store c2 c c') (store (flat_map cells l2) c c') in Hx.
      rewrite (store_none (flat_map cells l1)), (store_none (flat_map cells l2)) in Hx; auto; intros HI; apply Hc, in_or_app; auto. }
    apply X with (c := b) (c' := CellAnalyzer (cs_internal s')) in HP; auto. apply X with (c := a) (c' := state_cell s' b) in HP; auto.
    etransitivity; [exact HP|]. rewrite store_two by exact Hab. reflexivity.
  - now rewrite !fst_store.
Qed.
Lemma matches_destroy w W l i s a b : matches w W l -> nth_error l i = Some (Some (s, a, b)) ->
  exists h, h_destroy (fst W) (Some (Some a)) = Ret (Some None, h) /\ matches (replace w i None) (h, replace (snd W) i None) (replace l i None).
Proof.
  intros HM H. destruct (split_slot l i _ H) as (l1 & l2 & El & R). rewrite R. subst l. destruct (slot_apart w W l1 l2 s a b HM) as (Hab & Ha & Hb).
  destruct HM as (Hw & Hv & HP & HN). rewrite flat_map_app in HP. cbn [flat_map cells] in HP. rewrite map_app in Ha, Hb.
  assert (In (a, state_cell s b) (fst W) /\ In (b, CellAnalyzer (cs_internal s)) (fst W)) as (I1 & I2).
  { split; eapply Permutation_in; try (apply Permutation_sym; exact HP); apply in_or_app; right; cbn; auto. }
  set (keep := fun (c : nat) (x : nat * cell) => negb (fst x =? c)).
  assert (NoDup (map fst (List.filter (keep b) (fst W)))) as HN1.
  { clear - HN. induction (fst W) as [|x t IH]; cbn; [constructor|]. cbn in HN. inversion HN; subst. destruct (keep b x); cbn; auto. constructor; auto.
    intros HI. apply H1. apply in_map_iff in HI. destruct HI as (y & E1 & E2). apply filter_In in E2. apply in_map_iff. exists y. tauto. }
  assert (load (List.filter (keep b) (fst W)) a = Ret (state_cell s b)) as La.
  { apply load_in; auto. apply filter_In. split; auto. unfold keep. cbn [fst]. rewrite (proj2 (Nat.eqb_neq a b) Hab). reflexivity. }
  exists (List.filter (keep a) (List.filter (keep b) (fst W))). split.
  - unfold h_destroy. rewrite (load_in _ _ _ HN I1). cbn [obind state_cell]. rewrite (load_in _ _ _ HN I2). cbn [obind]. unfold free.
    rewrite (load_in _ _ _ HN I2). cbn [obind]. fold (keep b). rewrite La. reflexivity.
  - split; [|split; [|split]]; cbn [fst snd].
    + rewrite Hw, <- (R None), replace_map. reflexivity.
    + rewrite Hv, <- (R None), replace_map. reflexivity.
    + rewrite flat_map_app. cbn [flat_map cells app].
      assert (forall c c2, ~ In c (map fst (flat_map cells l1) ++ map fst (flat_map cells l2)) -> forall x, Permutation x (flat_map cells l1 ++ c2 ++ flat_map cells l2) ->
        Permutation (List.filter (keep c) x) (flat_map cells l1 ++ List.filter (keep c) c2 ++ flat_map cells l2)) as X.
      { intros c c2 Hc x Hx. apply (permutation_filter (keep c)) in Hx. rewrite !filter_app in Hx. unfold keep in *.
        rewrite (filter_none (flat_map cells l1)), (filter_none (flat_map cells l2)) in Hx; auto; intros HI; apply Hc, in_or_app; auto. }
      apply X with (c := b) in HP; auto. apply X with (c := a) in HP; auto. etransitivity; [exact HP|].
      unfold keep. cbn [List.filter fst]. rewrite (proj2 (Nat.eqb_neq a b) Hab), Nat.eqb_refl. cbn [negb List.filter fst]. rewrite Nat.eqb_refl. cbn [negb app]. reflexivity.
    + clear - HN1. induction (List.filter (keep b) (fst W)) as [|x t IH]; cbn; [constructor|]. cbn in HN1. inversion HN1; subst. destruct (keep a x); cbn; auto. constructor; auto.
      intros HI. apply H1. apply in_map_iff in HI. destruct HI as (y & E1 & E2). apply filter_In in E2. apply in_map_iff. exists y. tauto.
Qed.
Lemma matches_init w W l i s a b : matches w W l -> nth_error l i = Some None -> ~ In b (map fst (fst W)) -> ~ In a (map fst ((b, CellAnalyzer (cs_internal s)) :: fst W)) ->
  matches (replace w i (Some s)) ((a, state_cell s b) :: (b, CellAnalyzer (cs_internal s)) :: fst W, replace (snd W) i (Some a)) (replace l i (Some (s, a, b))).
Proof.
  intros HM H Hb Ha. destruct (split_slot l i _ H) as (l1 & l2 & El & R). rewrite R. subst l.
  destruct HM as (Hw & Hv & HP & HN). split; [|split; [|split]]; cbn [fst snd].
  - rewrite Hw, <- (R (Some (s, a, b))), replace_map. reflexivity.
  - rewrite Hv, <- (R (Some (s, a, b))), replace_map. reflexivity.
  - rewrite flat_map_app in HP |- *. cbn [flat_map cells app] in HP |- *.
    change ((a, state_cell s b) :: (b, CellAnalyzer (cs_internal s)) :: fst W) with ([(a, state_cell s b); (b, CellAnalyzer (cs_internal s))] ++ fst W).
    change (flat_map cells l1 ++ (a, state_cell s b) :: (b, CellAnalyzer (cs_internal s)) :: flat_map cells l2) with
      (flat_map cells l1 ++ [(a, state_cell s b); (b, CellAnalyzer (cs_internal s))] ++ flat_map cells l2).
    etransitivity; [apply Permutation_app_head; exact HP|]. apply Permutation_app_swap_app.
  - cbn [map fst] in *. constructor; [exact Ha|]. constructor; auto.
Qed.
Lemma deref_held w W l is ss : matches w W l -> Forall2 (held w) is ss ->
  exists ps, variables (snd W) is = Ret ps /\ deref_all (fst W) ps = Ret ss.
Proof.
  intros HM. induction 1 as [|i s is ss Hh HF (ps & IH1 & IH2)]; [exists []; auto|].
  destruct (held_slot w W l i s HM Hh) as (a & b & Hs). exists (Some a :: ps). cbn [variables deref_all].
  rewrite (slot_variable w W l i _ HM Hs), IH1. cbn [obind pointer]. rewrite (slot_deref w W l i s a b HM Hs), IH2. auto.
Qed.

(** * Every proper command: the memory does what the specification says *)
Lemma execute_acts P E A w W l k o w1 : allocator_contract A -> matches w W l -> proper_use P E w k -> acts P E w k o w1 ->
  exists W1 l1, execute P E A W k = Ret (o, W1) /\ matches w1 W1 l1.
Proof.
  intros HA HM HU HS. destruct W as (h, vars). destruct HS as [i ch r m s Hi|i| |i c s k s' Hh Hc|i q s k o Hh Hq|is ss k o Hh Hq|is ss k o Hh Hq]; cbn [proper_use] in HU; cbn [execute].
  - destruct HU as (Hn & _). assert (nth_error l i = Some None) as Hl.
    { destruct HM as (-> & _). rewrite nth_error_map in Hn. destruct (nth_error l i) as [[((s0, a), b)|]|]; cbn in Hn; try discriminate Hn; auto. }
    pose proof (slot_variable w _ l i _ HM Hl) as Hv. cbn [snd] in Hv. rewrite Hv. cbn [obind]. unfold h_init. rewrite Hi. cbn [obind]. destruct s as [s|].
    + unfold alloc. cbn [obind]. eexists _, _. split; [reflexivity|]. apply (matches_init w (h, vars) l i s); auto.
    + cbn [obind]. exists (h, replace vars i None), l. split; auto. destruct HM as (M1 & M2 & M3 & M4). cbn [fst snd] in *.
      rewrite !replace_same; [now repeat split|subst vars; now rewrite nth_error_map, Hl|exact Hn].
  - assert (exists x, nth_error l i = Some x) as (x & Hl).
    { destruct HM as (-> & _). rewrite map_length in HU. destruct (nth_error l i) eqn:EN; eauto. apply nth_error_None in EN. lia. }
    pose proof (slot_variable w _ l i _ HM Hl) as Hv. cbn [snd] in Hv. rewrite Hv. cbn [obind]. destruct x as [((s, a), b)|]; cbn [pointer].
    + destruct (matches_destroy w _ l i s a b HM Hl) as (h' & Hd & HM'). cbn [fst snd] in *. rewrite Hd. cbn [obind]. eauto.
    + cbn [h_destroy obind]. exists (h, replace vars i None), l. split; auto. destruct HM as (M1 & M2 & M3 & M4). cbn [fst snd] in *.
      rewrite !replace_same; [now repeat split|subst vars; now rewrite nth_error_map, Hl|subst w; now rewrite nth_error_map, Hl].
  - exists (h, vars), l. cbn. auto.
  - destruct (held_slot w _ l i s HM Hh) as (a & b & Hl). pose proof (slot_variable w _ l i _ HM Hl) as Hv. pose proof (slot_deref w _ l i s a b HM Hl) as Hd.
    cbn [fst snd] in Hv, Hd. rewrite Hv. cbn [obind pointer]. unfold h_call. rewrite Hd. cbn [obind]. rewrite Hc. cbn [obind].
    destruct (match c with CSetMaxWindow w0 | CSetMaxHistory w0 => (u32_max <? w0)%N | _ => false end) eqn:EB.
    + assert (k = error_code NoMem /\ s' = s) as (-> & ->).
      { destruct c; try discriminate EB; cbn [c_call] in Hc; unfold c_set_max_window, c_set_max_history in Hc; rewrite EB in Hc; injection Hc as <- <-; auto. }
      cbn [obind]. exists (h, vars), l. split; auto. now rewrite (replace_same w i (Some s)).
    + cbn [obind]. eexists _, _. split; [reflexivity|]. apply (matches_call w (h, vars) l i s a b s' HM Hl).
  - destruct (held_slot w _ l i s HM Hh) as (a & b & Hl). pose proof (slot_variable w _ l i _ HM Hl) as Hv. pose proof (slot_deref w _ l i s a b HM Hl) as Hd.
    cbn [fst snd] in Hv, Hd. rewrite Hv. cbn [obind pointer]. unfold h_ask. rewrite Hd. cbn [obind]. rewrite Hq. cbn [obind]. eauto.
  - destruct (deref_held w _ l is ss HM Hh) as (ps & Hv & Hd). cbn [fst snd] in *. rewrite Hv. cbn [obind]. unfold h_global_multiple. rewrite Hd. cbn [obind]. rewrite Hq. cbn [obind]. eauto.
  - destruct (deref_held w _ l is ss HM Hh) as (ps & Hv & Hd). cbn [fst snd] in *. rewrite Hv. cbn [obind]. unfold h_range_multiple. rewrite Hd. cbn [obind]. rewrite Hq. cbn [obind]. eauto.
Qed.
Lemma execute_program P E A : allocator_contract A -> forall w ks os w', program P E w ks os w' -> forall W l, matches w W l ->
  exists W' l', execute_all P E A W ks = Ret (os, W') /\ matches w' W' l'.
Proof.
  intros HA. induction 1 as [w|w k o w1 ks os w2 HU HS HP IH]; intros W l HM; cbn [execute_all]; [eauto|].
  destruct (execute_acts P E A w W l k o w1 HA HM HU HS) as (W1 & l1 & -> & HM1). cbn [obind].
  destruct (IH W1 l1 HM1) as (W2 & l2 & -> & HM2). cbn [obind]. eauto.
Qed.
Lemma matches_start n : matches (start n) ([], repeat None n) (repeat None n).
Proof.
  split; [|split; [|split]]; cbn [fst snd].
  - unfold start. induction n; cbn; congruence.
  - induction n; cbn; congruence.
  - induction n; cbn; auto.
  - constructor.
Qed.
Lemma matches_live w W l : matches w W l -> length (fst W) = 2 * live w.
Proof.
  intros (-> & _ & HP & _). rewrite (Permutation_length HP). unfold live. clear. induction l as [|[((s, a), b)|] l IH]; cbn [flat_map cells map seen_state List.filter length app]; lia.
Qed.
Lemma matches_null w W l : matches w W l -> Forall2 (fun p x => p = None <-> x = None) (snd W) w.
Proof.
  intros (-> & -> & _). induction l as [|[((s, a), b)|] l IH]; cbn; constructor; auto; cbn; split; congruence.
Qed.

(** * The specification is never stuck *)
Definition sound (P : platform) (E : ext) (w : store_of) : Prop := forall i s, held w i s -> creachable P E s.
Lemma held_replace w i x j s : held (replace w i x) j s -> (i = j /\ x = Some s) \/ held w j s.
Proof.
  unfold held. intros H. destruct (Nat.eq_dec i j) as [->|Hn]; [|rewrite nth_replace_other in H by auto; auto].
  destruct (Nat.lt_ge_cases j (length w)) as [Hl|Hl]; [rewrite nth_replace in H by auto; left; split; congruence|].
  assert (nth_error (replace w j x) j = None) as X by (apply nth_error_None; rewrite replace_length; lia). congruence.
Qed.
Lemma init_total P E ch r m : is_64bit P -> exists s, c_init P E ch r m = Ret s.
Proof. intros HP. unfold c_init. destruct (news_total P E ch (as_u32 r) (from_bits_truncate (i32_as_u8 m)) HP) as (x & ->). cbn. eauto. Qed.
Lemma acts_sound P E w k o w1 : is_64bit P -> sound P E w -> proper_use P E w k -> acts P E w k o w1 -> sound P E w1.
Proof.
  intros HP HR HU HS. destruct HS as [i ch r m s Hi|i| |i c s k s' Hh Hc|i q s k o Hh Hq|is ss k o Hh Hq|is ss k o Hh Hq]; auto; intros j t Ht;
    apply held_replace in Ht; destruct Ht as [(-> & Ht)|Ht]; eauto; try discriminate Ht.
  - subst s. eapply creach_init; [exact Hi|]. destruct HU as (_ & HU). destruct (init_ok P E ch r m t HP Hi) as (V1 & V2 & EN & _).
    destruct (new_spec P E ch (r mod 4294967296) (from_bits_truncate (i32_as_u8 m)) HP) as (_ & H2 & H3).
    destruct (Classical_Prop.classic (has_M (from_bits_truncate (i32_as_u8 m)))) as [HM|HM]; [|rewrite H2 in EN by auto; discriminate EN].
    destruct (H3 V1 V2 HM) as (e & He & M1 & _). rewrite EN in He. injection He as He. rewrite He, M1. auto.
  - injection Ht as <-. cbn [proper_use] in HU. destruct HU as (s0 & Hh' & HF). assert (s0 = s) as -> by (unfold held in *; congruence).
    eapply creach_call; eauto.
Qed.
Lemma acts_total P E w k : is_64bit P -> bsearch_contract E -> sound P E w -> proper_use P E w k -> exists o w1, acts P E w k o w1.
Proof.
  intros HP HB HR HU. destruct k as [i ch r m|i| |i c|i q|is|is]; cbn [proper_use] in HU.
  - destruct (init_total P E ch r m HP) as (s & Hs). eexists _, _. constructor. exact Hs.
  - eexists _, _. constructor.
  - eexists _, _. constructor.
  - destruct HU as (s & Hh & HF). destruct (calls_total P E s c HP (HR i s Hh) HF) as (k & s' & Hc & _). eexists _, _. econstructor; eauto.
  - destruct HU as (s & Hh). assert (exists k o, c_ask P E s q = Ret (k, o)) as (k & o & Hq).
    { destruct (Classical_Prop.classic (match q with CWindow win => (win <= 4294967295)%N | _ => True end)) as [Hw|Hw].
      - destruct (ask_code P E s q HP HB (HR i s Hh) Hw) as (r & _ & Hc). eauto.
      - destruct q as [| | |win| | | | | |]; try (now destruct Hw). rewrite window_beyond by lia. eauto. }
    eexists _, _. econstructor; eauto.
  - destruct HU as (ss & HF). destruct (multiples_total P E (map cs_internal ss) HP HB) as ((r & Hr) & _).
    { rewrite Forall_map. clear - HF HR HP. induction HF as [|i s is ss Hh HF IH]; constructor; auto. apply (creachable_wrapped P E s HP). eauto. }
    destruct (c_out r) as (k, o) eqn:EO. exists (SawValue k o), w. eapply acts_global; [exact HF|]. unfold c_loudness_global_multiple. rewrite Hr. cbn [obind]. now rewrite EO.
  - destruct HU as (ss & HF). destruct (multiples_total P E (map cs_internal ss) HP HB) as (_ & (r & Hr)).
    { rewrite Forall_map. clear - HF HR HP. induction HF as [|i s is ss Hh HF IH]; constructor; auto. apply (creachable_wrapped P E s HP). eauto. }
    destruct (c_out r) as (k, o) eqn:EO. exists (SawValue k o), w. eapply acts_range; [exact HF|]. unfold c_loudness_range_multiple. rewrite Hr. cbn [obind]. now rewrite EO.
Qed.
Lemma program_sound P E w ks os w' : is_64bit P -> sound P E w -> program P E w ks os w' -> sound P E w'.
Proof. intros HP HR H. induction H; auto. apply IHprogram. eapply acts_sound; eauto. Qed.
Lemma start_sound P E n : sound P E (start n).
Proof. intros i s H. unfold held, start in H. apply nth_error_In in H. apply repeat_spec in H. discriminate H. Qed.

(** * Independence *)
Lemma acts_other P E w k o w1 i : acts P E w k o w1 -> changes i k = false -> nth_error w1 i = nth_error w i.
Proof.
  intros HS Hk. destruct HS; cbn [changes] in Hk; auto; apply Nat.eqb_neq in Hk; now apply nth_replace_other.
Qed.
Lemma acts_length P E w k o w1 : acts P E w k o w1 -> length w1 = length w.
Proof. intros HS. destruct HS; auto using replace_length. Qed.
Lemma acts_about P E w v k o w1 i : acts P E w k o w1 -> proper_use P E w k -> about i k = true -> nth_error v i = nth_error w i ->
  exists v1, acts P E v k o v1 /\ proper_use P E v k /\ nth_error v1 i = nth_error w1 i.
Proof.
  intros HS HU Hk Hv. assert (forall x, i < length w -> nth_error (replace v i x) i = nth_error (replace w i x) i) as X.
  { intros x Hl. rewrite !nth_replace; auto. apply nth_error_Some. rewrite Hv. now apply nth_error_Some. }
  assert (forall s, held w i s -> held v i s) as Y by (unfold held; congruence).
  assert (forall s, held w i s -> i < length w) as Z by (intros s Hs; apply nth_error_Some; unfold held in Hs; congruence).
  destruct HS as [j ch r m s Hi|j| |j c s k s' Hh Hc|j q s k o Hh Hq|is ss k o Hh Hq|is ss k o Hh Hq]; cbn [about] in Hk; try discriminate Hk; apply Nat.eqb_eq in Hk; subst j; cbn [proper_use] in HU.
  - exists (replace v i s). split; [now constructor|]. split; [cbn; rewrite Hv; tauto|]. apply X. apply nth_error_Some. destruct HU as (-> & _). discriminate.
  - exists (replace v i None). split; [constructor|]. split; [|now apply X]. cbn. apply nth_error_Some. rewrite Hv. now apply nth_error_Some.
  - exists (replace v i (Some s')). split; [econstructor; eauto|]. split; [|eauto]. destruct HU as (s0 & H1 & H2). exists s0. auto.
  - exists v. split; [econstructor; eauto|]. split; auto. cbn. eauto.
Qed.
Lemma restricted P E i f : (forall k, f k = true -> about i k = true) -> (forall k, changes i k = true -> f k = true) ->
  forall w ks os w', program P E w ks os w' -> forall v, nth_error v i = nth_error w i ->
  exists v', program P E v (List.filter f ks) (chosen f ks os) v' /\ nth_error v' i = nth_error w' i.
Proof.
  intros Hf1 Hf2. induction 1 as [w|w k o w1 ks os w2 HU HS HP IH]; intros v Hv.
  { exists v. split; [constructor|auto]. }
  unfold chosen. cbn [List.filter combine fst]. destruct (f k) eqn:Ek.
  - destruct (acts_about P E w v k o w1 i HS HU (Hf1 k Ek) Hv) as (v1 & A1 & A2 & A3). destruct (IH v1 A3) as (v' & B1 & B2).
    exists v'. split; auto. cbn [map snd]. econstructor; eauto.
  - apply IH. rewrite Hv. symmetry. eapply acts_other; eauto. destruct (changes i k) eqn:EC; auto. rewrite (Hf2 k EC) in Ek. discriminate Ek.
Qed.

(** * The statements about executions *)
Lemma executes P E A n ks os w : allocator_contract A -> program P E (start n) ks os w ->
  exists h vars, execute_all P E A (begin n) ks = Ret (os, (h, vars)) /\ length h = 2 * live w /\ NoDup (map fst h) /\ Forall2 (fun p x => p = None <-> x = None) vars w.
Proof.
  intros HA HP. destruct (execute_program P E A HA _ _ _ _ HP _ _ (matches_start n)) as ((h, vars) & l & He & HM).
  exists h, vars. split; [exact He|]. split; [exact (matches_live _ _ _ HM)|]. split; [apply HM|exact (matches_null _ _ _ HM)].
Qed.
Lemma execute_app P E A ks1 ks2 : forall W, execute_all P E A W (ks1 ++ ks2) =
  '(os1, W1) <- execute_all P E A W ks1 ;; '(os2, W2) <- execute_all P E A W1 ks2 ;; Ret (os1 ++ os2, W2).
Proof.
  induction ks1 as [|k ks1 IH]; intros W; cbn [app execute_all obind].
  - destruct (execute_all P E A W ks2) as [(os, W')| | |]; reflexivity.
  - destruct (execute P E A W k) as [(o, W1)| | |]; cbn [obind]; auto. rewrite IH.
    destruct (execute_all P E A W1 ks1) as [(os1, W2)| | |]; cbn [obind]; auto. destruct (execute_all P E A W2 ks2) as [(os2, W3)| | |]; reflexivity.
Qed.
Lemma program_snoc P E w ks os w1 k o w2 : program P E w ks os w1 -> proper_use P E w1 k -> acts P E w1 k o w2 -> program P E w (ks ++ [k]) (os ++ [o]) w2.
Proof. intros H. induction H; intros HU HS; cbn; econstructor; eauto. constructor. Qed.
Lemma progress P E A n ks os w k : is_64bit P -> bsearch_contract E -> allocator_contract A -> program P E (start n) ks os w -> proper_use P E w k ->
  exists o w', program P E (start n) (ks ++ [k]) (os ++ [o]) w'.
Proof.
  intros HP HB HA H HU. destruct (acts_total P E w k HP HB (program_sound P E _ _ _ _ HP (start_sound P E n) H) HU) as (o & w' & HS).
  exists o, w'. eapply program_snoc; eauto.
Qed.
Lemma independent P E A n i ks os w : allocator_contract A -> program P E (start n) ks os w ->
  exists W W', execute_all P E A (begin n) ks = Ret (os, W) /\ execute_all P E A (begin n) (List.filter (about i) ks) = Ret (chosen (about i) ks os, W').
Proof.
  intros HA HP. destruct (restricted P E i (about i)) with (w := start n) (ks := ks) (os := os) (w' := w) (v := start n) as (v' & HV & _); auto.
  { intros [] H; cbn in *; auto; discriminate. }
  destruct (execute_program P E A HA _ _ _ _ HP _ _ (matches_start n)) as (W & l & He & _).
  destruct (execute_program P E A HA _ _ _ _ HV _ _ (matches_start n)) as (W' & l' & He' & _). eauto.
Qed.
Lemma queries_idle P E A n i ks os w k : is_64bit P -> bsearch_contract E -> allocator_contract A -> program P E (start n) ks os w ->
  about i k = true -> proper_use P E w k ->
  exists o os' W W', execute_all P E A (begin n) (ks ++ [k]) = Ret (os ++ [o], W) /\ execute_all P E A (begin n) (List.filter (changes i) ks ++ [k]) = Ret (os' ++ [o], W').
Proof.
  intros HP HB HA H Hk HU. destruct (restricted P E i (changes i)) with (w := start n) (ks := ks) (os := os) (w' := w) (v := start n) as (v' & HV & Hv'); auto.
  { intros [] X; cbn in *; auto; discriminate. }
  destruct (acts_total P E w k HP HB (program_sound P E _ _ _ _ HP (start_sound P E n) H) HU) as (o & w1 & HS).
  destruct (acts_about P E w v' k o w1 i HS HU Hk Hv') as (v1 & A1 & A2 & _).
  pose proof (program_snoc _ _ _ _ _ _ _ _ _ H HU HS) as H1. pose proof (program_snoc _ _ _ _ _ _ _ _ _ HV A2 A1) as H2.
  destruct (execute_program P E A HA _ _ _ _ H1 _ _ (matches_start n)) as (W & l & He & _).
  destruct (execute_program P E A HA _ _ _ _ H2 _ _ (matches_start n)) as (W' & l' & He' & _). eexists _, _, _, _. split; eauto.
Qed.

(** destroying *)
Lemma destroy_twice h p h1 v1 : h_destroy h (Some p) = Ret (v1, h1) -> v1 = Some None /\ h_destroy h1 v1 = Ret (Some None, h1) /\ h_destroy h None = Ret (None, h).
Proof.
  intros H. assert (v1 = Some None) as ->.
  { unfold h_destroy in H. destruct p as [a|]; [|injection H as <- _; auto]. destruct (load h a) as [[m c r b|]| | |]; cbn [obind] in H; try discriminate H.
    destruct (load h b) as [[|]| | |]; cbn [obind] in H; try discriminate H. destruct (free h b) as [h2| | |]; cbn [obind] in H; try discriminate H.
    destruct (free h2 a) as [h3| | |]; cbn [obind] in H; try discriminate H. injection H as <- _. auto. }
  auto.
Qed.

(** a concrete allocator and program *)
Definition next_free : allocator := fun h => S (list_max (map fst h)).
Lemma next_free_ok : allocator_contract next_free.
Proof.
  intros h HI. unfold next_free in HI. assert (list_max (map fst h) <= list_max (map fst h)) as H by lia. rewrite list_max_le, Forall_forall in H. apply H in HI. lia.
Qed.
Definition session_example : list command :=
  [KInit 0 2 48000 63; KInit 1 1 20 1; KCall 0 (CSetMaxWindow 5000); KCall 0 (CAddShort [1; 2; 3; 4]%Z 2); KAsk 0 (CSamplePeak 1); KGlobal [0; 0]; KDestroy 0; KAsk 1 CMomentary; KDestroy 0; KDestroyNull;
   KDestroy 1].
Lemma session_program : exists os w, program x86_64 env0 (start 2) session_example os w /\ live w = 0 /\ length os = 11.
Proof.
  assert (is_64bit x86_64) as HP by reflexivity. pose proof env0_bsearch as HB.
  destruct (init_spec x86_64 env0 2 48000 63 HP) as (H1 & _). destruct H1 as (e1 & _ & Hm1 & I1). { repeat split; try reflexivity; vm_compute; congruence. }
  destruct (init_spec x86_64 env0 1 20 1 HP) as (H2 & _). destruct H2 as (e2 & _ & Hm2 & I2). { repeat split; try reflexivity; vm_compute; congruence. }
  set (s1 := {| cs_internal := e1 |}) in *. set (s2 := {| cs_internal := e2 |}) in *.
  assert (creachable x86_64 env0 s1) as R1. { eapply creach_init; [exact I1|]. unfold s1. cbn [cs_internal]. rewrite Hm1. apply supported_dec. reflexivity. }
  assert (creachable x86_64 env0 s2) as R2. { eapply creach_init; [exact I2|]. unfold s2. cbn [cs_internal]. rewrite Hm2. apply supported_dec. reflexivity. }
  destruct (calls_total x86_64 env0 s1 (CSetMaxWindow 5000) HP R1 I) as (k3 & s3 & C3 & R3 & _).
  assert (cs_channels s3 = 2%N) as N3.
  { destruct (Classical_Prop.classic (unchanged s1 (CSetMaxWindow 5000))) as [HU|HU].
    - rewrite (call_unchanged x86_64 env0 s1 _ (creachable_wrapped _ _ _ HP R1)) in C3; auto; [injection C3 as _ <-; reflexivity|cbn; lia].
    - destruct (call_passed x86_64 env0 s1 (CSetMaxWindow 5000) HP (creachable_wrapped _ _ _ HP R1) I) as (o & r & s' & _ & _ & _ & C & _ & _ & _ & Hc & _); auto; [cbn; lia|].
      rewrite C in C3. injection C3 as _ <-. rewrite Hc. reflexivity. }
  assert (fair x86_64 s3 (CAddShort [1; 2; 3; 4]%Z 2)) as F4. { cbn [fair]. unfold holds. rewrite N3. cbn. lia. }
  destruct (calls_total x86_64 env0 s3 (CAddShort [1; 2; 3; 4]%Z 2) HP R3 F4) as (k4 & s4 & C4 & R4 & _).
  destruct (ask_code x86_64 env0 s4 (CSamplePeak 1) HP HB R4 I) as (r5 & _ & C5).
  destruct (multiple_codes x86_64 env0 [s4; s4] HP HB) as (g & l & _ & _ & C6 & _); [repeat constructor; auto|].
  destruct (ask_code x86_64 env0 s2 CMomentary HP HB R2 I) as (r8 & _ & C8).
  assert (supported 63%N 48000) as S1 by (apply supported_dec; reflexivity). assert (supported 1%N 20) as S2 by (apply supported_dec; reflexivity).
  eexists _, _. split.
  - unfold session_example.
    eapply program_cons; [|apply acts_init; exact I1|]; [split; [reflexivity|intros _; exact S1]|]. cbn [start repeat replace].
    eapply program_cons; [|apply acts_init; exact I2|]; [split; [reflexivity|intros _; exact S2]|]. cbn [replace].
    eapply program_cons; [exists s1; split; [reflexivity|exact I]|eapply acts_call; [reflexivity|exact C3]|]. cbn [replace].
    eapply program_cons; [exists s3; split; [reflexivity|exact F4]|eapply acts_call; [reflexivity|exact C4]|]. cbn [replace].
    eapply program_cons; [exists s4; reflexivity|eapply acts_ask; [reflexivity|exact C5]|].
    eapply program_cons; [exists [s4; s4]; repeat constructor|eapply acts_global; [|exact C6]; repeat constructor|].
    eapply program_cons; [cbn; lia|apply acts_destroy|]. cbn [replace].
    eapply program_cons; [exists s2; reflexivity|eapply acts_ask; [reflexivity|exact C8]|].
    eapply program_cons; [cbn; lia|apply acts_destroy|]. cbn [replace].
    eapply program_cons; [exact I|apply acts_destroy_null|].
    eapply program_cons; [cbn; lia|apply acts_destroy|]. cbn [replace]. apply program_nil.
  - split; reflexivity.
Qed.
(** what the contract excludes: a handle used after it was destroyed *)
Lemma after_destroy : execute_all x86_64 env0 next_free (begin 1) [KDestroy 0; KAsk 0 CMomentary] = UB.
Proof. reflexivity. Qed.
