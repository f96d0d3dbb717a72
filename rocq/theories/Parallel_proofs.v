(** Analysis of one signal in several overlapping chunks (C42). *)
From Coq Require Import List Arith NArith ZArith Bool Lia.
From Flocq Require Import IEEE754.BinarySingleNaN.
From Verif Require Import Prelude Float Env Utils Interp History TruePeak Filter Ebur128 Ref Prelude_proofs Utils_proofs
  TruePeak_proofs Filter_proofs Geometry_proofs History_proofs Ebur128_proofs Ops_proofs Chunk_proofs Spec Reach_proofs
  Input_proofs Trace_proofs Feed_proofs Stream_proofs Loud_proofs Seed_proofs.
Import ListNotations.
Local Open Scope nat_scope.

(** * The schedule *)
Lemma filter_map_shift (f : nat -> bool) n : forall m a, List.filter f (seq (n + a) m) = map (Nat.add n) (List.filter (fun t => f (n + t)) (seq a m)).
Proof.
  induction m as [|m IH]; intros a; cbn [seq List.filter map]; [reflexivity|].
  rewrite <- Nat.add_succ_r. rewrite IH. now destruct (f (n + a)).
Qed.
Lemma block_ends_shift s n m : 1 <= s -> n mod s = 0 -> 
  block_ends s (n + 3 * s) (n + m) = map (Nat.add n) (block_ends s 0 m).
Proof.
  intros Hs Hn. unfold block_ends. rewrite Nat.sub_0_r.
  destruct (Nat.le_gt_cases m (3 * s)) as [Hm|Hm].
  - replace (n + m - (n + 3 * s)) with 0 by lia. cbn [seq List.filter].
    rewrite (filter_none _ (seq 1 m)); [reflexivity|]. intros x Hx. apply in_seq in Hx.
    destruct (Nat.leb_spec (4 * s) x); [lia|reflexivity].
  - replace (n + m - (n + 3 * s)) with (m - 3 * s) by lia. replace (S (n + 3 * s)) with (n + S (3 * s)) by lia.
    rewrite filter_map_shift. f_equal. replace m with (3 * s + (m - 3 * s)) at 2 by lia.
    rewrite seq_app, filter_app, (filter_none _ (seq 1 (3 * s))).
    2:{ intros x Hx. apply in_seq in Hx. destruct (Nat.leb_spec (4 * s) x); [lia|reflexivity]. }
    cbn [app]. apply filter_ext_in. intros t Ht. apply in_seq in Ht.
    assert ((n + t) mod s = t mod s) as Hmod.
    { apply Nat.mod_divides in Hn; [|lia]. destruct Hn as (c & ->). rewrite Nat.add_comm, Nat.mul_comm. now apply Nat.mod_add; lia. }
    rewrite Hmod. destruct (Nat.eqb_spec (t mod s) 0) as [Hz|Hz]; [|now rewrite !andb_false_r]. rewrite !andb_true_r.
    apply Nat.mod_divides in Hz; [|lia]. destruct Hz as (c & ->).
    assert (4 <= c) by nia. destruct (Nat.leb_spec (4 * s) (s * c)), (Nat.leb_spec (4 * s) (n + s * c)); auto; nia.
Qed.
(** the recipe: the blocks of all chunks are those of the whole signal, each once *)
Lemma chunk_blocks s N1 N2 : 1 <= s -> N1 mod s = 0 -> 3 * s <= N1 -> N1 <= N2 ->
  block_ends s 0 N2 = block_ends s 0 N1 ++ map (Nat.add (N1 - 3 * s)) (block_ends s 0 (N2 - (N1 - 3 * s))).
Proof.
  intros Hs Hm H3 H2. rewrite (block_ends_app s 0 N1 N2) by lia. f_equal.
  rewrite <- block_ends_shift.
  - f_equal; lia.
  - auto.
  - apply Nat.mod_divides in Hm; [|lia]. destruct Hm as (c & ->).
    replace (s * c - 3 * s) with ((c - 3) * s) by nia. apply Nat.mod_mul. lia.
Qed.
Lemma many_chunk_blocks s : 1 <= s -> forall cuts n, n mod s = 0 -> 3 * s <= n ->
  Forall (fun k => k mod s = 0) cuts -> increasing n cuts ->
  block_ends s 0 (last cuts n) = block_ends s 0 n ++ concat (chunk_ends s n cuts).
Proof.
  intros Hs. induction cuts as [|k cuts IH]; intros n Hm H3 HF Hi; cbn [chunk_ends concat increasing] in *.
  - now rewrite app_nil_r.
  - inversion_clear HF. destruct Hi as (Hk & Hi).
    assert (last (k :: cuts) n = last cuts k) as ->.
    { destruct cuts; [reflexivity|]. cbn [last]. clear. revert n0. induction cuts; intros; [reflexivity|]. cbn [last]. apply IHcuts. }
    rewrite IH by (auto; lia). rewrite (chunk_blocks s n k) by (auto; lia). now rewrite <- app_assoc.
Qed.

(** * The measured signal after a run of add calls *)
Lemma per_channel_capp P E e : p_ftz P = true -> forall cm t x y, length cm = length t -> length x = length t -> length y = length t ->
  per_channel (track_after P E e) cm (per_channel (track_after P E e) cm t x) y = per_channel (track_after P E e) cm t (capp x y).
Proof.
  intros HP. induction cm as [|ch cm IH]; intros [|tr t] [|c x] [|d y] H1 H2 H3; try discriminate; [reflexivity|].
  cbn [capp map2]. rewrite !per_channel_cons. f_equal; [now apply track_join|]. apply IH; auto.
Qed.
Lemma session_audio P E : is_64bit P -> forall l e t e' t',
  taped_session P E e t (map OpAdd l) e' t' -> taped P E e t -> Forall (audio_ok (e_channels e)) l.
Proof.
  intros HP. induction l as [|a l IH]; intros e t e' t' HS HT; [constructor|].
  inversion HS as [e0 t0|e0 t0 o0 r e1 os e2 t2 H1 H2 H6]; subst.
  pose proof (taped_step P E e _ r e1 t HT H1 H2) as HT1. specialize (IH _ _ _ _ H6 HT1).
  pose proof (adds_config P E e t a r e1 HP HT H1 H2) as C. destruct (settings_hop _ _ C) as (_ & _ & _ & _ & C5 & _).
  rewrite C5 in IH. constructor; [exact (admissible_op_ok _ _ H1)|exact IH].
Qed.
Lemma session_tape P E : is_64bit P -> p_ftz P = true -> forall l e t e' t' cols,
  taped_session P E e t (map OpAdd l) e' t' -> taped P E e t -> all_input P (e_channels e) l = Some cols ->
  t' = per_channel (track_after P E e) (e_cmap e) t cols /\ length cols = length t.
Proof.
  intros HP HF. induction l as [|a l IH]; intros e t e' t' cols HS HT Hin;
    inversion HS as [e0 t0|e0 t0 o0 r e1 os e2 t2 H1 H2 H6]; subst.
  - cbn [all_input] in Hin. injection Hin as <-.
    destruct (taped_ok P E e' t' HP HT) as (g & L & (H & _) & (Y & _)). split.
    2:{ unfold no_audio. rewrite repeat_length. symmetry. apply Y. }
    symmetry. apply per_channel_none; auto.
    + rewrite (i_cmap _ _ _ _ _ H). symmetry. apply Y.
    + unfold no_audio. rewrite repeat_length. symmetry. apply Y.
    + apply Forall_repeat'. reflexivity.
  - cbn [all_input] in Hin. destruct (input P (e_channels e) a) as [x|] eqn:Ex; [|discriminate].
    destruct (all_input P (e_channels e) l) as [y|] eqn:Ey; [|discriminate]. injection Hin as <-.
    pose proof (taped_step P E e _ r e1 t HT H1 H2) as HT1.
    pose proof (adds_config P E e t a r e1 HP HT H1 H2) as C. destruct (settings_hop _ _ C) as (C1 & C2 & C3 & C4 & C5).
    assert (e_channels e1 = e_channels e) as HC by (unfold settings in C; congruence).
    rewrite <- HC in Ey. destruct (IH e1 _ e' t' y H6 HT1 Ey) as (-> & Hy).
    rewrite (tape_add_one P E e t a x HP HF HT H1 Ex).
    destruct (taped_ok P E e t HP HT) as (g & L & HG & (Y & _)). pose proof HG as (H & _).
    destruct (taped_ok P E e1 _ HP HT1) as (g1 & L1 & HG1 & _). pose proof HG1 as (H0 & Ht0 & _).
    pose proof (input_cases_ok P E e g L a HG (admissible_op_ok _ _ H1)) as Hi. rewrite Ex in Hi. destruct Hi as ((Hc1 & Hc2) & _).
    assert (track_after P E e1 = track_after P E e) as ->.
    { unfold track_after, capacity. assert (e_rate e1 = e_rate e) as -> by (unfold settings in C; congruence).
      assert (e_window e1 = e_window e) as -> by (unfold settings in C; congruence). reflexivity. }
    assert (e_cmap e1 = e_cmap e) as -> by (unfold settings in C; congruence).
    rewrite (tape_add_one P E e t a x HP HF HT H1 Ex) in Hy.
    assert (length (e_cmap e) = length t) as Hm by (rewrite (i_cmap _ _ _ _ _ H); symmetry; apply Y).
    assert (length x = length t) as Hx by (rewrite Hc1; symmetry; apply Y).
    rewrite per_channel_length in Hy by congruence.
    change (join x y) with (capp x y). split.
    + apply per_channel_capp; auto.
    + rewrite capp_length; congruence.
Qed.

(** * The same frames *)
Lemma energy_ext L w : forall roles x y, length x = length roles -> length y = length roles ->
  same_recent w roles x y -> (forall c ch, nth_error roles c = Some ch -> ch <> Unused ->
    length (nth c x []) mod L = length (nth c y []) mod L) ->
  energy L w roles x = energy L w roles y.
Proof.
  intros roles x y H1 H2 HR HL. unfold energy. f_equal. generalize f64_zero as s. revert x y H1 H2 HR HL.
  induction roles as [|ch roles IH]; intros [|a x] [|b y] H1 H2 HR HL s; try discriminate; [reflexivity|].
  cbn [combine fold_left].
  assert ((if unused ch then s else f64_add s (gain ch (sum_of_squares (ring_order (length a mod L) (recent w a))))) =
          (if unused ch then s else f64_add s (gain ch (sum_of_squares (ring_order (length b mod L) (recent w b)))))) as ->.
  { destruct (unused ch) eqn:Eu; [reflexivity|]. assert (ch <> Unused) as Hu by (intros ->; discriminate).
    rewrite (HR 0 ch eq_refl Hu : recent w a = recent w b).
    now rewrite (HL 0 ch eq_refl Hu : length a mod L = length b mod L). }
  apply IH; auto.
  - intros c ch' Hc. apply (HR (S c) ch' Hc).
  - intros c ch' Hc. apply (HL (S c) ch' Hc).
Qed.

Lemma per_channel_nth {A B C D} (f : A -> B -> C -> D) : forall l m n c a b d, nth_error l c = Some a ->
  nth_error m c = Some b -> nth_error n c = Some d -> nth_error (per_channel f l m n) c = Some (f a b d).
Proof.
  induction l as [|a l IH]; intros [|b m] [|d n] [|c] a' b' d' H1 H2 H3; try discriminate.
  - cbn in *. injection H1 as ->. injection H2 as ->. injection H3 as ->. reflexivity.
  - rewrite per_channel_cons. cbn [nth_error] in *. now apply IH.
Qed.
Lemma nth_of_error {A} (l : list A) c x d : nth_error l c = Some x -> nth c l d = x.
Proof. revert c. induction l; intros [|c] H; try discriminate; cbn in *; [now injection H|auto]. Qed.

Lemma nth_firstn {A} c k (l : list (list A)) : nth c (map (firstn k) l) [] = firstn k (nth c l []).
Proof. revert c. induction l as [|x l IH]; intros [|c]; cbn [map nth]; auto using firstn_nil. all: symmetry; apply firstn_nil. Qed.
Lemma chunk_frames P E e t e' t' f u f' u' l l' cols : is_64bit P -> p_ftz P = true ->
  taped P E e t -> taped P E f u -> settings f = settings e -> fst (memories f) = fst (memories e) ->
  taped_session P E e t (map OpAdd l) e' t' -> taped_session P E f u (map OpAdd l') f' u' ->
  all_input P (e_channels e) l = Some cols -> all_input P (e_channels e) l' = Some cols ->
  frames_of (signals u) = 0 ->
  let n := frames_of (signals t) in
  forall w k, w <= k -> k <= frames_of cols ->
    same_recent w (e_cmap e) (map (firstn k) (signals u')) (map (firstn (n + k)) (signals t')) /\
    (n mod capacity e = 0 -> energy_at (capacity e) w (e_cmap e) (signals u') k =
                             energy_at (capacity e) w (e_cmap e) (signals t') (n + k)).
Proof.
  intros HP HF HT HU Hset Hmem HS HS' Hin Hin' Hu0 n w k Hw Hk.
  destruct (settings_hop _ _ Hset) as (C1 & C2 & C3 & C4 & C5 & C6 & C7).
  destruct (session_tape P E HP HF l e t e' t' cols HS HT Hin) as (Et & Lt).
  rewrite <- C5 in Hin'. destruct (session_tape P E HP HF l' f u f' u' cols HS' HU Hin') as (Eu & Lu).
  destruct (taped_ok P E e t HP HT) as (g & L & (H & _) & (Y & _)).
  destruct (taped_ok P E f u HP HU) as (g1 & L1 & (H1 & _) & (Y1 & _)).
  assert (track_after P E f = track_after P E e) as Htr by (unfold track_after; now rewrite C2, C6).
  rewrite Htr, C3 in Eu.
  pose proof (y_state _ _ _ _ _ Y) as S0. pose proof (y_state _ _ _ _ _ Y1) as S1.
  unfold memories in Hmem. cbn [fst] in Hmem. rewrite <- S0, <- S1 in Hmem.
  pose proof (y_sig _ _ _ _ _ Y) as G0. pose proof (y_sig _ _ _ _ _ Y1) as G1. fold n in G0. rewrite Hu0 in G1.
  assert (length t = length u) as Htu by congruence.
  assert (length (e_cmap e) = length t) as Hm by (rewrite (i_cmap _ _ _ _ _ H); symmetry; apply Y).
  assert (columns (e_channels e) cols) as (Cc1 & Cc2).
  { destruct (taped_ok P E e t HP HT) as (g' & L' & (H' & Ht' & _) & _).
    apply (all_input_columns P E L' l e g' cols H' Ht'); [|exact Hin]. exact (session_audio P E HP l e t e' t' HS HT). }
  assert (forall c ch, nth_error (e_cmap e) c = Some ch -> ch <> Unused ->
    exists ys zs, length ys = n /\ length zs = frames_of cols /\ nth c (signals t') [] = ys ++ zs /\ nth c (signals u') [] = zs) as HX.
  { intros c ch Hc Hn. assert (c < length t) as Hlt by (rewrite <- Hm; apply nth_error_Some; congruence).
    destruct (nth_error t c) as [tr|] eqn:E1; [|apply nth_error_None in E1; lia].
    destruct (nth_error u c) as [tu|] eqn:E2; [|apply nth_error_None in E2; lia].
    destruct (nth_error cols c) as [x|] eqn:E3; [|apply nth_error_None in E3; lia].
    assert (fst tu = fst tr) as Hfst.
    { pose proof (map_nth_error fst c t E1) as M1. pose proof (map_nth_error fst c u E2) as M2. congruence. }
    assert (length (snd tr) = n) as L0.
    { rewrite Forall_forall in G0. apply G0. eapply nth_error_In; eauto. }
    assert (snd tu = []) as L2.
    { rewrite Forall_forall in G1. apply length_zero_iff_nil. apply G1. eapply nth_error_In; eauto. }
    pose proof (per_channel_nth (track_after P E e) _ _ _ _ _ _ _ Hc E1 E3) as N1. rewrite <- Et in N1.
    pose proof (per_channel_nth (track_after P E e) _ _ _ _ _ _ _ Hc E2 E3) as N2. rewrite <- Eu in N2.
    pose proof (map_nth_error snd c t' N1) as M1. pose proof (map_nth_error snd c u' N2) as M2.
    apply (nth_of_error _ _ _ []) in M1, M2. unfold signals.
    unfold track_after in M1, M2. assert (unused ch = false) as Hch by (destruct ch; auto; congruence).
    rewrite Hch in M1, M2. rewrite Hfst, L2 in M2.
    destruct (weigh P E (e_rate e) (fst tr) x) as (mm, zs) eqn:Ew. cbn [snd] in M1, M2.
    exists (snd tr), zs. spl; auto.
    assert (length x = frames_of cols) as Hx.
    { rewrite Forall_forall in Cc2. apply Cc2. eapply nth_error_In; eauto. }
    rewrite <- Hx.
    destruct (filter_coefficients E (f64_of_N (e_rate e))) as (b, a) eqn:Hco. symmetry in Hco.
    rewrite (weigh_reading P E e b a) in Ew by auto. apply pair_equal_spec in Ew. destruct Ew as (_ & <-). apply chan_ys_length. }
  assert (same_recent w (e_cmap e) (map (firstn k) (signals u')) (map (firstn (n + k)) (signals t'))) as HS1.
  { intros c ch Hc Hn. destruct (HX c ch Hc Hn) as (ys & zs & X1 & X2 & X3 & X4).
    rewrite !nth_firstn, X3, X4.
    rewrite <- X1, firstn_app_2.
    assert (length (firstn k zs) = k) as Hl by (rewrite firstn_length; lia).
    rewrite !recent_enough by (rewrite ?app_length; lia).
    rewrite app_length, Hl. replace (length ys + k - w) with (length ys + (k - w)) by lia.
    rewrite skipn_app. rewrite (skipn_all2 ys) by lia. cbn [app]. f_equal. lia. }
  split; [exact HS1|]. intros Hmod. unfold energy_at. apply energy_ext; auto.
  - rewrite map_length. unfold signals. rewrite map_length, Eu, per_channel_length by congruence. congruence.
  - rewrite map_length. unfold signals. rewrite map_length, Et, per_channel_length by congruence. congruence.
  - intros c ch Hc Hn. destruct (HX c ch Hc Hn) as (ys & zs & X1 & X2 & X3 & X4).
    rewrite !nth_firstn, X3, X4.
    rewrite !firstn_length, app_length, X1, X2. replace (Nat.min k (frames_of cols)) with k by lia.
    replace (Nat.min (n + k) (n + frames_of cols)) with (n + k) by lia.
    assert (capacity e <> 0) as Hc0 by (rewrite (capacity_L _ _ _ _ _ H); pose proof (inv_L_pos _ _ _ _ _ H); lia).
    clearbody n.
    apply Nat.mod_divides in Hmod; [|exact Hc0]. destruct Hmod as (q & ->). rewrite Nat.add_comm, Nat.mul_comm. symmetry. now apply Nat.mod_add.
Qed.
