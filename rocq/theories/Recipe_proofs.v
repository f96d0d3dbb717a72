(** A programme measured in chunks against the exact measurement of the whole (C75). *)
From Coq Require Import List Arith NArith ZArith Bool Lia Reals Lra Psatz.
From Flocq Require Import Core IEEE754.BinarySingleNaN.
From Verif Require Import Prelude Float Env Utils History Filter Ebur128 Spec Float_proofs Filter_proofs Ebur128_proofs Ops_proofs Input_proofs Stream_proofs Loud_proofs Feed_proofs Reach_proofs Trace_proofs Parallel_proofs Capi_proofs Blocks_proofs Gating_proofs Answers_proofs Range_proofs
  Spec_real Spec_filter Spec_coeff Spec_accuracy Spec_history Spec_exact Spec_programme Accuracy_proofs Lufs_proofs Programme_proofs Kweight_proofs Coeff_proofs Noise_proofs Heard_proofs Tight_proofs Bound_proofs Follow_proofs Rms_proofs Value_proofs TruePeak_proofs Energy_proofs Exact_proofs Pass_proofs Report_proofs Played_proofs Tail_proofs Spec_chunks.
Import ListNotations.
Import Spec_history. Import Spec_exact.
Local Open Scope R_scope.

(** * One channel of one analyzer *)
Section Fed.
Variables (P : platform) (E : ext) (c : nat).
Hypothesis HP : is_64bit P.
Hypothesis HT : tan_precise E.
Hypothesis HW : powf_accurate E.
Lemma fed_taped e t seed xs : fed P E c e t seed xs -> taped P E e t.
Proof.
  induction 1 as [channels rate m e Hn Hs Hc|e t seed xs r e' H IH Hs|e t seed a r e' cols H IH Ha Hs Hi Hu|e t seed xs a r e' cols H IH Ha Hs Hi Hu|e t seed xs o r e' H IH Ha Hs N1 N2 N3 N4 N5].
  - econstructor; eauto.
  - apply (taped_step P E e OpReset r e' t); auto. exact I.
  - apply (taped_step P E e (OpSeed a) r e' t); auto.
  - apply (taped_step P E e (OpAdd a) r e' t); auto.
  - replace t with (tape_after P E e o t); [apply (taped_step P E e o r e' t); auto|].
    destruct o; cbn [tape_after]; auto; try congruence.
Qed.
Lemma fed_good e t seed xs : fed P E c e t seed xs -> audio_rate (e_rate e) -> exists memory ys pre, nth_error t c = Some (memory, ys) /\ length pre = length seed /\ length ys = length xs /\
  forall M W, 0 <= M -> W <= 2 ^ 900 -> (M + noise_a P W) * swell (e_rate e) <= W -> samples_below M (seed ++ xs) -> good P (e_rate e) M W (seed ++ xs) (pre ++ ys) memory.
Proof.
  assert (forall e n, (c < n)%nat -> exists memory ys pre, nth_error (blank n) c = Some (memory, ys) /\ length pre = length (@nil f64) /\ length ys = length (@nil f64) /\
    forall M W, 0 <= M -> W <= 2 ^ 900 -> (M + noise_a P W) * swell (e_rate e) <= W -> samples_below M ([] ++ []) -> good P (e_rate e) M W ([] ++ []) (pre ++ ys) memory) as Blank.
  { intros e0 n Hc. exists zero5, [], []. split; [apply nth_error_repeat; auto|]. do 2 (split; [reflexivity|]). intros. apply good_start. }
  induction 1 as [channels rate m e Hn Hs Hc|e t seed xs r e' H IH Hs|e t seed a r e' cols H IH Ha Hs Hi Hu|e t seed xs a r e' cols H IH Ha Hs Hi Hu|e t seed xs o r e' H IH Ha Hs N1 N2 N3 N4 N5]; intros HR.
  - now apply Blank.
  - pose proof (fed_taped e t seed xs H) as HT0. destruct (taped_sizes P E e t HP HT0) as (Z1 & Z2 & Z3). apply Blank. rewrite <- Z1.
    destruct (kept_config P E e OpReset r e' HP (taped_reachable _ _ _ _ HT0) I Hs ltac:(discriminate)) as (_ & ER). rewrite ER in *.
    destruct (IH HR) as (m & ys & pre & Hm & _). apply nth_error_Some. congruence.
  - pose proof (fed_taped e t seed [] H) as HT0. destruct (taped_sizes P E e t HP HT0) as (Z1 & Z2 & Z3).
    destruct (kept_config P E e _ r e' HP (taped_reachable _ _ _ _ HT0) Ha Hs ltac:(discriminate)) as (_ & ER). rewrite ER in *.
    destruct (IH HR) as (m & ys & pre & Hm & Hpre & Hys & HF). assert (c < e_channels e)%nat as Hc by (rewrite <- Z1; apply nth_error_Some; congruence).
    destruct (nth_error (e_cmap e) c) as [ch|] eqn:Ec; [|apply nth_error_None in Ec; lia]. rewrite (nth_of_error _ _ _ Unused Ec) in Hu.
    assert (unused ch = false) as Hu' by (destruct ch; auto; congruence).
    destruct (taped_ok P E e t HP HT0) as (g & L & HG & HO). pose proof (input_cases_ok P E e g L a HG (admissible_op_ok _ _ Ha)) as Hic. rewrite Hi in Hic. destruct Hic as ((Hc1 & Hc2) & _).
    destruct (nth_error cols c) as [col|] eqn:Ecol; [|apply nth_error_None in Ecol; lia].
    rewrite (nth_of_error _ _ _ [] Ecol).
    destruct ys as [|]; [|discriminate Hys].
    exists (fst (weigh P E (e_rate e) m col)), [], (pre ++ snd (weigh P E (e_rate e) m col)).
    assert (through P E (e_rate e) [length col] m col = weigh P E (e_rate e) m col) as ET.
    { cbn [through]. rewrite firstn_all. destruct (weigh P E (e_rate e) m col) as (m1, y1). now rewrite app_nil_r. }
    split; [|split; [|split; [reflexivity|]]].
    + cbn [tape_after]. rewrite Hi. rewrite (per_channel_nth _ _ _ _ _ _ _ _ Ec Hm Ecol). unfold seed_track. rewrite Hu'. reflexivity.
    + rewrite !app_length, Hpre, map_length. f_equal. rewrite <- ET. apply through_length. cbn. lia.
    + intros M W HM HW1 HW2 HX. rewrite !app_nil_r in *. apply Forall_app in HX. destruct HX as (X1 & X2).
      destruct (filter_coefficients E (f64_of_N (e_rate e))) as (b, a0) eqn:EF. rewrite <- ET. apply (through_good P E HT HW (e_rate e) M W b a0); auto. cbn; lia.
  - pose proof (fed_taped e t seed xs H) as HT0. destruct (taped_sizes P E e t HP HT0) as (Z1 & Z2 & Z3).
    destruct (kept_config P E e _ r e' HP (taped_reachable _ _ _ _ HT0) Ha Hs ltac:(discriminate)) as (_ & ER). rewrite ER in *.
    destruct (IH HR) as (m & ys & pre & Hm & Hpre & Hys & HF). assert (c < e_channels e)%nat as Hc by (rewrite <- Z1; apply nth_error_Some; congruence).
    destruct (nth_error (e_cmap e) c) as [ch|] eqn:Ec; [|apply nth_error_None in Ec; lia]. rewrite (nth_of_error _ _ _ Unused Ec) in Hu.
    assert (unused ch = false) as Hu' by (destruct ch; auto; congruence).
    destruct (taped_ok P E e t HP HT0) as (g & L & HG & HO). pose proof (input_cases_ok P E e g L a HG (admissible_op_ok _ _ Ha)) as Hic. rewrite Hi in Hic. destruct Hic as ((Hc1 & Hc2) & _).
    destruct (nth_error cols c) as [col|] eqn:Ecol; [|apply nth_error_None in Ecol; lia].
    rewrite (nth_of_error _ _ _ [] Ecol).
    assert (length col = frames_of cols) as Hlen by (rewrite Forall_forall in Hc2; apply Hc2; eapply nth_error_In; eauto).
    set (ks := pieces (frames_of cols) (hop e) (frames_of (signals t)) (frames_of cols)) in *.
    pose proof (pieces_through P E e c ch Ec Hu' ks t cols (m, ys) col Hm Ecol) as HN. cbn [fst snd] in HN.
    assert (list_sum ks = length col) as Hks by (rewrite Hlen; apply pieces_sum; auto).
    exists (fst (through P E (e_rate e) ks m col)), (ys ++ snd (through P E (e_rate e) ks m col)), pre. split; [|split; [|split]]; auto.
    + cbn [tape_after]. rewrite Hi. exact HN.
    + rewrite !app_length, Hys, map_length. f_equal. now apply through_length.
    + intros M W HM HW1 HW2 HX. rewrite !app_assoc in *. apply Forall_app in HX. destruct HX as (X1 & X2).
      destruct (filter_coefficients E (f64_of_N (e_rate e))) as (b, a0) eqn:EF. apply (through_good P E HT HW (e_rate e) M W b a0); auto.
  - pose proof (fed_taped e t seed xs H) as HT0. destruct (kept_config P E e _ r e' HP (taped_reachable _ _ _ _ HT0) Ha Hs N5) as (_ & ER).
    rewrite ER in *. apply IH; auto.
Qed.
End Fed.
Lemma good_exact P rate M xs ys m : audio_rate rate -> 0 <= M <= 2 ^ 400 -> good P rate M (room P rate M) xs ys m -> Forall2 (near_channel P rate M) ys (weighted rate xs).
Proof.
  intros HR HM G. pose proof G as (GL & HX & GF & _).
  destruct (room_ok P rate M HR HM) as (R1 & R2 & R3). set (W := room P rate M) in *.
  pose proof (follows_near P rate M W HR ltac:(lra) R2 xs ys m G) as HN.
  unfold weighted. pose proof (output_19 rate HR (map real xs) M ltac:(lra)) as HO.
  destruct (coefficientsR (coeff_inputsR (IZR (Z.of_N rate)))) as (B, A). cbn [fst snd] in *.
  assert (length (outputsR B A (map real xs)) = length ys) as LX by (unfold outputsR; rewrite filter_run_length, map_length; congruence).
  assert (forall x, In x (map real xs) -> Rabs x <= M) as HXR.
  { intros x Hx. apply in_map_iff in Hx. destruct Hx as (z & <- & Hz). unfold samples_below in HX. rewrite Forall_forall in HX. now apply HX. }
  specialize (HO HXR). rewrite <- GL in HN. revert HN GF HO LX. generalize (outputsR B A (map real xs)). clear - R3. generalize ys. clear ys.
  induction ys as [|y ys IH]; intros [|Y l] HN GF HO LX; try discriminate LX; constructor.
  - split; [now inversion GF|]. split; [|apply HO; now left]. specialize (HN 0%nat ltac:(cbn; lia)). cbn [nth] in HN. lra.
  - apply IH; [|now inversion GF|intros z Hz; apply HO; now right|cbn in LX; congruence]. intros n Hn. specialize (HN (S n) ltac:(cbn; lia)). exact HN.
Qed.
(** samples so much larger that the error of the filter covers what the chunk leaves out *)
Definition wider (rate : N) (M : R) : R := M * (1 + / (4 * (IZR (Z.of_N rate) / 48000) ^ 4)).
Lemma wider_bounds rate M : audio_rate rate -> 0 <= M -> M <= wider rate M <= 8 * M.
Proof.
  intros (HR & _) HM. unfold wider. assert (22050 / 48000 <= IZR (Z.of_N rate) / 48000) as Hq. { assert (22050 <= IZR (Z.of_N rate)) by (apply (IZR_le 22050); lia). lra. }
  assert (1 / 28 <= (IZR (Z.of_N rate) / 48000) ^ 4) as Hp. { apply Rle_trans with ((22050 / 48000) ^ 4); [cbn; lra|]. apply pow_incr. lra. }
  set (p := _ ^ 4) in *. clearbody p. assert (0 < / (4 * p)) by (apply Rinv_0_lt_compat; lra).
  assert (/ (4 * p) <= 7). { replace 7 with (/ (1 / 7)) by field. apply Rinv_le_contravar; lra. } nra.
Qed.
Lemma wider_room rate M : audio_rate rate -> 0 <= M -> 19.5 * M + M / 10 ^ 6 <= 19.5 * wider rate M.
Proof.
  intros (HR & HR2) HM. unfold wider. assert (22050 / 48000 <= IZR (Z.of_N rate) / 48000 <= 16) as Hq. { assert (22050 <= IZR (Z.of_N rate) <= 768000) by (split; apply IZR_le; lia). lra. }
  assert (0 < (IZR (Z.of_N rate) / 48000) ^ 4 <= 16 ^ 4) as Hp. { split; [apply pow_lt; lra|apply pow_incr; lra]. }
  set (p := _ ^ 4) in *. clearbody p. assert (/ (4 * 16 ^ 4) <= / (4 * p)) as Hi by (apply Rinv_le_contravar; lra).
  set (i := / (4 * p)) in *. clearbody i. assert (/ 10 ^ 6 <= 19.5 * i) as Hj by (cbn in *; lra). replace (19.5 * (M * (1 + i))) with (19.5 * M + M * (19.5 * i)) by ring. unfold Rdiv. apply Rplus_le_compat_l. now apply Rmult_le_compat_l.
Qed.
Lemma wider_error P rate M : audio_rate rate -> filter_error P rate (wider rate M) = filter_error P rate M + 1.05 / 10 ^ 6 * M.
Proof.
  intros (HR & _). unfold filter_error, wider. assert (22050 / 48000 <= IZR (Z.of_N rate) / 48000) as Hq. { assert (22050 <= IZR (Z.of_N rate)) by (apply (IZR_le 22050); lia). lra. }
  assert (0 < (IZR (Z.of_N rate) / 48000) ^ 4) as Hp by (apply pow_lt; lra).
  set (p := _ ^ 4) in *. clearbody p. set (z := if p_ftz P then _ else _). clearbody z.
  assert (p * / (4 * p) = 1 / 4) as Hi by (field; lra). set (i := / (4 * p)) in *. clearbody i.
  replace (4.2 / 10 ^ 6 * p * (M * (1 + i))) with (4.2 / 10 ^ 6 * p * M + 4.2 / 10 ^ 6 * M * (p * i)) by ring. rewrite Hi. cbn. lra.
Qed.
Lemma chunk_error_wider P rate M roles : audio_rate rate -> rms_error P rate (wider rate M) roles = chunk_error P rate M roles.
Proof. intros HR. unfold rms_error, chunk_error. now rewrite wider_error. Qed.
Lemma Forall2_near {A} (Q : A -> R -> Prop) (e : R) (Q2 : A -> R -> Prop) : (forall y Y Z, Q y Y -> Rabs (Y - Z) <= e -> Q2 y Z) ->
  forall l m n, Forall2 Q l m -> Forall2 (fun Y Z => Rabs (Y - Z) <= e) m n -> Forall2 Q2 l n.
Proof. intros H l m n H1. revert n. induction H1; intros n H2; inversion H2; subst; constructor; eauto. Qed.
Lemma samples_below_in M xs : samples_below M xs -> forall x, In x (map real xs) -> Rabs x <= M.
Proof. intros HX x Hx. apply in_map_iff in Hx. destruct Hx as (z & <- & Hz). unfold samples_below in HX. rewrite Forall_forall in HX. now apply HX. Qed.
Lemma spans s a b (x : list f64) : (a = 0 \/ s <= a)%nat -> (a <= b)%nat -> firstn b x = firstn (a - s) x ++ span (a - s) (Nat.min a s) x ++ span a (b - a) x.
Proof.
  intros Ha Hb. unfold span. rewrite <- (firstn_skipn (a - s) (firstn b x)). f_equal.
  - rewrite firstn_firstn. f_equal. lia.
  - rewrite <- (firstn_skipn (Nat.min a s) (skipn (a - s) (firstn b x))). f_equal.
    + rewrite skipn_firstn_comm, firstn_firstn. f_equal. lia.
    + rewrite !skipn_firstn_comm. rewrite Prelude_proofs.skipn_skipn'. f_equal; [|f_equal]; lia.
Qed.
Lemma below_firstn M n xs : samples_below M xs -> samples_below M (firstn n xs).
Proof. unfold samples_below. rewrite !Forall_forall. intros H x Hx. apply H. eapply TruePeak_proofs.In_firstn; eauto. Qed.

(** the recorded signal of a chunk *)
Lemma chunk_signal P E c M e t a b x : is_64bit P -> tan_precise E -> powf_accurate E -> audio_rate (e_rate e) -> 0 <= M <= 2 ^ 397 -> samples_below M x ->
  (a = 0 \/ hop e <= a)%nat -> (a <= b <= length x)%nat -> fed P E c e t (span (a - hop e) (Nat.min a (hop e)) x) (span a (b - a) x) ->
  Forall2 (near_channel P (e_rate e) (wider (e_rate e) M)) (nth c (signals t) []) (skipn a (weighted (e_rate e) (firstn b x))).
Proof.
  intros HP HT HW HR HM HX Ha Hb HF. set (s := hop e) in *. destruct (fed_good P E c HP HT HW e t _ _ HF HR) as (m & ys & pre & Hm & Lp & Ly & HG).
  assert (0 <= M <= 2 ^ 400) as HM4 by (split; [lra|]; apply Rle_trans with (2 ^ 397); [lra|apply Rle_pow; [lra|lia]]).
  destruct (room_ok P (e_rate e) M HR HM4) as (R1 & R2 & R3).
  pose proof (spans s a b x Ha ltac:(lia)) as ES. set (past := firstn (a - s) x) in *. set (seed := span (a - s) (Nat.min a s) x) in *. set (xs := span a (b - a) x) in *.
  assert (length past = a - s)%nat as LP by (unfold past; rewrite firstn_length; lia).
  assert (length seed = Nat.min a s) as LSd by (unfold seed, span; rewrite firstn_length, skipn_length; lia).
  assert (samples_below M past /\ samples_below M (seed ++ xs)) as (XP & XS). { pose proof (below_firstn M b x HX) as X. rewrite ES in X. unfold samples_below in *. apply Forall_app in X. exact X. }
  specialize (HG M (room P (e_rate e) M) ltac:(lra) R1 R2 XS). apply (good_exact P (e_rate e) M _ _ _ HR HM4) in HG.
  assert (nth c (signals t) [] = ys) as ->. { unfold signals. apply (map_nth_error snd) in Hm. exact (nth_of_error _ _ _ [] Hm). }
  apply (Forall2_skipn _ (length seed)) in HG. rewrite <- Lp in HG at 1. rewrite skipn_app, skipn_all, Nat.sub_diag in HG. cbn [app skipn] in HG.
  rewrite ES. assert (past = [] \/ 0.0999 * IZR (Z.of_N (e_rate e)) <= INR (length (map real seed))) as Hs.
  { destruct Ha as [->|Ha]; [left; reflexivity|right]. rewrite map_length, LSd, Nat.min_r by auto. unfold s, hop, hundred_ms. rewrite INR_IZR_INZ, N_nat_Z.
    destruct HR as (HR1 & _). clear - HR1. set (r := e_rate e) in *. clearbody r.
    assert (r <= 10 * ((r + 5) / 10) + 5)%N as H. { pose proof (N.div_mod (r + 5) 10 ltac:(lia)). pose proof (N.mod_lt (r + 5) 10 ltac:(lia)). lia. }
    set (q := ((r + 5) / 10)%N) in *. clearbody q. assert (IZR (Z.of_N r) <= 10 * IZR (Z.of_N q) + 5). { rewrite <- mult_IZR, <- plus_IZR. apply IZR_le. clear - H. lia. }
    assert (22050 <= IZR (Z.of_N r)) by (apply IZR_le; lia). lra. }
  pose proof (settled (e_rate e) HR (map real past) (map real seed) (map real xs) M ltac:(lra) (samples_below_in M past XP)) as ST.
  assert (map real past = [] \/ 0.0999 * IZR (Z.of_N (e_rate e)) <= INR (length (map real seed))) as Hs2 by (destruct Hs as [->|Hs]; [now left|now right]).
  specialize (ST Hs2). unfold weighted in *. destruct (coefficientsR (coeff_inputsR (IZR (Z.of_N (e_rate e))))) as (B, A).
  rewrite !map_length, LP in ST. replace (a - s + length seed)%nat with a in ST by lia. rewrite !map_app in *.
  eapply Forall2_near; [|exact HG|exact ST]. intros y Y Z (F & N1 & N2) H.
  assert (Rabs Z <= Rabs Y + M / 10 ^ 6) as HZ. { replace Z with (Y - (Y - Z)) by ring. eapply Rle_trans; [apply Rabs_triang|]. rewrite Rabs_Ropp. lra. }
  split; auto. rewrite wider_error by auto. split.
  - replace (real y - Z) with ((real y - Y) + (Y - Z)) by ring. eapply Rle_trans; [apply Rabs_triang|]. cbn in *. lra.
  - pose proof (wider_room (e_rate e) M HR ltac:(lra)). lra.
Qed.

(** * The blocks of a chunk *)
Lemma recentR_skipn w a Y : (a + w <= length Y)%nat -> recentR w (skipn a Y) = recentR w Y.
Proof.
  intros H. assert (forall Z, (w <= length Z)%nat -> recentR w Z = skipn (length Z - w) Z) as G.
  { intros Z HZ. unfold recentR. rewrite skipn_app, repeat_length, skipn_all2 by (rewrite repeat_length; lia). reflexivity. }
  rewrite !G by (rewrite ?skipn_length; lia). rewrite skipn_length, Prelude_proofs.skipn_skipn'. f_equal. lia.
Qed.
Lemma weighted_length rate x : length (weighted rate x) = length x.
Proof. unfold weighted. destruct (coefficientsR _) as (b, a). unfold outputsR. now rewrite filter_run_length, map_length. Qed.
Lemma mean_of_same w roles : forall Yss Zss, length Yss = length roles -> length Zss = length roles ->
  (forall c, (c < length roles)%nat -> nth c roles Unused <> Unused -> recentR w (nth c Yss []) = recentR w (nth c Zss [])) -> mean_of w roles Yss = mean_of w roles Zss.
Proof.
  intros Yss Zss L1 L2 H. unfold mean_of. f_equal. f_equal. revert Yss Zss L1 L2 H.
  induction roles as [|ch roles IH]; intros [|Y Yss] [|Z Zss] L1 L2 H; try discriminate; auto. cbn [combine map]. f_equal.
  - specialize (H 0%nat ltac:(cbn; lia)). cbn [nth] in H. destruct ch; try (cbn [weight]; lra); now rewrite H.
  - apply IH; [cbn in L1; congruence|cbn in L2; congruence|]. intros c Hc Hu. apply (H (S c)); [cbn; lia|exact Hu].
Qed.
Section Recipe.
Variables (P : platform) (E : ext) (rate : N) (M : R) (roles : list Filter.channel) (whole : list (list f64)) (N0 : nat).
Hypothesis HP : is_64bit P.
Hypothesis HT : tan_precise E.
Hypothesis HW : powf_accurate E.
Hypothesis HR : audio_rate rate.
Hypothesis HM : 0 <= M <= 2 ^ 397.
Hypothesis Hwhole : programme_of M roles N0 whole.
Let s := N.to_nat (hundred_ms rate).
Lemma chunk_energies e t a b : e_rate e = rate -> e_cmap e = roles -> (a = 0 \/ s <= a)%nat -> (a <= b <= N0)%nat -> measures P E whole a b e t ->
  Forall2 (measured_near (chunk_error P rate M roles)) (map (energy_at (capacity e) (4 * s) roles (signals t)) (block_ends s 0 (b - a)))
    (exact_energies rate (4 * s) roles whole (map (Nat.add a) (block_ends s 0 (b - a)))).
Proof.
  intros <- ER Ha Hb (HPl & HFr & HF). assert (hop e = s) as Hh by reflexivity. rewrite Hh in *. destruct Hwhole as (LW & HWh).
  destruct (played_blocks P E e t HP HPl) as (HTa & _). pose proof (taped_reachable P E e t HTa) as Hr.
  destruct (taped_sizes P E e t HP HTa) as (Z1 & Z2 & Z3). destruct (capacity_few P E e HP Hr) as (_ & H64). destruct (hop_large e HR) as (Hh1 & _ & Hh4). rewrite Hh in *. rewrite ER in *.
  destruct (wider_bounds (e_rate e) M HR ltac:(lra)) as (W1 & W2).
  assert (0 <= wider (e_rate e) M <= 2 ^ 400) as HM4. { split; [lra|]. replace (2 ^ 400) with (2 ^ 397 * 8) by (replace 400%nat with (397 + 3)%nat by reflexivity; rewrite pow_add; f_equal; cbn; lra). set (z := 2 ^ 397) in *. clearbody z. lra. }
  rewrite <- chunk_error_wider by auto. unfold exact_energies. rewrite map_map.
  assert (forall k, In k (block_ends s 0 (b - a)) -> (4 * s <= k <= b - a)%nat) as HK by (intros k Hk; apply block_ends_spec in Hk; lia).
  revert HK. generalize (block_ends s 0 (b - a)). induction l as [|k l IH]; intros HK; cbn [map]; constructor; [|apply IH; intros; apply HK; now right].
  specialize (HK k (or_introl eq_refl)). set (Yss := map (fun x => skipn a (weighted (e_rate e) (firstn (a + k) x))) whole).
  assert (exact_mean_square (e_rate e) (4 * s) roles (map (firstn (a + k)) whole) = mean_of (4 * s) roles Yss) as ->.
  { rewrite exact_mean_of. apply mean_of_same; [rewrite !map_length; auto|unfold Yss; rewrite map_length; auto|]. intros c Hc Hu. destruct (HWh c Hc Hu) as (_ & Lc).
    unfold Yss. rewrite map_map. rewrite (nth_map_nil (fun x => weighted (e_rate e) (firstn (a + k) x))), (nth_map_nil (fun x => skipn a (weighted (e_rate e) (firstn (a + k) x)))).
    - symmetry. apply recentR_skipn. rewrite weighted_length, firstn_length. lia.
    - rewrite firstn_nil. unfold weighted. destruct (coefficientsR _). now rewrite skipn_nil.
    - rewrite firstn_nil. unfold weighted. now destruct (coefficientsR _). }
  refine (block_root_of P (e_rate e) (wider (e_rate e) M) (capacity e) (4 * s) roles (map (firstn k) (signals t)) Yss HR HM4 _ Hh4 _ _ _ _); try lia; try (unfold Yss; rewrite map_length; lia).
  { unfold signals. rewrite map_length, map_length. exact (eq_trans Z1 (eq_sym Z2)). }
  intros c Hc Hu. destruct (HWh c Hc Hu) as (Xc & Lc). unfold Yss. rewrite (nth_map_nil (firstn k)) by apply firstn_nil. rewrite (nth_map_nil (fun x => skipn a (weighted (e_rate e) (firstn (a + k) x)))).
  - replace (firstn (a + k) (nth c whole [])) with (firstn (a + k) (firstn b (nth c whole []))) by (rewrite firstn_firstn; f_equal; lia). rewrite weighted_firstn, skipn_firstn_comm.
    replace (a + k - a)%nat with k by lia. apply Forall2_firstn. apply (chunk_signal P E c M e t a b); auto; try lia. rewrite Hh. apply HF; [lia|auto].
  - rewrite firstn_nil. unfold weighted. destruct (coefficientsR _). now rewrite skipn_nil.
Qed.
Lemma exact_energies_app w ends ends' : exact_energies rate w roles whole (ends ++ ends') = exact_energies rate w roles whole ends ++ exact_energies rate w roles whole ends'.
Proof. apply map_app. Qed.
Definition chunk_blocks_of (et : ebur128 * list track) : list f64 := map (energy_at (capacity (fst et)) (4 * s) roles (signals (snd et))) (block_ends s 0 (frames_of (signals (snd et)))).
Lemma last_cuts (k : nat) cuts n : last (k :: cuts) n = last cuts k.
Proof. revert k n. induction cuts as [|j cuts IH]; intros k n; [reflexivity|]. change (last (j :: cuts) n = last (j :: cuts) k). now rewrite !IH. Qed.
Lemma chunks_end : forall cuts n ets, in_chunks P E whole s n cuts ets -> (n <= last cuts n)%nat.
Proof.
  induction cuts as [|k cuts IH]; intros n ets H; [cbn; lia|]. destruct ets as [|(e, t) ets]; [contradiction|]. destruct H as (_ & H1 & _ & H2). rewrite last_cuts. specialize (IH _ _ H2). lia.
Qed.
Lemma later_energies : (1 <= s)%nat -> forall cuts n ets, in_chunks P E whole s n cuts ets -> (last cuts n = N0)%nat -> Forall (fun et => integrating rate roles (fst et)) ets ->
  Forall (fun et => played P E (fst et) (snd et)) ets /\
  exists ends, block_ends s 0 (last cuts n) = block_ends s 0 n ++ ends /\
  Forall2 (measured_near (chunk_error P rate M roles)) (concat (map chunk_blocks_of ets)) (exact_energies rate (4 * s) roles whole ends).
Proof.
  intros Hs. induction cuts as [|k cuts IH]; intros n ets H HL HA.
  - destruct ets; [|contradiction]. split; auto. exists []. split; [cbn [last]; now rewrite app_nil_r|constructor].
  - destruct ets as [|(e, t) ets]; [contradiction|]. destruct H as (Hm & Hn & Me & H2). rewrite last_cuts in *. apply Forall_cons_iff in HA. destruct HA as ((A1 & A2 & A3 & A4) & HA').
    destruct (IH k ets H2 HL HA') as (HPl & ends & EB & HN). pose proof (chunks_end _ _ _ H2) as Hk.
    split; [constructor; auto; apply Me|]. exists (map (Nat.add (n - 3 * s)) (block_ends s 0 (k - (n - 3 * s))) ++ ends). split.
    + rewrite EB, (chunk_blocks s n k), app_assoc by (auto; lia). reflexivity.
    + cbn [map concat]. rewrite exact_energies_app. apply Forall2_app; auto. unfold chunk_blocks_of at 1. cbn [fst snd] in *.
      pose proof (proj1 (proj2 Me)) as HFr. rewrite HFr. apply chunk_energies; auto; [|lia].
      apply Nat.mod_divides in Hm; [|lia]. destruct Hm as (j & ->). destruct (Nat.le_gt_cases j 3); [left|right]; nia.
Qed.
Lemma chunked_exact n cuts et ets : powf_contract E -> log10_accurate E -> measures P E whole 0 n (fst et) (snd et) -> in_chunks P E whole s n cuts ets -> last cuts n = N0 -> Forall (fun et => integrating rate roles (fst et)) (et :: ets) ->
  let l := exact_energies rate (4 * s) roles whole (block_ends s 0 N0) in let d := chunk_error P rate M roles in let k := (length l + 3 * length (et :: ets) + 102)%nat in
  (N.of_nat k <= 2 ^ 50)%N -> decided 10 (2 * d) (tolerance k / 6) l -> loud l <> [] -> 5 * d <= sqrt (average (gated_blocks 10 l)) ->
  exists v, loudness_global_multiple P E (map fst (et :: ets)) = Ret (Ok v) /\ is_finite v = true /\ Rabs (real v - integrated l) <= 14 * (d / sqrt (average (gated_blocks 10 l))) + tolerance k.
Proof.
  intros HE HL Me HC Hl HA l d k Hk HD HLo H5. destruct et as (e, t). cbn [fst snd] in *. pose proof HA as HA0. apply Forall_cons_iff in HA. destruct HA as ((A1 & A2 & A3 & A4) & HA'). cbn [fst] in *.
  assert (hop e = s) as Hh by (unfold hop; rewrite A1; reflexivity). destruct (hop_large e ltac:(rewrite A1; auto)) as (Hh1 & _ & _). rewrite Hh in Hh1.
  destruct (later_energies Hh1 cuts n ets HC Hl HA') as (HPl & ends & EB & HN). pose proof (chunks_end _ _ _ HC) as Hn. rewrite Hl in EB, Hn.
  pose proof (chunk_energies e t 0 n A1 A2 ltac:(now left) ltac:(lia) Me) as H1. rewrite Nat.sub_0_r, map_ext with (f := Nat.add 0) (g := fun x => x), map_id in H1 by (intros; lia).
  pose proof (proj1 (proj2 Me)) as HFr. rewrite Nat.sub_0_r in HFr.
  assert (Forall2 (measured_near d) (concat (map chunk_blocks_of ((e, t) :: ets))) l) as HAll.
  { cbn [map concat]. unfold l. rewrite EB, exact_energies_app. apply Forall2_app; auto. unfold chunk_blocks_of. cbn [fst snd]. rewrite HFr. exact H1. }
  pose proof (Forall2_length _ _ _ HAll) as Len.
  assert (Forall (fun et => played P E (fst et) (snd et)) ((e, t) :: ets)) as HP2 by (constructor; auto; apply Me).
  destruct (wider_bounds rate M HR ltac:(lra)) as (W1 & W2).
  assert (0 <= wider rate M <= 2 ^ 400) as HM4. { split; [lra|]. replace (2 ^ 400) with (2 ^ 397 * 8) by (replace 400%nat with (397 + 3)%nat by reflexivity; rewrite pow_add; f_equal; cbn; lra). set (z := 2 ^ 397) in *. clearbody z. lra. }
  destruct (played_blocks P E e t HP (proj1 Me)) as (HTa & _). destruct (capacity_few P E e HP (taped_reachable P E e t HTa)) as (_ & H64). destruct (taped_sizes P E e t HP HTa) as (_ & Z2 & _). rewrite A2 in Z2.
  assert (d = rms_error P rate (wider rate M) roles) as Ed by (unfold d; now rewrite chunk_error_wider).
  refine (_ (several_exact P E rate (wider rate M) roles (map fst ((e, t) :: ets)) (map chunk_blocks_of ((e, t) :: ets)) l HP HE HL HR HM4 _ _ _ _)).
  - rewrite <- Ed, map_length. intros S. apply S; auto.
  - lia.
  - rewrite Forall_map. rewrite Forall_forall in *. intros x Hx. destruct (played_blocks P E _ _ HP (HP2 x Hx)) as (Ht & _). exact (taped_reachable _ _ _ _ Ht).
  - rewrite Forall_map. rewrite Forall_forall in *. intros x Hx. apply (HA0 x Hx).
  - rewrite !map_map. apply map_ext_in. intros x Hx. rewrite Forall_forall in HA0, HP2. destruct (HA0 x Hx) as (B1 & B2 & B3 & B4).
    assert (hop (fst x) = s) as Hx2 by (unfold hop; rewrite B1; reflexivity).
    pose proof (recorded_blocks P E (fst x) (snd x) HP (HP2 x Hx) B3 B4) as RB. cbv zeta in RB. rewrite Hx2, B2 in RB. apply RB. change (map _ _) with (chunk_blocks_of x).
    assert (length (chunk_blocks_of x) <= length (concat (map chunk_blocks_of ((e, t) :: ets))))%nat as LC.
    { clear - Hx. revert Hx. generalize ((e, t) :: ets). induction l as [|y l IH]; [contradiction|]. intros [->|Hx]; cbn [map concat]; rewrite app_length; [lia|]. specialize (IH Hx). lia. }
    unfold k in Hk. lia.
Qed.
End Recipe.
Lemma chunk_signal_near P E c M e t a b x : is_64bit P -> tan_precise E -> powf_accurate E -> audio_rate (e_rate e) -> 0 <= M <= 2 ^ 397 -> samples_below M x ->
  (a = 0 \/ hop e <= a)%nat -> (a <= b <= length x)%nat -> fed P E c e t (span (a - hop e) (Nat.min a (hop e)) x) (span a (b - a) x) ->
  Forall2 (fun y Y => is_finite y = true /\ Rabs (real y - Y) <= filter_error P (e_rate e) M + 1.05 / 10 ^ 6 * M) (nth c (signals t) []) (skipn a (weighted (e_rate e) (firstn b x))).
Proof.
  intros HP HT HW HR HM HX Ha Hb HF. pose proof (chunk_signal P E c M e t a b x HP HT HW HR HM HX Ha Hb HF) as H. eapply Forall2_weaken; [|exact H].
  intros y Y (F & N & _). rewrite wider_error in N by auto. auto.
Qed.
Lemma settled_after rate past seed xs M : audio_rate rate -> 0 <= M -> samples_below M past -> 0.0999 * IZR (Z.of_N rate) <= INR (length seed) ->
  Forall2 (fun Y Z => Rabs (Y - Z) <= M / 10 ^ 6) (skipn (length seed) (weighted rate (seed ++ xs))) (skipn (length past + length seed) (weighted rate (past ++ seed ++ xs))).
Proof.
  intros HR HM HX Hs. pose proof (settled rate HR (map real past) (map real seed) (map real xs) M HM (samples_below_in M past HX)) as ST. rewrite !map_length in ST. specialize (ST (or_intror Hs)).
  unfold weighted. destruct (coefficientsR (coeff_inputsR (IZR (Z.of_N rate)))) as (B, A). rewrite !map_app. exact ST.
Qed.
