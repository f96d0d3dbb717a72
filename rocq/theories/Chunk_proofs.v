(** Feeding audio in pieces. *)
From Coq Require Import List Arith NArith ZArith Bool Lia Reals Lra.
From Flocq Require Import Core.Core IEEE754.BinarySingleNaN.
From Verif Require Import Prelude Float Env Utils History Interp TruePeak Filter Ebur128 Ref
  Prelude_proofs Utils_proofs Interp_proofs Float_proofs TruePeak_proofs Filter_proofs
  Geometry_proofs History_proofs Ebur128_proofs.
Import ListNotations.
Ltac Zify.zify_post_hook ::= Z.div_mod_to_equations.

(** * Maxima *)
Definition bmax {p e} (a b : binary_float p e) : binary_float p e := if Bltb a b then b else a.
Lemma max64_bmax a b : max64 a b = bmax a b. Proof. reflexivity. Qed.
Lemma max32_bmax a b : max32 a b = bmax a b. Proof. reflexivity. Qed.
Lemma bmax_nn {p e} (a b : binary_float p e) : nn a -> nn (bmax a b).
Proof. unfold bmax. destruct (Bltb a b) eqn:E; auto. intros H. eapply Bltb_nn; eauto. Qed.
Lemma bmax_assoc {p e} (a b c : binary_float p e) : nn a -> nn b -> bmax (bmax a b) c = bmax a (bmax b c).
Proof.
  intros Ha Hb. unfold bmax.
  destruct (Bltb a b) eqn:Eab, (Bltb b c) eqn:Ebc; rewrite ?Eab; auto.
  - now rewrite (Bltb_trans _ _ _ Eab Ebc).
  - destruct (Bltb a c) eqn:Eac; auto. exfalso.
    pose proof (Bltb_false_trans a b c (proj1 Hb) Eab Ebc). congruence.
Qed.
Lemma bmax_zero_r {p e} (a : binary_float p e) : nn a -> bmax a (B754_zero false) = a.
Proof.
  intros Ha. unfold bmax. destruct (Bltb a (B754_zero false)) eqn:E; auto. exfalso.
  pose proof (nn_B2R a Ha). rewrite Bltb_spec in E.
  destruct a as [s|s| |s m ex H']; try discriminate; simpl in E.
  - revert E. case Rlt_bool_spec; [lra|discriminate].
  - destruct Ha as (_ & Ha). simpl in Ha. subst s. discriminate.
  - revert E. simpl in *. case Rlt_bool_spec; [lra|discriminate].
Qed.
Lemma fold_bmax {p e} (l : list (binary_float p e)) : forall a b, nn a -> nn b ->
  fold_left bmax l (bmax a b) = bmax a (fold_left bmax l b).
Proof.
  induction l; simpl; auto. intros x y Hx Hy. rewrite bmax_assoc by auto.
  rewrite IHl; auto. now apply bmax_nn.
Qed.
Lemma fold_bmax_nn {p e} (l : list (binary_float p e)) : forall a, nn a -> nn (fold_left bmax l a).
Proof. induction l; simpl; auto. intros. apply IHl. now apply bmax_nn. Qed.

Lemma raw_max_fold {T} (S : sample T) xs : raw_max S xs = fold_left bmax (map (fun x => f64_abs (s_raw S x)) xs) f64_zero.
Proof.
  unfold raw_max. generalize f64_zero. induction xs; simpl; auto.
Qed.
Lemma raw_max_nn {T} (S : sample T) xs : nn (raw_max S xs).
Proof. rewrite raw_max_fold. apply fold_bmax_nn, nn_zero. Qed.
Lemma raw_max_app {T} (S : sample T) xs ys : raw_max S (xs ++ ys) = max64 (raw_max S xs) (raw_max S ys).
Proof.
  rewrite !raw_max_fold, map_app, fold_left_app, max64_bmax.
  set (m := fold_left bmax (map (fun x => f64_abs (s_raw S x)) xs) f64_zero).
  assert (nn m) as Hm by (apply fold_bmax_nn, nn_zero).
  rewrite <- (fold_bmax _ m f64_zero Hm nn_zero). unfold f64_zero. now rewrite bmax_zero_r.
Qed.

(** full scale is a positive number *)
Definition sample_ok {T} (S : sample T) : Prop :=
  is_finite_strict (s_max S) = true /\ Bsign (s_max S) = false.
Lemma smp_i16_ok : sample_ok smp_i16. Proof. split; vm_compute; reflexivity. Qed.
Lemma smp_i32_ok : sample_ok smp_i32. Proof. split; vm_compute; reflexivity. Qed.
Lemma smp_f32_ok : sample_ok smp_f32. Proof. split; vm_compute; reflexivity. Qed.
Lemma smp_f64_ok : sample_ok smp_f64. Proof. split; vm_compute; reflexivity. Qed.

(** from raw maximum to peak *)
Definition scale_peak {T} (P : platform) (S : sample T) (x : f64) : f64 := ftz64 P (f64_div x (s_max S)).
Lemma scale_peak_mono {T} P (S : sample T) : sample_ok S -> mono64 (scale_peak P S).
Proof.
  intros (H1 & H2). apply (mono64_comp (ftz64 P) (fun x => f64_div x (s_max S))); [apply ftz64_mono|].
  apply f64_div_mono; destruct (s_max S) as [s|s| |s m e Hb]; try discriminate; auto.
  simpl in H2. subst s. simpl. now apply F2R_gt_0.
Qed.
Lemma chan_peak_app {T} P (S : sample T) pk xs ys : sample_ok S -> nn pk ->
  chan_peak P S pk (xs ++ ys) = chan_peak P S (chan_peak P S pk xs) ys.
Proof.
  intros HS Hp. unfold chan_peak. change (ftz64 P (f64_div ?x (s_max S))) with (scale_peak P S x).
  rewrite raw_max_app, (mono64_max _ _ _ (scale_peak_mono P S HS)) by apply raw_max_nn.
  change max64 with (@bmax 53 1024). rewrite bmax_assoc; auto. apply (scale_peak_mono P S HS), raw_max_nn.
Qed.
Lemma chan_peak_max {T} P (S : sample T) a pk xs : nn a -> nn pk ->
  chan_peak P S (max64 a pk) xs = max64 a (chan_peak P S pk xs).
Proof. intros Ha Hp. unfold chan_peak. change max64 with (@bmax 53 1024). now apply bmax_assoc. Qed.
Lemma tp_run_max P taps factor filt : forall xs h a pk, nn a -> nn pk ->
  snd (tp_run P taps factor filt h (max32 a pk) xs) = max32 a (snd (tp_run P taps factor filt h pk xs)).
Proof.
  induction xs; cbn [tp_run snd]; auto. intros h b pk Hb Hp.
  set (l := map f32_abs (fir P factor filt (push taps h a))).
  change (fold_left max32 l (max32 b pk)) with (fold_left bmax l (bmax b pk)).
  rewrite fold_bmax by auto. apply IHxs; auto. change max32 with (@bmax 24 128). now apply fold_bmax_nn.
Qed.

(** * Columns *)
Definition capp {T} (c1 c2 : list (list T)) : list (list T) := map2 (@app T) c1 c2.
Lemma capp_length {T} (c1 c2 : list (list T)) : length c1 = length c2 -> length (capp c1 c2) = length c1.
Proof. apply map2_length'. Qed.
Lemma map_capp {A B} (f : A -> B) c1 c2 : map (map f) (capp c1 c2) = capp (map (map f) c1) (map (map f) c2).
Proof. revert c2; induction c1; destruct c2; simpl; auto. unfold capp in *. now rewrite map_app, IHc1. Qed.
Lemma firstn_capp_le {T} k n (c1 c2 : list (list T)) : length c1 = length c2 ->
  Forall (fun c => length c = n) c1 -> k <= n -> map (firstn k) (capp c1 c2) = map (firstn k) c1.
Proof.
  intros Hl H Hk. revert c2 Hl. induction H; destruct c2; simpl; intros; try discriminate; auto.
  f_equal; [|now apply IHForall; injection Hl]. rewrite firstn_app. replace (k - length x) with 0 by lia.
  simpl. apply app_nil_r.
Qed.
Lemma skipn_capp_le {T} k n (c1 c2 : list (list T)) : length c1 = length c2 ->
  Forall (fun c => length c = n) c1 -> k <= n -> map (skipn k) (capp c1 c2) = capp (map (skipn k) c1) c2.
Proof.
  intros Hl H Hk. revert c2 Hl. induction H; destruct c2; simpl; intros; try discriminate; auto.
  unfold capp. simpl. f_equal; [|now apply IHForall; injection Hl]. rewrite skipn_app. now replace (k - length x) with 0 by lia.
Qed.
Lemma firstn_capp_ge {T} k n (c1 c2 : list (list T)) : length c1 = length c2 ->
  Forall (fun c => length c = n) c1 -> n <= k -> map (firstn k) (capp c1 c2) = capp c1 (map (firstn (k - n)) c2).
Proof.
  intros Hl H Hk. revert c2 Hl. induction H; destruct c2; simpl; intros; try discriminate; auto.
  unfold capp. simpl. f_equal; [|now apply IHForall; injection Hl].
  rewrite firstn_app, H, firstn_all2 by lia. reflexivity.
Qed.
Lemma skipn_capp_ge {T} k n (c1 c2 : list (list T)) : length c1 = length c2 ->
  Forall (fun c => length c = n) c1 -> n <= k -> map (skipn k) (capp c1 c2) = map (skipn (k - n)) c2.
Proof.
  intros Hl H Hk. revert c2 Hl. induction H; destruct c2; simpl; intros; try discriminate; auto.
  f_equal; [|now apply IHForall; injection Hl].
  rewrite skipn_app, H, skipn_all2 by lia. reflexivity.
Qed.
Lemma capp_nil_l {T} (c1 c2 : list (list T)) : length c1 = length c2 ->
  Forall (fun c => length c = 0) c1 -> capp c1 c2 = c2.
Proof.
  intros Hl H. revert c2 Hl. induction H; destruct c2; simpl; intros; try discriminate; auto.
  destruct x; [|discriminate]. unfold capp. simpl. f_equal. apply IHForall. now injection Hl.
Qed.
Lemma capp_nil_r {T} (c1 c2 : list (list T)) : length c1 = length c2 ->
  Forall (fun c => length c = 0) c2 -> capp c1 c2 = c1.
Proof.
  intros Hl H. revert c1 Hl. induction H; destruct c1; simpl; intros; try discriminate; auto.
  destruct x; [|discriminate]. unfold capp. simpl. rewrite app_nil_r. f_equal. apply IHForall. now injection Hl.
Qed.
Lemma capp_lengths {T} n m (c1 c2 : list (list T)) :
  Forall (fun c => length c = n) c1 -> Forall (fun c => length c = m) c2 ->
  Forall (fun c => length c = n + m) (capp c1 c2).
Proof.
  intros H. revert c2. induction H; intros [|d c2] H2; simpl; try constructor; inversion_clear H2.
  - rewrite app_length. lia.
  - now apply IHForall.
Qed.

(** * One channel *)
Lemma splice_app {A} i (plane xs ys : list A) : i + length xs + length ys <= length plane ->
  splice i plane (xs ++ ys) = splice (i + length xs) (splice i plane xs) ys.
Proof.
  intros H. unfold splice.
  rewrite (firstn_app (i + length xs)), (skipn_app (i + length xs + length ys)).
  rewrite firstn_length, Nat.min_l by lia.
  rewrite (firstn_all2 (n := i + length xs)) by (rewrite firstn_length; lia).
  rewrite (skipn_all2 (n := i + length xs + length ys) (firstn i plane)) by (rewrite firstn_length; lia).
  rewrite (firstn_app (i + length xs - i)), (skipn_app (i + length xs + length ys - i)).
  rewrite (firstn_all2 (n := i + length xs - i)) by lia.
  rewrite (skipn_all2 (n := i + length xs + length ys - i)) by lia.
  replace (i + length xs - i - length xs) with 0 by lia. cbn [firstn app].
  replace (i + length xs + length ys - i - length xs) with (length ys) by lia.
  rewrite app_nil_r, skipn_skipn', !app_length, <- !app_assoc.
  do 4 f_equal. lia.
Qed.

Lemma chan_state_app {T} P (S : sample T) b a ch st xs ys : p_ftz P = true ->
  chan_state P S b a ch st (xs ++ ys) = chan_state P S b a ch (chan_state P S b a ch st xs) ys.
Proof.
  intros HP. unfold chan_state, flush_state. rewrite HP. destruct (channel_eqb ch Unused); auto.
  rewrite map_app, filter_run_app.
  destruct (filter_run (ar64_ftz P) b a st (map (s_f64 S) xs)) as (st1, o1). cbn [fst].
  now destruct (filter_run (ar64_ftz P) b a st1 (map (s_f64 S) ys)).
Qed.
Lemma chan_ys_app {T} P (S : sample T) b a ch st xs ys : p_ftz P = true -> channel_eqb ch Unused = false ->
  chan_ys P S b a st (xs ++ ys) = chan_ys P S b a st xs ++ chan_ys P S b a (chan_state P S b a ch st xs) ys.
Proof.
  intros HP Hc. unfold chan_ys, chan_state, flush_state. rewrite HP, Hc. rewrite map_app, filter_run_app.
  destruct (filter_run (ar64_ftz P) b a st (map (s_f64 S) xs)) as (st1, o1). cbn [fst snd].
  now destruct (filter_run (ar64_ftz P) b a st1 (map (s_f64 S) ys)).
Qed.
Lemma chan_plane_app {T} P (S : sample T) b a i ch st plane xs ys : p_ftz P = true ->
  i + length xs + length ys <= length plane ->
  chan_plane P S b a i ch st plane (xs ++ ys) =
  chan_plane P S b a (i + length xs) ch (chan_state P S b a ch st xs) (chan_plane P S b a i ch st plane xs) ys.
Proof.
  intros HP Hl. unfold chan_plane. destruct (channel_eqb ch Unused) eqn:Ec; auto.
  rewrite (chan_ys_app P S b a ch st xs ys HP Ec), splice_app; rewrite !chan_ys_length; auto.
Qed.

(** * All channels *)
Lemma map3_capp {A B T} (f : A -> B -> list T -> B) n :
  (forall a b xs ys, f a b (xs ++ ys) = f a (f a b xs) ys) ->
  forall l m c1 c2, length m = length l -> length c1 = length l -> length c2 = length l ->
  Forall (fun c => length c = n) c1 ->
  map3 f l m (capp c1 c2) = map3 f l (map3 f l m c1) c2.
Proof.
  intros Hf. unfold capp. induction l; destruct m, c1, c2; simpl; intros; try discriminate; auto.
  inversion_clear H2. f_equal; auto.
Qed.
Lemma planes_capp {T} P (S : sample T) b a i n m L : p_ftz P = true -> i + n + m <= L ->
  forall cmap sts planes c1 c2,
  length sts = length cmap -> length planes = length cmap -> length c1 = length cmap -> length c2 = length cmap ->
  Forall (fun p => length p = L) planes -> Forall (fun c => length c = n) c1 -> Forall (fun c => length c = m) c2 ->
  map4 (chan_plane P S b a i) cmap sts planes (capp c1 c2) =
  map4 (chan_plane P S b a (i + n)) cmap (map3 (chan_state P S b a) cmap sts c1)
       (map4 (chan_plane P S b a i) cmap sts planes c1) c2.
Proof.
  intros HP Hi. unfold capp. induction cmap; destruct sts, planes, c1, c2; simpl; intros; try discriminate; auto.
  inversion_clear H3. inversion_clear H4. inversion_clear H5. f_equal; [|apply IHcmap; auto].
  subst n m L. now apply chan_plane_app.
Qed.
Lemma map2_capp {A T} (f : A -> list T -> A) (Q : A -> Prop) :
  (forall a xs ys, Q a -> f a (xs ++ ys) = f (f a xs) ys) ->
  forall l c1 c2, length c1 = length l -> length c2 = length l -> Forall Q l ->
  map2 f l (capp c1 c2) = map2 f (map2 f l c1) c2.
Proof.
  intros Hf. unfold capp. induction l; destruct c1, c2; simpl; intros; try discriminate; auto.
  inversion_clear H1. f_equal; auto.
Qed.
Lemma tp_peaks_capp P taps factor filt : forall hs pks c1 c2,
  length pks = length hs -> length c1 = length hs -> length c2 = length hs ->
  tp_peaks P taps factor filt hs pks (capp c1 c2) =
  tp_peaks P taps factor filt (push_hists taps hs c1) (tp_peaks P taps factor filt hs pks c1) c2.
Proof.
  unfold tp_peaks, push_hists, capp.
  induction hs; destruct pks, c1, c2; simpl; intros; try discriminate; auto.
  f_equal; [|auto]. rewrite tp_run_app.
  pose proof (tp_run_fst P taps factor filt l a f) as F.
  destruct (tp_run P taps factor filt a f l) as (h', pk'). cbn [fst snd] in *. now rewrite F.
Qed.
Lemma push_hists_capp taps : forall hs c1 c2, length c1 = length hs -> length c2 = length hs ->
  push_hists taps hs (capp c1 c2) = push_hists taps (push_hists taps hs c1) c2.
Proof.
  unfold push_hists, capp. induction hs; destruct c1, c2; simpl; intros; try discriminate; auto.
  f_equal; [|auto]. apply fold_left_app.
Qed.

Lemma tp_ok_hists E rate C calc tp hs : tp_ok E rate C calc tp hs ->
  forall taps factor, (if calc then tp_params rate else None) = Some (taps, factor) -> length hs = C.
Proof.
  unfold tp_ok. intros H taps factor E1. rewrite E1 in H. destruct tp; [|tauto].
  eapply scanner_ok_hists. apply H.
Qed.

Lemma filter_ext f1 f2 : f_channels f1 = f_channels f2 -> f_b f1 = f_b f2 -> f_a f1 = f_a f2 ->
  f_state f1 = f_state f2 -> f_calc_sample_peak f1 = f_calc_sample_peak f2 ->
  f_sample_peak f1 = f_sample_peak f2 -> f_tp f1 = f_tp f2 -> f_true_peak f1 = f_true_peak f2 -> f1 = f2.
Proof. destruct f1, f2; simpl; intros; subst; reflexivity. Qed.

Lemma fed_app {T} P E (S : sample T) e g L n m c1 c2 : p_ftz P = true -> sample_ok S ->
  inv P E e g L -> e_index e + n + m <= L ->
  length c1 = e_channels e -> length c2 = e_channels e ->
  Forall (fun c => length c = n) c1 -> Forall (fun c => length c = m) c2 ->
  fed P E S e g (n + m) (capp c1 c2) =
  fed P E S (fst (fed P E S e g n c1)) (snd (fed P E S e g n c1)) m c2.
Proof.
  intros HP HS H Hi L1 L2 F1 F2.
  pose proof (i_filter _ _ _ _ _ H) as HF.
  pose proof (i_cmap _ _ _ _ _ H) as Hcm. pose proof (i_planes _ _ _ _ _ H) as Hpl.
  pose proof (fo_state _ _ _ _ _ _ _ _ _ HF) as Hst.
  unfold fed. cbn [fst snd]. inv_fields. cbn [filter_after f_b f_a f_state].
  rewrite (planes_capp P S _ _ (e_index e) n m L) by (try apply H; lia || auto).
  rewrite map_capp.
  set (d1 := map (map (s_f32 S P)) c1). set (d2 := map (map (s_f32 S P)) c2).
  assert (length d1 = e_channels e) as M1 by (unfold d1; now rewrite map_length).
  assert (length d2 = e_channels e) as M2 by (unfold d2; now rewrite map_length).
  assert (tp_hists (e_rate e) (contains (e_mode e) MODE_TRUE_PEAK) (g_hs g) (capp d1 d2) =
          tp_hists (e_rate e) (contains (e_mode e) MODE_TRUE_PEAK)
            (tp_hists (e_rate e) (contains (e_mode e) MODE_TRUE_PEAK) (g_hs g) d1) d2) as Hh.
  { pose proof (tp_ok_hists _ _ _ _ _ _ (fo_tp _ _ _ _ _ _ _ _ _ HF)) as Hlen.
    unfold tp_hists. destruct (if contains (e_mode e) MODE_TRUE_PEAK then _ else _) as [(taps, factor)|] eqn:Et; auto.
    specialize (Hlen _ _ eq_refl). apply push_hists_capp; lia. }
  assert (tp_pk32 P E (e_rate e) (contains (e_mode e) MODE_TRUE_PEAK) (g_hs g) (g_pk g) (capp d1 d2) =
          tp_pk32 P E (e_rate e) (contains (e_mode e) MODE_TRUE_PEAK)
            (tp_hists (e_rate e) (contains (e_mode e) MODE_TRUE_PEAK) (g_hs g) d1)
            (tp_pk32 P E (e_rate e) (contains (e_mode e) MODE_TRUE_PEAK) (g_hs g) (g_pk g) d1) d2) as Hk.
  { pose proof (tp_ok_hists _ _ _ _ _ _ (fo_tp _ _ _ _ _ _ _ _ _ HF)) as Hlen.
    pose proof (fo_pk _ _ _ _ _ _ _ _ _ HF).
    unfold tp_pk32, tp_hists. destruct (if contains (e_mode e) MODE_TRUE_PEAK then _ else _) as [(taps, factor)|] eqn:Et; auto.
    specialize (Hlen _ _ eq_refl). apply tp_peaks_capp; lia. }
  rewrite Hh, Hk. rewrite Nat.add_assoc.
  match goal with |- (with_audio_filter_index _ ?f1 _ _, _) = (with_audio_filter_index _ ?f2 _ _, _) =>
    assert (f1 = f2) as Hf; [|now rewrite Hf] end.
  apply filter_ext; unfold filter_after;
    cbn [f_b f_a f_state f_calc_sample_peak f_sample_peak f_tp f_true_peak f_channels]; auto.
  - eapply map3_capp; eauto; try lia. intros. now apply chan_state_app.
  - destruct (f_calc_sample_peak (e_filter e)); auto.
    pose proof (fo_sp _ _ _ _ _ _ _ _ _ HF).
    apply (map2_capp _ nn); [intros; now apply chan_peak_app|exact (eq_trans L1 (eq_sym H0))|exact (eq_trans L2 (eq_sym H0))|apply H].
  - rewrite map_capp. fold d1 d2. unfold tp_pushed. destruct (f_tp (e_filter e)) as [sc|]; auto.
    cbn [option_map]. f_equal. apply scanner_push_app; [lia|].
    unfold d1. rewrite Forall_map. eapply Forall_impl; [|exact F1]. cbn. intros x Hx. now rewrite map_length.
  - rewrite map_capp. fold d1 d2. now rewrite Hk.
Qed.

(** * The loop *)
Lemma planar_view {T} (cols : list (list T)) n : cols <> [] -> Forall (fun c => length c = n) cols ->
  view (Planar cols 0 n) n cols.
Proof.
  intros Hne HF. destruct cols as [|c cols]; [congruence|].
  assert (n = length c) as -> by (inversion_clear HF; auto).
  apply (planar_new_view (c :: cols) (Planar (c :: cols) 0 (length c))). cbn [planar_new].
  destruct (existsb _ _) eqn:Ex; auto. apply existsb_exists in Ex. destruct Ex as (d & Hd & Hn).
  rewrite Forall_forall in HF. rewrite (HF d Hd), Nat.eqb_refl in Hn. discriminate.
Qed.
Lemma fed_inv {T} P E (S : sample T) e g L n cols :
  inv P E e g L -> length cols = e_channels e -> Forall (fun c => length c = n) cols -> e_index e + n <= L ->
  inv P E (fst (fed P E S e g n cols)) (snd (fed P E S e g n cols)) L.
Proof.
  intros H Hc HF Hi. eapply (proj2 (process_into_ring_ok P E S e g L (Planar cols 0 n) n cols H _ Hc Hi)).
  Unshelve. apply planar_view; auto. intros ->. pose proof (i_C _ _ _ _ _ H). simpl in Hc. lia.
Qed.
Lemma fed_block_inv {T} P E (S : sample T) e g L cols :
  inv P E e g L -> timing e L -> length cols = e_channels e -> Forall (fun c => length c = e_needed e) cols ->
  let r := fed P E S e g (e_needed e) cols in
  inv P E (block_done (fst r) (snd r)) (snd r) L /\ timing (block_done (fst r) (snd r)) L.
Proof.
  intros H Ht Hc HF. cbv zeta. destruct (t_step _ _ Ht) as (k & Hk & HkL).
  pose proof (fed_inv P E S e g L (e_needed e) cols H Hc HF ltac:(lia)) as H1.
  pose proof (fed_fields P E S e g (e_needed e) cols) as F. cbv zeta in F.
  destruct (fed P E S e g (e_needed e) cols) as (e1, g1). cbn [fst snd] in *.
  destruct F as (F1 & F2 & F3 & F4 & F5 & _).
  apply (block_done_ok P E e1 g1 L H1).
  - rewrite F2. apply Ht.
  - rewrite F1, F2. apply Ht.
  - exists k. rewrite F2, F3. lia.
Qed.
Lemma feed_inv {T} P E (S : sample T) e g L n fuel cols :
  inv P E e g L -> timing e L -> length cols = e_channels e -> Forall (fun c => length c = n) cols -> n <= fuel ->
  inv P E (fst (feed P E S fuel e g n cols)) (snd (feed P E S fuel e g n cols)) L /\
  timing (fst (feed P E S fuel e g n cols)) L.
Proof.
  intros H Ht Hc HF Hn.
  apply (add_loop_ok P E S L fuel e g (Planar cols 0 n) n cols H Ht); auto.
  apply planar_view; auto. intros ->. pose proof (i_C _ _ _ _ _ H). simpl in Hc. lia.
Qed.

Lemma firstn_lengths {T} k n (cols : list (list T)) : k <= n -> Forall (fun c => length c = n) cols ->
  Forall (fun c => length c = k) (map (firstn k) cols).
Proof. intros Hk H. rewrite Forall_map. eapply Forall_impl; [|exact H]. cbn. intros c Hl. rewrite firstn_length. lia. Qed.
Lemma skipn_lengths {T} k n (cols : list (list T)) : Forall (fun c => length c = n) cols ->
  Forall (fun c => length c = n - k) (map (skipn k) cols).
Proof. intros H. rewrite Forall_map. eapply Forall_impl; [|exact H]. cbn. intros c Hl. rewrite skipn_length. lia. Qed.

Lemma feed_fuel {T} P E (S : sample T) L : forall f1 f2 e g n cols,
  inv P E e g L -> timing e L -> length cols = e_channels e -> Forall (fun c => length c = n) cols ->
  n <= f1 -> n <= f2 -> feed P E S f1 e g n cols = feed P E S f2 e g n cols.
Proof.
  induction f1 as [|f1 IH]; intros f2 e g n cols H Ht Hc HF H1 H2.
  - assert (n = 0) by lia. subst. destruct f2; reflexivity.
  - destruct f2 as [|f2].
    + assert (n = 0) by lia. subst. reflexivity.
    + cbn [feed]. destruct (Nat.eqb_spec n 0); auto. pose proof (t_needed _ _ Ht).
      destruct (Nat.leb_spec (e_needed e) n) as [Hle|]; auto.
      pose proof (fed_block_inv P E S e g L (map (firstn (e_needed e)) cols) H Ht
        ltac:(now rewrite map_length) (firstn_lengths _ n cols Hle HF)) as HB. cbv zeta in HB.
      pose proof (fed_config P E S e g (e_needed e) (map (firstn (e_needed e)) cols)) as FC.
      destruct (fed P E S e g (e_needed e) (map (firstn (e_needed e)) cols)) as (e1, g1). cbn [fst snd] in *.
      apply IH; try apply HB; try lia.
      * rewrite map_length, Hc. destruct (block_done_config e1 g1) as (_ & _ & -> & _).
        destruct FC as (_ & _ & -> & _). auto.
      * now apply skipn_lengths.
Qed.

Lemma tail_done_fed {T} P E (S : sample T) e g n k cols :
  fed P E S (tail_done e n) g k cols =
  (tail_done (fst (fed P E S e g k cols)) n, snd (fed P E S e g k cols)).
Proof. unfold tail_done. destruct (contains (e_mode e) MODE_LRA) eqn:EL; unfold fed; cbn [fst snd]; inv_fields; rewrite EL; reflexivity. Qed.
Lemma tail_done_tail e n k : tail_done (tail_done e n) k = tail_done e (n + k).
Proof.
  unfold tail_done. destruct (contains (e_mode e) MODE_LRA) eqn:EL; inv_fields; rewrite EL;
    unfold with_index_needed, with_short_counter; inv_fields; f_equal; lia.
Qed.
Lemma block_done_tail e g n : n <= e_needed e -> block_done (tail_done e n) g = block_done e g.
Proof.
  intros Hn. unfold block_done, tail_done.
  assert (forall e', e_needed e' = e_needed e -> True) by auto.
  unfold gated. 
  destruct (contains (e_mode e) MODE_LRA) eqn:EL; inv_fields; destruct (contains (e_mode e) MODE_I) eqn:EI;
    unfold shorted; inv_fields; rewrite EL; unfold advance_block; inv_fields.
  - replace (e_counter e + n + (e_needed e - n)) with (e_counter e + e_needed e) by lia.
    destruct (e_counter e + e_needed e =? e_s100 e * 30); inv_fields; reflexivity.
  - replace (e_counter e + n + (e_needed e - n)) with (e_counter e + e_needed e) by lia.
    destruct (e_counter e + e_needed e =? e_s100 e * 30); inv_fields; reflexivity.
  - reflexivity.
  - reflexivity.
Qed.

Lemma feed_app {T} P E (S : sample T) L : p_ftz P = true -> sample_ok S ->
  forall n e g m c1 c2,
  inv P E e g L -> timing e L -> length c1 = e_channels e -> length c2 = e_channels e ->
  Forall (fun c => length c = n) c1 -> Forall (fun c => length c = m) c2 ->
  feed P E S (n + m) e g (n + m) (capp c1 c2) =
  feed P E S m (fst (feed P E S n e g n c1)) (snd (feed P E S n e g n c1)) m c2.
Proof.
  intros HP HS. induction n as [n IH] using lt_wf_ind. intros e g m c1 c2 H Ht L1 L2 F1 F2.
  assert (length c1 = length c2) as L12 by lia.
  destruct (Nat.eq_dec n 0) as [->|Hn0].
  { cbn [feed fst snd Nat.add]. now rewrite capp_nil_l. }
  destruct (Nat.eq_dec m 0) as [->|Hm0].
  { rewrite Nat.add_0_r, capp_nil_r by auto. cbn [feed fst snd]. now rewrite <- surjective_pairing. }
  destruct n as [|n']; [congruence|]. cbn [Nat.add].
  pose proof (t_needed _ _ Ht) as Hneed. destruct (t_step _ _ Ht) as (kk & Hk & HkL).
  cbn [feed Nat.eqb].
  change (Datatypes.S (n' + m)) with (Datatypes.S n' + m).
  set (n := Datatypes.S n') in *. set (k := e_needed e) in *.
  destruct (Nat.leb_spec k n) as [Hkn|Hkn].
  - (* a block ends inside the first part *)
    destruct (Nat.leb_spec k (n + m)); [|lia].
    rewrite (firstn_capp_le k n), (skipn_capp_le k n) by auto.
    pose proof (fed_block_inv P E S e g L (map (firstn k) c1) H Ht
        ltac:(now rewrite map_length) (firstn_lengths k n c1 Hkn F1)) as HB. cbv zeta in HB.
    pose proof (fed_config P E S e g k (map (firstn k) c1)) as FC. fold k in HB.
    destruct (fed P E S e g k (map (firstn k) c1)) as (e1, g1). cbn [fst snd] in *.
    destruct HB as (HB1 & HB2).
    assert (e_channels (block_done e1 g1) = e_channels e) as HC.
    { destruct (block_done_config e1 g1) as (_ & _ & -> & _). destruct FC as (_ & _ & -> & _). auto. }
    rewrite (feed_fuel P E S L n' (n - k)); auto; try (rewrite map_length; lia); try (now apply skipn_lengths); try lia.
    replace (n + m - k) with (n - k + m) by lia.
    rewrite (feed_fuel P E S L (n' + m) (n - k + m)); auto; try lia.
    + apply IH; auto; try lia. { rewrite map_length. lia. } now apply skipn_lengths.
    + rewrite capp_length; rewrite map_length; lia.
    + apply capp_lengths; auto. now apply skipn_lengths.
  - (* the first part is a partial block *)
    pose proof (fed_app P E S e g L n) as FA.
    pose proof (fed_config P E S e g n c1) as FC. pose proof (fed_fields P E S e g n c1) as FF. cbv zeta in FF.
    destruct (Nat.leb_spec k (n + m)) as [Hkm|Hkm].
    + rewrite (firstn_capp_ge k n), (skipn_capp_ge k n) by (auto; lia).
      specialize (FA (k - n) c1 (map (firstn (k - n)) c2) HP HS H ltac:(lia) L1
                     ltac:(rewrite map_length; lia) F1 (firstn_lengths (k - n) m c2 ltac:(lia) F2)).
      replace (n + (k - n)) with k in FA by lia. rewrite FA. clear FA.
      pose proof (fed_block_inv P E S e g L (capp c1 (map (firstn (k - n)) c2)) H Ht
        ltac:(rewrite capp_length; rewrite ?map_length; lia)) as HB. fold k in HB.
      assert (k - n <= m) as Hkm' by lia.
      pose proof (capp_lengths n (k - n) c1 (map (firstn (k - n)) c2) F1 (firstn_lengths (k - n) m c2 Hkm' F2)) as HL.
      replace (n + (k - n)) with k in HL by lia. specialize (HB HL).
      cbv zeta in HB.
      pose proof (fed_app P E S e g L n (k - n) c1 (map (firstn (k - n)) c2) HP HS H ltac:(lia) L1
                     ltac:(rewrite map_length; lia) F1 (firstn_lengths (k - n) m c2 ltac:(lia) F2)) as FA.
      replace (n + (k - n)) with k in FA by lia. rewrite FA in HB.
      destruct (fed P E S e g n c1) as (e1, g1). cbn [fst snd] in *.
      destruct FF as (_ & _ & _ & FN & _).
      destruct m as [|m']; [lia|]. set (m := Datatypes.S m') in *.
      change (feed P E S m (tail_done e1 n) g1 m c2) with (feed P E S (Datatypes.S m') (tail_done e1 n) g1 m c2).
      cbn [feed]. replace (m =? 0) with false by reflexivity.
      assert (e_needed (tail_done e1 n) = k - n) as EN.
      { unfold tail_done. destruct (contains (e_mode e1) MODE_LRA); inv_fields; rewrite FN; reflexivity. }
      rewrite EN. destruct (Nat.leb_spec (k - n) m); [|lia].
      rewrite tail_done_fed.
      pose proof (fed_fields P E S e1 g1 (k - n) (map (firstn (k - n)) c2)) as FF2. cbv zeta in FF2.
      pose proof (fed_config P E S e1 g1 (k - n) (map (firstn (k - n)) c2)) as FC2.
      destruct (fed P E S e1 g1 (k - n) (map (firstn (k - n)) c2)) as (e2, g2). cbn [fst snd] in *.
      rewrite block_done_tail by (destruct FF2 as (_ & _ & _ & -> & _); lia).
      replace (n + m - k) with (m - (k - n)) by lia.
      assert (e_channels (block_done e2 g2) = e_channels e) as HC.
      { destruct (block_done_config e2 g2) as (_ & _ & -> & _). destruct FC2 as (_ & _ & -> & _).
        destruct FC as (_ & _ & -> & _). auto. }
      apply (feed_fuel P E S L); try apply HB; try lia.
      * rewrite map_length. lia.
      * now apply skipn_lengths.
    + specialize (FA m c1 c2 HP HS H ltac:(lia) L1 L2 F1 F2). rewrite FA.
      destruct (fed P E S e g n c1) as (e1, g1). cbn [fst snd] in *.
      destruct FF as (_ & _ & _ & FN & _).
      destruct m as [|m']; [congruence|].
      set (m := Datatypes.S m') in *.
      change (feed P E S m (tail_done e1 n) g1 m c2) with (feed P E S (Datatypes.S m') (tail_done e1 n) g1 m c2).
      cbn [feed]. replace (m =? 0) with false by reflexivity.
      assert (e_needed (tail_done e1 n) = k - n) as EN.
      { unfold tail_done. destruct (contains (e_mode e1) MODE_LRA); inv_fields; rewrite FN; reflexivity. }
      rewrite EN. destruct (Nat.leb_spec (k - n) m); [lia|].
      rewrite tail_done_fed. destruct (fed P E S e1 g1 m c2) as (e2, g2). cbn [fst snd]. now rewrite tail_done_tail.
Qed.

(** * Per-call peaks do not influence anything else *)
Definition filter_with_pk (f : filter) (sp : list f64) (p32 : list f32) : filter :=
  {| f_channels := f_channels f; f_b := f_b f; f_a := f_a f; f_state := f_state f;
     f_calc_sample_peak := f_calc_sample_peak f; f_sample_peak := sp; f_tp := f_tp f;
     f_true_peak := map f64_of_f32 p32 |}.
Definition e_pk (e : ebur128) (sp : list f64) (p32 : list f32) : ebur128 :=
  with_filter e (filter_with_pk (e_filter e) sp p32).
Definition gh_pk (g : ghost) (p32 : list f32) : ghost :=
  {| g_planes := g_planes g; g_hs := g_hs g; g_pk := p32 |}.
Definition set_pk (r : ebur128 * ghost) (sp : list f64) (p32 : list f32) : ebur128 * ghost :=
  (e_pk (fst r) sp p32, gh_pk (snd r) p32).
(** the state [r] with its per-call peaks raised to at least [sp], [p32] *)
Definition raise (r : ebur128 * ghost) (sp : list f64) (p32 : list f32) : ebur128 * ghost :=
  set_pk r (map2 max64 sp (f_sample_peak (e_filter (fst r)))) (map2 max32 p32 (g_pk (snd r))).

Lemma map2_max_comm {A B} (h : A -> A -> A) (f : A -> B -> A) (Q : A -> Prop) :
  (forall a b c, Q a -> Q b -> f (h a b) c = h a (f b c)) ->
  forall l m n, Forall Q l -> Forall Q m -> map2 f (map2 h l m) n = map2 h l (map2 f m n).
Proof.
  intros Hf. induction l; destruct m, n; simpl; intros Hl Hm; auto.
  inversion_clear Hl. inversion_clear Hm. f_equal; auto.
Qed.
Lemma tp_peaks_max P taps factor filt : forall hs p pks cols, Forall nn p -> Forall nn pks ->
  tp_peaks P taps factor filt hs (map2 max32 p pks) cols = map2 max32 p (tp_peaks P taps factor filt hs pks cols).
Proof.
  unfold tp_peaks. induction hs; intros [|x p] [|y pks] [|c cols] Hp Hk; simpl; auto.
  inversion_clear Hp. inversion_clear Hk. f_equal; [now apply tp_run_max|auto].
Qed.

Lemma fed_raise {T} P E (S : sample T) e g L n cols sp p32 :
  inv P E e g L -> Forall nn sp -> Forall nn p32 ->
  fed P E S (fst (raise (e, g) sp p32)) (snd (raise (e, g) sp p32)) n cols = raise (fed P E S e g n cols) sp p32.
Proof.
  intros H Hs Hp. pose proof (i_nn _ _ _ _ _ H) as (N1 & N2 & N3 & N4).
  set (s' := map2 max64 sp (f_sample_peak (e_filter e))).
  assert (tp_pk32 P E (e_rate e) (contains (e_mode e) MODE_TRUE_PEAK) (g_hs g) (map2 max32 p32 (g_pk g)) (map (map (s_f32 S P)) cols)
    = map2 max32 p32 (tp_pk32 P E (e_rate e) (contains (e_mode e) MODE_TRUE_PEAK) (g_hs g) (g_pk g) (map (map (s_f32 S P)) cols))) as Hk.
  { unfold tp_pk32. destruct (if contains (e_mode e) MODE_TRUE_PEAK then _ else _) as [(taps, factor)|]; auto.
    now apply tp_peaks_max. }
  unfold raise, set_pk, fed, e_pk, gh_pk. cbn [fst snd]. inv_fields. cbn [filter_with_pk f_b f_a f_state].
  rewrite Hk.
  match goal with |- (with_audio_filter_index _ ?f1 _ _, _) = (with_filter (with_audio_filter_index _ _ ?a ?i) ?f2, _) =>
    assert (f1 = f2) as Hf; [|rewrite Hf; reflexivity] end.
  apply filter_ext; unfold filter_after, filter_with_pk;
    cbn [f_b f_a f_state f_calc_sample_peak f_sample_peak f_tp f_true_peak f_channels]; auto.
  - destruct (f_calc_sample_peak (e_filter e)); auto.
    apply (map2_max_comm max64 (chan_peak P S) nn); auto. intros. now apply chan_peak_max.
  - now rewrite Hk.
Qed.
Lemma block_done_pk e g sp p32 : block_done (e_pk e sp p32) (gh_pk g p32) = e_pk (block_done e g) sp p32.
Proof.
  unfold block_done, e_pk, gated. inv_fields. destruct (contains (e_mode e) MODE_I);
  unfold shorted; inv_fields; destruct (contains (e_mode e) MODE_LRA); inv_fields; try reflexivity;
  destruct (e_counter e + e_needed e =? e_s100 e * 30); reflexivity.
Qed.
Lemma tail_done_pk e n sp p32 : tail_done (e_pk e sp p32) n = e_pk (tail_done e n) sp p32.
Proof. unfold tail_done, e_pk. inv_fields. destruct (contains (e_mode e) MODE_LRA); reflexivity. Qed.
Lemma block_done_filter e g : e_filter (block_done e g) = e_filter e.
Proof.
  unfold block_done, advance_block, shorted, gated. destruct (contains (e_mode e) MODE_I); inv_fields;
    destruct (contains (e_mode e) MODE_LRA); inv_fields; auto; destruct (_ =? _); auto.
Qed.
Lemma tail_done_filter e n : e_filter (tail_done e n) = e_filter e.
Proof. unfold tail_done. destruct (contains (e_mode e) MODE_LRA); auto. Qed.

Lemma feed_raise {T} P E (S : sample T) L sp p32 : Forall nn sp -> Forall nn p32 ->
  forall fuel e g n cols,
  inv P E e g L -> timing e L -> length cols = e_channels e -> Forall (fun c => length c = n) cols -> n <= fuel ->
  feed P E S fuel (fst (raise (e, g) sp p32)) (snd (raise (e, g) sp p32)) n cols = raise (feed P E S fuel e g n cols) sp p32.
Proof.
  intros Hs Hp. induction fuel as [|fuel IH]; intros e g n cols H Ht Hc HF Hn.
  - cbn [feed]. reflexivity.
  - cbn [feed]. destruct (n =? 0); [reflexivity|].
    change (e_needed (fst (raise (e, g) sp p32))) with (e_needed e).
    destruct (Nat.leb_spec (e_needed e) n) as [Hle|Hgt].
    + rewrite (fed_raise P E S e g L) by auto.
      pose proof (fed_block_inv P E S e g L (map (firstn (e_needed e)) cols) H Ht
        ltac:(now rewrite map_length) (firstn_lengths _ n cols Hle HF)) as HB. cbv zeta in HB.
      pose proof (fed_config P E S e g (e_needed e) (map (firstn (e_needed e)) cols)) as FC.
      destruct (fed P E S e g (e_needed e) (map (firstn (e_needed e)) cols)) as (e1, g1). cbn [fst snd] in *.
      pose proof (t_needed _ _ Ht).
      specialize (IH (block_done e1 g1) g1 (n - e_needed e) (map (skipn (e_needed e)) cols)).
      unfold raise in IH at 1 2. unfold raise, set_pk in *. cbn [fst snd] in *.
      rewrite block_done_pk. rewrite block_done_filter in IH. apply IH; try apply HB; try lia.
      * rewrite map_length, Hc. destruct (block_done_config e1 g1) as (_ & _ & -> & _).
        destruct FC as (_ & _ & -> & _). auto.
      * now apply skipn_lengths.
    + rewrite (fed_raise P E S e g L) by auto.
      destruct (fed P E S e g n cols) as (e1, g1). unfold raise, set_pk. cbn [fst snd].
      rewrite tail_done_pk, tail_done_filter. reflexivity.
Qed.

(** The analyzer without its per-call peaks. *)
Definition forget (e : ebur128) : ebur128 := with_filter e (filter_reset_peaks (e_filter e)).

Lemma feed_with_peaks {T} P E (S : sample T) a b : forall fuel e g n cols,
  feed P E S fuel (with_peaks e a b) g n cols =
  (with_peaks (fst (feed P E S fuel e g n cols)) a b, snd (feed P E S fuel e g n cols)).
Proof.
  induction fuel; intros; cbn [feed]; [reflexivity|]. destruct (n =? 0); [reflexivity|].
  inv_fields. change (e_needed (with_peaks e a b)) with (e_needed e).
  destruct (e_needed e <=? n).
  - set (F := fed P E S e g (e_needed e) (map (firstn (e_needed e)) cols)).
    assert (fed P E S (with_peaks e a b) g (e_needed e) (map (firstn (e_needed e)) cols) =
      (with_peaks (fst F) a b, snd F)) as -> by reflexivity.
    destruct F as (e1, g1). cbn [fst snd].
    assert (block_done (with_peaks e1 a b) g1 = with_peaks (block_done e1 g1) a b) as ->; [|apply IHfuel].
    unfold block_done, gated. inv_fields. destruct (contains (e_mode e1) MODE_I);
      unfold shorted; inv_fields; destruct (contains (e_mode e1) MODE_LRA); inv_fields; try reflexivity;
      destruct (e_counter e1 + e_needed e1 =? e_s100 e1 * 30); reflexivity.
  - set (F := fed P E S e g n cols).
    assert (fed P E S (with_peaks e a b) g n cols = (with_peaks (fst F) a b, snd F)) as -> by reflexivity.
    destruct F as (e1, g1). cbn [fst snd]. unfold tail_done. inv_fields.
    destruct (contains (e_mode e1) MODE_LRA); reflexivity.
Qed.
Lemma feed_keeps_peaks {T} P E (S : sample T) : forall fuel e g n cols,
  e_sample_peak (fst (feed P E S fuel e g n cols)) = e_sample_peak e /\
  e_true_peak (fst (feed P E S fuel e g n cols)) = e_true_peak e.
Proof.
  intros. pose proof (feed_with_peaks P E S (e_sample_peak e) (e_true_peak e) fuel e g n cols) as H.
  assert (with_peaks e (e_sample_peak e) (e_true_peak e) = e) as He by (destruct e; reflexivity).
  rewrite He in H. rewrite H. auto.
Qed.

Lemma map2_max_zero {p e} (l m : list (binary_float p e)) : length l = length m -> Forall nn l ->
  (forall x, In x m -> x = B754_zero false) -> map2 bmax l m = l.
Proof.
  intros Hn Hl. revert m Hn. induction Hl; intros [|b m] Hn Hm; try discriminate; auto.
  cbn [map2]. rewrite IHHl by (try (injection Hn; auto); intros; apply Hm; now right).
  rewrite (Hm b) by now left. now rewrite bmax_zero_r.
Qed.
Lemma map2_max_assoc {p e} : forall (l m n : list (binary_float p e)), Forall nn l -> Forall nn m ->
  map2 bmax (map2 bmax l m) n = map2 bmax l (map2 bmax m n).
Proof.
  induction l; intros [|b m] [|c n] Hl Hm; cbn [map2]; auto.
  inversion_clear Hl. inversion_clear Hm. rewrite IHl by auto. now rewrite bmax_assoc.
Qed.
Lemma map_of32_max : forall l m, map f64_of_f32 (map2 max32 l m) = map2 max64 (map f64_of_f32 l) (map f64_of_f32 m).
Proof. induction l; intros [|b m]; cbn [map2 map]; auto. now rewrite IHl, f64_of_f32_max. Qed.

Lemma nn_of32 x : nn x -> nn (f64_of_f32 x).
Proof.
  intros (H1 & H2). destruct (is_finite x) eqn:Hf.
  - destruct (f64_of_f32_finite x Hf) as (A & B & C). split.
    + destruct (f64_of_f32 x); auto; discriminate.
    + congruence.
  - destruct x as [s|s| |s m e B]; try discriminate. cbn in H2. subst s. split; reflexivity.
Qed.
(** a state with cleared per-call peaks, raised by the peaks it had, is the state *)
Lemma raise_cleared P E e g L : inv P E e g L ->
  raise (cleared e g) (f_sample_peak (e_filter e)) (g_pk g) = (e, g).
Proof.
  intros H. pose proof (i_nn _ _ _ _ _ H) as (N1 & N2 & N3 & N4). pose proof (i_filter _ _ _ _ _ H) as HF.
  unfold raise, set_pk, cleared. cbn [fst snd g_pk]. inv_fields.
  change max64 with (@bmax 53 1024). change max32 with (@bmax 24 128).
  rewrite (map2_max_zero (g_pk g)); auto.
  2:{ rewrite repeat_length. apply HF. }
  2:{ intros x Hx. now apply repeat_spec in Hx. }
  cbn [filter_reset_peaks f_sample_peak]. rewrite (map2_max_zero (f_sample_peak (e_filter e))); auto.
  2:{ now rewrite map_length. }
  2:{ intros x (y & <- & _)%in_map_iff. reflexivity. }
  assert (filter_with_pk (filter_reset_peaks (e_filter e)) (f_sample_peak (e_filter e)) (g_pk g) = e_filter e) as Hf.
  { apply filter_ext; auto. cbn [filter_with_pk f_true_peak]. symmetry. apply HF. }
  unfold e_pk. inv_fields. rewrite Hf. f_equal; [destruct e; reflexivity|destruct g; reflexivity].
Qed.

Definition eqv (r r' : ebur128 * ghost) : Prop := cleared (fst r) (snd r) = cleared (fst r') (snd r').
Lemma eqv_forget r r' : eqv r r' -> forget (fst r) = forget (fst r').
Proof. intros H. exact (f_equal fst H). Qed.
Lemma added_eqv {T} P E (S : sample T) r r' n cols : eqv r r' ->
  eqv (added P E S (fst r) (snd r) n cols) (added P E S (fst r') (snd r') n cols).
Proof. intros H. unfold added. rewrite H. destruct (n =? 0); [exact H|reflexivity]. Qed.

Lemma cleared_pk e g sp p32 sp' : length sp = length (f_sample_peak (e_filter e)) ->
  length p32 = length (f_true_peak (e_filter e)) ->
  cleared (with_peaks (e_pk e sp p32) (fst sp') (snd sp')) (gh_pk g p32) = cleared (with_peaks e (fst sp') (snd sp')) g.
Proof.
  intros H1 H2. unfold cleared, e_pk. inv_fields.
  assert (filter_reset_peaks (filter_with_pk (e_filter e) sp p32) = filter_reset_peaks (e_filter e)) as ->.
  { apply filter_ext; auto; cbn [filter_reset_peaks filter_with_pk f_sample_peak f_true_peak].
    - revert H1. generalize (f_sample_peak (e_filter e)). induction sp; intros [|b l] Hl; try discriminate; auto.
      cbn [map]. f_equal. apply IHsp. now injection Hl.
    - rewrite map_map. revert H2. generalize (f_true_peak (e_filter e)). induction p32; intros [|b l] Hl; try discriminate; auto.
      cbn [map]. f_equal. apply IHp32. now injection Hl. }
  reflexivity.
Qed.

Lemma added_app {T} P E (S : sample T) L n m e g c1 c2 : p_ftz P = true -> sample_ok S ->
  inv P E e g L -> timing e L -> length c1 = e_channels e -> length c2 = e_channels e ->
  Forall (fun c => length c = n) c1 -> Forall (fun c => length c = m) c2 ->
  let r1 := added P E S e g n c1 in
  eqv (added P E S e g (n + m) (capp c1 c2)) (added P E S (fst r1) (snd r1) m c2).
Proof.
  intros HP HS H Ht L1 L2 F1 F2. cbv zeta.
  set (r1 := added P E S e g n c1). assert (r1 = added P E S e g n c1) as Hr1 by reflexivity. clearbody r1.
  unfold added in Hr1.
  destruct (Nat.eqb_spec n 0) as [->|Hn].
  { subst r1. cbn [fst snd]. rewrite capp_nil_l by (auto; lia). reflexivity. }
  unfold added at 1. destruct (Nat.eqb_spec (n + m) 0); [lia|].
  pose proof (cleared_ok _ _ _ _ _ H) as H0.
  assert (timing (fst (cleared e g)) L) as T0 by (destruct Ht; split; auto).
  assert (e_sample_peak (fst (cleared e g)) = e_sample_peak e) as SP0 by reflexivity.
  assert (e_true_peak (fst (cleared e g)) = e_true_peak e) as TP0 by reflexivity.
  assert (e_channels (fst (cleared e g)) = e_channels e) as EC0 by reflexivity.
  destruct (cleared e g) as (e0, g0). cbn [fst snd] in *.
  rewrite (feed_app P E S L) by (auto; lia).
  pose proof (feed_inv P E S e0 g0 L n n c1 H0 T0 ltac:(lia) F1 (le_n n)) as (Ha & Ta).
  pose proof (feed_keeps_peaks P E S n e0 g0 n c1) as (SPa & TPa).
  pose proof (feed_config P E S n e0 g0 n c1) as (_ & _ & ECa & _).
  destruct (feed P E S n e0 g0 n c1) as (ea, ga). cbn [fst snd] in *. subst r1. cbn [fst snd].
  unfold added. destruct (Nat.eqb_spec m 0) as [->|Hm].
  { cbn [feed]. reflexivity. }
  pose proof (cleared_ok _ _ _ _ _ Ha) as Hc.
  assert (timing (fst (cleared ea ga)) L) as Tc by (destruct Ta; split; auto).
  pose proof (i_nn _ _ _ _ _ Ha) as (Na1 & Na2 & Na3 & Na4).
  pose proof (i_nn _ _ _ _ _ H) as (N1 & N2 & _ & _).
  pose proof (raise_cleared _ _ _ _ _ Ha) as HR.
  assert (e_channels (fst (cleared ea ga)) = e_channels ea) as EC1 by reflexivity.
  assert (e_sample_peak (fst (cleared ea ga)) = e_sample_peak ea) as SPc by reflexivity.
  assert (e_true_peak (fst (cleared ea ga)) = e_true_peak ea) as TPc by reflexivity.
  assert (cleared (retained ea) ga = (with_peaks (fst (cleared ea ga)) (e_sample_peak (retained ea)) (e_true_peak (retained ea)), snd (cleared ea ga)))
    as Hcr by reflexivity.
  rewrite Hcr. clear Hcr.
  pose proof (feed_raise P E S L _ _ Na3 Na4 m (fst (cleared ea ga)) (snd (cleared ea ga)) m c2 Hc Tc ltac:(lia) F2 (le_n m)) as FR.
  rewrite <- surjective_pairing, HR in FR. cbn [fst snd] in FR.
  assert (feed P E S m ea ga m c2 = raise (feed P E S m (fst (cleared ea ga)) (snd (cleared ea ga)) m c2) (f_sample_peak (e_filter ea)) (g_pk ga)) as -> by exact FR.
  clear FR HR.
  rewrite feed_with_peaks.
  pose proof (feed_inv P E S _ _ L m m c2 Hc Tc ltac:(lia) F2 (le_n m)) as (Hb & Tb).
  pose proof (feed_keeps_peaks P E S m (fst (cleared ea ga)) (snd (cleared ea ga)) m c2) as (SPb & TPb).
  pose proof (feed_config P E S m (fst (cleared ea ga)) (snd (cleared ea ga)) m c2) as (_ & _ & ECb & _).
  destruct (feed P E S m (fst (cleared ea ga)) (snd (cleared ea ga)) m c2) as (eb, gb). cbn [fst snd] in *.
  pose proof (i_filter _ _ _ _ _ Ha) as HFa. pose proof (i_filter _ _ _ _ _ Hb) as HFb.
  pose proof (i_nn _ _ _ _ _ Hb) as (Nb1 & Nb2 & Nb3 & Nb4).
  unfold eqv, raise, set_pk. cbn [fst snd]. unfold retained. inv_fields.
  unfold e_pk at 2 3 4 5. inv_fields. cbn [filter_with_pk f_sample_peak f_true_peak].
  set (sp' := (map2 max64 (e_sample_peak eb) (map2 max64 (f_sample_peak (e_filter ea)) (f_sample_peak (e_filter eb))),
               map2 max64 (e_true_peak eb) (map f64_of_f32 (map2 max32 (g_pk ga) (g_pk gb))))).
  change (map2 max64 (e_sample_peak eb) (map2 max64 (f_sample_peak (e_filter ea)) (f_sample_peak (e_filter eb)))) with (fst sp').
  change (map2 max64 (e_true_peak eb) (map f64_of_f32 (map2 max32 (g_pk ga) (g_pk gb)))) with (snd sp').
  etransitivity; [apply cleared_pk|].
  - rewrite map2_length'; [|eapply eq_trans; [apply HFa|symmetry; eapply eq_trans; [apply HFb|congruence]]].
    eapply eq_trans; [apply HFa|symmetry; eapply eq_trans; [apply HFb|congruence]].
  - rewrite (fo_tpk _ _ _ _ _ _ _ _ _ HFb), map_length.
    rewrite map2_length'; (eapply eq_trans; [apply HFa|symmetry; eapply eq_trans; [apply HFb|congruence]]).
  - assert (fst sp' = map2 max64 (map2 max64 (e_sample_peak ea) (f_sample_peak (e_filter ea))) (f_sample_peak (e_filter eb))) as ->.
    { subst sp'. cbn [fst]. symmetry. rewrite SPb, SPc. exact (map2_max_assoc (e_sample_peak ea) (f_sample_peak (e_filter ea)) (f_sample_peak (e_filter eb)) Na1 Na3). }
    assert (snd sp' = map2 max64 (map2 max64 (e_true_peak ea) (f_true_peak (e_filter ea))) (f_true_peak (e_filter eb))) as ->.
    { subst sp'. cbn [snd]. rewrite map_of32_max.
      rewrite <- (fo_tpk _ _ _ _ _ _ _ _ _ HFa), <- (fo_tpk _ _ _ _ _ _ _ _ _ HFb).
      symmetry. rewrite TPb, TPc. refine (map2_max_assoc (e_true_peak ea) (f_true_peak (e_filter ea)) (f_true_peak (e_filter eb)) Na2 _).
      rewrite (fo_tpk _ _ _ _ _ _ _ _ _ HFa). rewrite Forall_map. eapply Forall_impl; [|exact Na4].
      intros x Hx. now apply nn_of32. }
    reflexivity.
Qed.
