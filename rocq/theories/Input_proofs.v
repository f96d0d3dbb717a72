(** Every sample format and layout is read as columns of readings. *)
From Coq Require Import List Arith NArith ZArith Bool Lia Reals Lra.
From Flocq Require Import Core.Core IEEE754.BinarySingleNaN.
From Verif Require Import Prelude Float Env Utils History Interp TruePeak Filter Ebur128 Ref Spec
  Prelude_proofs Utils_proofs Interp_proofs Float_proofs TruePeak_proofs Filter_proofs
  Geometry_proofs History_proofs Ebur128_proofs Ops_proofs Chunk_proofs Reach_proofs.
Import ListNotations.

(** readings as a sample format *)
Definition smp_reading : sample reading := {|
  s_raw := r_level; s_max := f64_one; s_f64 := r_64; s_f32 := fun _ r => r_32 r |}.

Lemma smp_reading_ok : sample_ok smp_reading.
Proof. split; reflexivity. Qed.

(** integers up to 2^53 are exact *)
Lemma F2R_Z0 z : F2R (Float radix2 z 0) = IZR z.
Proof. unfold F2R. simpl. lra. Qed.
Lemma generic_IZR p e z : (0 < p)%Z -> (p < e)%Z -> (3 <= e)%Z -> (Z.abs z <= 2 ^ p)%Z ->
  generic_format radix2 (SpecFloat.fexp p e) (IZR z).
Proof.
  intros Hp He He3 Hz. destruct (Z.eq_dec (Z.abs z) (2 ^ p)) as [E|E].
  - assert (generic_format radix2 (SpecFloat.fexp p e) (IZR (2 ^ p))) as H.
    { rewrite (IZR_Zpower radix2) by lia. apply generic_format_bpow. unfold SpecFloat.fexp, SpecFloat.emin. lia. }
    destruct (Z.abs_eq_or_opp z) as [A|A].
    + rewrite A in E. now rewrite E.
    + replace z with (- (2 ^ p))%Z by lia. rewrite opp_IZR. now apply generic_format_opp.
  - rewrite <- F2R_Z0. apply generic_format_F2R. intros Hz0. unfold cexp, SpecFloat.fexp, SpecFloat.emin.
    rewrite F2R_Z0. assert (mag radix2 (IZR z) <= p)%Z; [|lia].
    apply mag_le_bpow. { now apply IZR_neq. }
    rewrite <- abs_IZR, <- (IZR_Zpower radix2) by lia. apply IZR_lt. change (radix2 ^ p)%Z with (2 ^ p)%Z. lia.
Qed.
Lemma f64_of_Z_exact z : (Z.abs z <= 2 ^ 53)%Z ->
  is_finite (f64_of_Z z) = true /\ B2R (f64_of_Z z) = IZR z /\ Bsign (f64_of_Z z) = (z <? 0)%Z.
Proof.
  intros Hz. unfold f64_of_Z, f64_bin.
  pose proof (binary_normalize_correct 53 1024 _ _ mode_NE z 0 false) as H.
  cbv zeta in H. rewrite F2R_Z0 in H. change (round_mode mode_NE) with ZnearestE in H.
  rewrite rnd64_generic in H by (apply generic_IZR; lia).
  rewrite Rlt_bool_true in H.
  - destruct H as (H1 & H2 & H3). repeat split; auto. rewrite H3.
    destruct (Z.ltb_spec z 0).
    + rewrite Rcompare_Lt; auto. now apply IZR_lt.
    + destruct (Z.eq_dec z 0) as [->|].
      * rewrite Rcompare_Eq; auto.
      * rewrite Rcompare_Gt; auto. apply IZR_lt. lia.
  - rewrite <- abs_IZR. apply Rle_lt_trans with (IZR (2 ^ 53)); [now apply IZR_le|].
    rewrite (IZR_Zpower radix2) by lia. apply bpow_lt. lia.
Qed.
Lemma B2R_one : B2R f64_one = 1%R.
Proof. apply f64_of_Z_exact. lia. Qed.
Lemma f64_div_one (x : f64) : nn x -> f64_div x f64_one = x.
Proof.
  intros Hx. destruct (is_finite x) eqn:Hf.
  - destruct (f64_div_nn_cases f64_one) with (a := x) as [(H1 & H2 & H3 & _)|H]; auto.
    { rewrite B2R_one. lra. }
    + apply (B2R_Bsign_inj _ _ _ _ H2 Hf).
      * rewrite H1, B2R_one. replace (B2R x / 1)%R with (B2R x) by field. apply rnd64_generic, B2R_64.
      * destruct H3, Hx. congruence.
    + exfalso. destruct H as (_ & H). rewrite B2R_one in H. replace (B2R x / 1)%R with (B2R x) in H by field. rewrite rnd64_generic in H by apply B2R_64.
      pose proof (abs_B2R_lt_emax _ _ x). pose proof (Rle_abs (B2R x)). lra.
  - destruct x as [s|s| |s m e B]; try discriminate.
    + destruct s; [destruct Hx; discriminate|]. reflexivity.
    + destruct Hx; discriminate.
Qed.

(** * One channel of readings *)
Lemma fold_mono g (l : list f64) : mono64 g -> (forall x, is_nan x = true -> is_nan (g x) = true) ->
  Forall (fun x => nn x \/ is_nan x = true) l ->
  forall a, nn a -> g (fold_left bmax l a) = fold_left bmax (map g l) (g a).
Proof.
  intros Hg Hnan H. induction H as [|x l Hx Hl IH]; intros a Ha; cbn [fold_left map]; auto.
  destruct Hx as [Hx|Hx].
  - rewrite IH by now apply bmax_nn. f_equal. exact (mono64_max g a x Hg Ha Hx).
  - assert (bmax a x = a) as -> by exact (max64_nan_l a x Hx).
    assert (bmax (g a) (g x) = g a) as -> by exact (max64_nan_l (g a) (g x) (Hnan x Hx)).
    now apply IH.
Qed.
Lemma abs_nn_or_nan (x : f64) : nn (f64_abs x) \/ is_nan (f64_abs x) = true.
Proof. destruct x; (right; reflexivity) || (left; split; reflexivity). Qed.
Lemma f64_div_nan_l (c x : f64) : is_nan x = true -> is_nan (f64_div x c) = true.
Proof. destruct x; try discriminate. intros _. destruct c; reflexivity. Qed.
Lemma ftz64_nan P x : is_nan (ftz64 P x) = is_nan x.
Proof. unfold ftz64. destruct (p_ftz P); auto. destruct x as [s|s| |s m e H]; auto. unfold flush64. destruct (_ <? _)%Z; auto. Qed.
Lemma scale_peak_nan {T} P (S : sample T) x : is_nan x = true -> is_nan (scale_peak P S x) = true.
Proof. intros H. unfold scale_peak. rewrite ftz64_nan. now apply f64_div_nan_l. Qed.
Lemma scale_zero {T} P (S : sample T) : sample_ok S -> scale_peak P S f64_zero = f64_zero.
Proof.
  intros (H1 & H2). unfold scale_peak. destruct (s_max S) as [s|s| |s m e Hb]; try discriminate.
  cbn in H2. subst s. unfold f64_div, ftz64. cbn. destruct (p_ftz P); reflexivity.
Qed.

Definition top (l : list f64) : f64 := fold_left bmax l f64_zero.
Lemma chan_peak_top {T} P (S : sample T) pk xs : sample_ok S ->
  chan_peak P S pk xs = max64 pk (top (map r_level (map (read P S) xs))).
Proof.
  intros HS. unfold chan_peak. change (ftz64 P (f64_div ?x (s_max S))) with (scale_peak P S x).
  f_equal. rewrite raw_max_fold. rewrite (fold_mono (scale_peak P S)).
  - rewrite scale_zero by auto. unfold top. rewrite !map_map. reflexivity.
  - now apply scale_peak_mono.
  - apply scale_peak_nan.
  - rewrite Forall_map. apply Forall_forall. intros x _. apply abs_nn_or_nan.
  - apply nn_zero.
Qed.
Lemma read_level {T} P (S : sample T) x : sample_ok S -> nn (r_level (read P S x)) \/ is_nan (r_level (read P S x)) = true.
Proof.
  intros HS. cbn [read r_level]. destruct (abs_nn_or_nan (s_raw S x)) as [H|H].
  - left. exact (proj1 (scale_peak_mono P S HS) _ H).
  - right. now apply scale_peak_nan.
Qed.
Lemma read_stable {T} P (S : sample T) x : ftz64 P (r_level (read P S x)) = r_level (read P S x).
Proof. apply ftz64_idem. Qed.

(** a reading that came from a sample *)
Definition proper (P : platform) (r : reading) : Prop :=
  (nn (r_level r) \/ r_level r = B754_nan) /\ ftz64 P (r_level r) = r_level r.
Lemma read_proper {T} P (S : sample T) x : sample_ok S -> proper P (read P S x).
Proof.
  intros HS. split; [|apply read_stable]. destruct (read_level P S x HS) as [H|H]; auto.
  right. destruct (r_level (read P S x)); auto; discriminate.
Qed.
Lemma read_reading P r : proper P r -> read P smp_reading r = r.
Proof.
  intros (H & Hs). destruct r as [lv a b]. cbn in *. unfold read. cbn [smp_reading s_raw s_max s_f64 s_f32 r_level r_64 r_32].
  f_equal. destruct H as [H| ->].
  - assert (f64_abs lv = lv) as ->.
    { destruct H as (_ & H). destruct lv; cbn in *; subst; reflexivity. }
    now rewrite f64_div_one.
  - exact Hs.
Qed.
Lemma map_read_reading P l : Forall (proper P) l -> map (read P smp_reading) l = l.
Proof. intros H. rewrite <- (map_id l) at 2. apply map_ext_in. intros r Hr. apply read_reading. rewrite Forall_forall in H. auto. Qed.
Lemma chan_peak_read {T} P (S : sample T) pk xs : sample_ok S ->
  chan_peak P S pk xs = chan_peak P smp_reading pk (map (read P S) xs).
Proof.
  intros HS. rewrite chan_peak_top by auto. rewrite (chan_peak_top P smp_reading) by apply smp_reading_ok.
  rewrite map_read_reading; auto. rewrite Forall_map. apply Forall_forall. intros. now apply read_proper.
Qed.
Lemma chan_ys_read {T} P (S : sample T) b a st xs : chan_ys P S b a st xs = chan_ys P smp_reading b a st (map (read P S) xs).
Proof. unfold chan_ys. rewrite map_map. reflexivity. Qed.

Lemma map4_map {A B C D D' F} (f : A -> B -> C -> D -> F) (f' : A -> B -> C -> D' -> F) (h : D -> D') :
  (forall a b c d, f a b c d = f' a b c (h d)) ->
  forall l m n o, map4 f l m n o = map4 f' l m n (map h o).
Proof. intros H. induction l; destruct m, n, o; simpl; auto. now rewrite H, IHl. Qed.
Lemma map3_map {A B D D' F} (f : A -> B -> D -> F) (f' : A -> B -> D' -> F) (h : D -> D') :
  (forall a b d, f a b d = f' a b (h d)) ->
  forall l m o, map3 f l m o = map3 f' l m (map h o).
Proof. intros H. induction l; destruct m, o; simpl; auto. now rewrite H, IHl. Qed.
Lemma map2_mapr {A D D' F} (f : A -> D -> F) (f' : A -> D' -> F) (h : D -> D') :
  (forall a d, f a d = f' a (h d)) ->
  forall l o, map2 f l o = map2 f' l (map h o).
Proof. intros H. induction l; destruct o; simpl; auto. now rewrite H, IHl. Qed.

Definition reads {T} P (S : sample T) (cols : list (list T)) : list (list reading) := map (map (read P S)) cols.

Lemma c32_read {T} P (S : sample T) cols :
  map (map (s_f32 smp_reading P)) (reads P S cols) = map (map (s_f32 S P)) cols.
Proof. unfold reads. rewrite map_map. apply map_ext. intros c. now rewrite map_map. Qed.
Lemma chan_plane_read {T} P (S : sample T) b a i ch st plane xs :
  chan_plane P S b a i ch st plane xs = chan_plane P smp_reading b a i ch st plane (map (read P S) xs).
Proof. unfold chan_plane. now rewrite chan_ys_read. Qed.
Lemma chan_state_read {T} P (S : sample T) b a ch st xs :
  chan_state P S b a ch st xs = chan_state P smp_reading b a ch st (map (read P S) xs).
Proof. unfold chan_state. now rewrite map_map. Qed.
Lemma fed_read {T} P E (S : sample T) e g n cols : sample_ok S ->
  fed P E S e g n cols = fed P E smp_reading e g n (reads P S cols).
Proof.
  intros HS. unfold fed. rewrite c32_read.
  assert (filter_after P E (e_rate e) (contains (e_mode e) MODE_TRUE_PEAK) S (e_filter e) (g_hs g) (g_pk g) (e_cmap e) n cols
    = filter_after P E (e_rate e) (contains (e_mode e) MODE_TRUE_PEAK) smp_reading (e_filter e) (g_hs g) (g_pk g) (e_cmap e) n (reads P S cols)) as ->.
  { unfold filter_after. rewrite c32_read. unfold reads.
    rewrite (map3_map _ _ _ (chan_state_read P S (f_b (e_filter e)) (f_a (e_filter e)))).
    rewrite (map2_mapr _ _ _ (fun pk xs => chan_peak_read P S pk xs HS)). reflexivity. }
  pose proof (map4_map _ _ _ (chan_plane_read P S (f_b (e_filter e)) (f_a (e_filter e)) (e_index e))
    (e_cmap e) (f_state (e_filter e)) (g_planes g) cols) as Hp.
  fold (reads P S cols) in Hp. now rewrite Hp.
Qed.
Lemma reads_firstn {T} P (S : sample T) k cols : map (firstn k) (reads P S cols) = reads P S (map (firstn k) cols).
Proof. unfold reads. rewrite !map_map. apply map_ext. intros c. apply firstn_map. Qed.
Lemma skipn_map {A B} (f : A -> B) k l : skipn k (map f l) = map f (skipn k l).
Proof. revert l. induction k; destruct l; simpl; auto. Qed.
Lemma reads_skipn {T} P (S : sample T) k cols : map (skipn k) (reads P S cols) = reads P S (map (skipn k) cols).
Proof. unfold reads. rewrite !map_map. apply map_ext. intros c. apply skipn_map. Qed.
Lemma feed_read {T} P E (S : sample T) : sample_ok S -> forall fuel e g n cols,
  feed P E S fuel e g n cols = feed P E smp_reading fuel e g n (reads P S cols).
Proof.
  intros HS. induction fuel; intros; cbn [feed]; auto. destruct (n =? 0); auto. destruct (e_needed e <=? n).
  - rewrite reads_firstn, reads_skipn, <- fed_read by auto. destruct (fed P E S e g _ _). apply IHfuel.
  - now rewrite <- fed_read.
Qed.
Lemma added_read {T} P E (S : sample T) e g n cols : sample_ok S ->
  added P E S e g n cols = added P E smp_reading e g n (reads P S cols).
Proof. intros HS. unfold added. destruct (n =? 0); auto. destruct (cleared e g). now rewrite feed_read. Qed.
Lemma seeded_read {T} P E (S : sample T) e g n cols :
  seeded P E S e g n cols = seeded P E smp_reading e g n (reads P S cols).
Proof.
  unfold seeded. rewrite c32_read.
  assert (filter_seeded P S (e_filter e) (e_cmap e) n cols
        = filter_seeded P smp_reading (e_filter e) (e_cmap e) n (reads P S cols)) as ->; [|reflexivity].
  unfold filter_seeded. rewrite c32_read. unfold reads.
  now rewrite (map3_map _ _ _ (chan_state_read P S (f_b (e_filter e)) (f_a (e_filter e)))).
Qed.

(** * Layouts *)
Lemma channel_samples_col {T} C c : c < C -> forall n (l : list T), length l = n * C ->
  channel_samples C c l = col c (chunks C l).
Proof.
  intros Hc. induction n as [|n IH]; intros l Hl.
  - destruct l; [|discriminate Hl]. unfold channel_samples. cbn [length]. rewrite Nat.div_0_l by lia. reflexivity.
  - set (f := firstn C l). set (l' := skipn C l).
    assert (l = f ++ l') as El by (symmetry; apply firstn_skipn).
    assert (length f = C) as Hf by (unfold f; rewrite firstn_length; lia).
    assert (length l' = n * C) as Hl' by (unfold l'; rewrite skipn_length; lia).
    destruct (chunks_split C l' n) as (K1 & K2 & K3); [lia|auto|].
    assert (chunks C l = f :: chunks C l') as ->.
    { rewrite El, <- K1 at 1. change (f ++ concat (chunks C l')) with (concat (f :: chunks C l')).
      apply chunks_concat; [lia|]. constructor; auto. }
    rewrite col_cons, <- IH by auto. unfold channel_samples.
    rewrite Hl, Hl', !Nat.div_mul by lia. cbn [seq flat_map]. f_equal.
    + rewrite El. rewrite nth_error_app1 by lia. cbn [Nat.mul Nat.add].
      destruct (nth_error f c) eqn:E.
      * apply nth_error_split in E. destruct E as (a & b & -> & <-). now rewrite skipn_app, skipn_all, Nat.sub_diag.
      * apply nth_error_None in E. lia.
    + rewrite <- seq_shift, !flat_map_concat_map, map_map. f_equal. apply map_ext. intros k.
      rewrite El, nth_error_app2 by (cbn; lia). replace (S k * C + c - length f) with (k * C + c) by (cbn; lia). reflexivity.
Qed.
Lemma deinterleave_cols {T} C n (l : list T) : length l = n * C -> deinterleave C l = cols_of C (chunks C l).
Proof.
  intros Hl. unfold deinterleave, cols_of. apply map_ext_in. intros c Hc. apply in_seq in Hc.
  apply channel_samples_col with n; auto; lia.
Qed.
Lemma flat_map_map {A B D} (f : A -> B) (g : B -> list D) l : flat_map g (map f l) = flat_map (fun x => g (f x)) l.
Proof. induction l; simpl; congruence. Qed.
Lemma map_flat_map {A B D} (f : B -> D) (g : A -> list B) l : map f (flat_map g l) = flat_map (fun x => map f (g x)) l.
Proof. induction l; simpl; auto. now rewrite map_app, IHl. Qed.
Lemma deinterleave_map {A B} (f : A -> B) C l : deinterleave C (map f l) = map (map f) (deinterleave C l).
Proof.
  unfold deinterleave, channel_samples. rewrite map_map, map_length. apply map_ext. intros c.
  rewrite map_flat_map. apply flat_map_ext. intros k. rewrite nth_error_map. destruct (nth_error l _); reflexivity.
Qed.
Lemma deinterleave_length {T} C (l : list T) : length (deinterleave C l) = C.
Proof. unfold deinterleave. now rewrite map_length, seq_length. Qed.
Lemma interleave_transpose {T} n : forall (cols : list (list T)), interleave n cols = concat (transpose n cols).
Proof. induction n; intros; auto. cbn [interleave transpose concat]. now rewrite IHn, flat_map_concat_map. Qed.
Lemma deinterleave_interleave {T} n (cols : list (list T)) : cols <> [] ->
  Forall (fun c => length c = n) cols -> deinterleave (length cols) (interleave n cols) = cols.
Proof.
  intros Hne H. rewrite interleave_transpose. pose proof (transpose_rows_length n cols H) as Hr.
  assert (0 < length cols) by (destruct cols; [congruence|cbn; lia]).
  pose proof (transpose_length n cols) as Hn.
  rewrite (deinterleave_cols _ n).
  - rewrite chunks_concat by auto. now apply cols_of_transpose.
  - rewrite (concat_length_const (length cols)) by auto. lia.
Qed.
Lemma interleave_length {T} n (cols : list (list T)) :
  Forall (fun c => length c = n) cols -> length (interleave n cols) = n * length cols.
Proof.
  intros H. rewrite interleave_transpose. pose proof (transpose_rows_length n cols H) as Hr.
  rewrite (concat_length_const (length cols)) by auto. now rewrite transpose_length.
Qed.

(** * Adding and seeding in terms of the readings *)
Definition frame_count {T} (cols : list (list T)) : nat := length (hd [] cols).
Definition columns {T} (C : nat) (cols : list (list T)) : Prop :=
  length cols = C /\ Forall (fun c => length c = frame_count cols) cols.
Definition add_result P E e g (i : option (list (list reading))) : result unit * ebur128 :=
  match i with
  | None => (Err NoMem, e)
  | Some cols => (Ok tt, fst (added P E smp_reading e g (frame_count cols) cols))
  end.
Definition seed_result P E e g (i : option (list (list reading))) : result unit * ebur128 :=
  match i with
  | None => (Err NoMem, e)
  | Some cols => (Ok tt, fst (seeded P E smp_reading e g (frame_count cols) cols))
  end.
Definition input_ok P C (i : option (list (list reading))) : Prop :=
  match i with None => True | Some cols => columns C cols /\ Forall (Forall (proper P)) cols end.

Lemma columns_frames {T} C n (cols : list (list T)) : 0 < C -> length cols = C ->
  Forall (fun c => length c = n) cols -> frame_count cols = n.
Proof. intros HC HL H. destruct H; [cbn in HL; lia|]. auto. Qed.
Lemma columns_intro {T} C n (cols : list (list T)) : 0 < C -> length cols = C ->
  Forall (fun c => length c = n) cols -> columns C cols.
Proof. intros HC HL H. split; auto. rewrite (columns_frames C n) by auto. auto. Qed.
Lemma reads_lengths {T} P (S : sample T) n cols :
  Forall (fun c => length c = n) cols -> Forall (fun c => length c = n) (reads P S cols).
Proof. intros H. unfold reads. rewrite Forall_map. eapply Forall_impl; [|apply H]. intros c Hc. cbn. now rewrite map_length. Qed.
Lemma reads_proper {T} P (S : sample T) cols : sample_ok S -> Forall (Forall (proper P)) (reads P S cols).
Proof.
  intros HS. unfold reads. rewrite Forall_map. apply Forall_forall. intros c _. rewrite Forall_map.
  apply Forall_forall. intros. now apply read_proper.
Qed.

Lemma interleaved_cases {T} P (S : sample T) C l : 0 < C -> sample_ok S ->
  (interleaved_input P S C l = None /\ interleaved_new l C = Err NoMem) \/
  (exists cols, interleaved_input P S C l = Some (reads P S cols) /\ interleaved_new l C = Ok (Interleaved l C) /\
     view (Interleaved l C) (frame_count (reads P S cols)) cols /\ length cols = C /\
     Forall (fun c => length c = frame_count (reads P S cols)) cols).
Proof.
  intros HC HS. unfold interleaved_input. destruct (interleaved_new_cases l C HC) as [(n & cols & H1 & H2 & H3 & H4)|(H1 & H2)].
  - right. pose proof (interleaved_new_view l C _ H1) as (Hv & _).
    exists (cols_of C (chunks C l)).
    assert (length l mod C = 0) as E0 by (rewrite H2; apply Nat.mod_mul; lia). rewrite E0. cbn [Nat.eqb].
    rewrite deinterleave_map, (deinterleave_cols C n) by auto. split; [reflexivity|]. split; [exact H1|].
    pose proof (view_lengths _ _ _ Hv) as Hlen.
    assert (length l / C = frame_count (reads P S (cols_of C (chunks C l)))) as <-.
    { symmetry. apply columns_frames with C; auto.
      - unfold reads. now rewrite map_length, cols_of_length.
      - now apply reads_lengths. }
    split; auto. split; auto. apply cols_of_length.
  - left. split; auto. destruct (Nat.eqb_spec (length l mod C) 0) as [E0|E0]; auto.
    exfalso. apply H2. exists (length l / C). rewrite (Nat.div_mod_eq (length l) C) at 1. lia.
Qed.
Lemma planar_cases {T} P (S : sample T) C l : 0 < C -> planes_ok C l ->
  (planar_input P S l = None /\ planar_new l = Err NoMem) \/
  (exists n, planar_input P S l = Some (reads P S l) /\ planar_new l = Ok (Planar l 0 n) /\ n = frame_count (reads P S l) /\
     view (Planar l 0 n) n l /\ length l = C /\ Forall (fun c => length c = n) l).
Proof.
  intros HC Hp. destruct (planar_new_cases l) as [(n & H1 & H2 & H3 & H4)|(H1 & H2)].
  - right. exists n. assert (length l = C) as HL by (apply Hp; eauto).
    destruct l as [|p l]; [congruence|]. cbn [planar_input].
    replace (forallb (fun q => length q =? length p) (p :: l)) with true.
    + split; [reflexivity|]. split; auto. split; auto.
      symmetry. apply columns_frames with C; auto.
      * unfold reads. now rewrite map_length.
      * now apply reads_lengths.
    + symmetry. apply forallb_forall. intros q Hq. rewrite Forall_forall in H3. apply Nat.eqb_eq.
      rewrite (H3 q Hq). symmetry. apply H3. now left.
  - left. split; auto. destruct H2 as [->|(a & b & Ha & Hb & Hab)]; auto.
    destruct l as [|p l]; auto. cbn [planar_input].
    destruct (forallb (fun q => length q =? length p) (p :: l)) eqn:E; auto. exfalso.
    rewrite forallb_forall in E. apply Hab.
    pose proof (proj1 (Nat.eqb_eq _ _) (E a Ha)). pose proof (proj1 (Nat.eqb_eq _ _) (E b Hb)). congruence.
Qed.

Lemma add_interleaved_input {T} P E (S : sample T) L e g l : sample_ok S -> inv P E e g L -> timing e L ->
  add_frames_interleaved P S e l = Ret (add_result P E e g (interleaved_input P S (e_channels e) l)) /\
  input_ok P (e_channels e) (interleaved_input P S (e_channels e) l).
Proof.
  intros HS H Ht. pose proof (i_C _ _ _ _ _ H) as HC. unfold add_frames_interleaved.
  destruct (interleaved_cases P S (e_channels e) l) as [(-> & ->)|(cols & -> & -> & Hv & Hc & Hl)]; auto; try lia.
  { split; [reflexivity|exact I]. }
  destruct (add_frames_ok P E S L e g _ _ _ H Ht Hv Hc) as (-> & _). cbn [add_result input_ok].
  rewrite added_read by auto. split; [reflexivity|]. split.
  - apply columns_intro with (frame_count (reads P S cols)); [lia| |now apply reads_lengths].
    unfold reads. now rewrite map_length.
  - now apply reads_proper.
Qed.
Lemma add_planar_input {T} P E (S : sample T) L e g l : sample_ok S -> inv P E e g L -> timing e L ->
  planes_ok (e_channels e) l ->
  add_frames_planar P S e l = Ret (add_result P E e g (planar_input P S l)) /\
  input_ok P (e_channels e) (planar_input P S l).
Proof.
  intros HS H Ht Hp. pose proof (i_C _ _ _ _ _ H) as HC. unfold add_frames_planar.
  destruct (planar_cases P S (e_channels e) l) as [(-> & ->)|(n & -> & -> & -> & Hv & Hc & Hl)]; auto; try lia.
  { split; [reflexivity|exact I]. }
  destruct (add_frames_ok P E S L e g _ _ _ H Ht Hv Hc) as (-> & _). cbn [add_result input_ok].
  rewrite added_read by auto. split; [reflexivity|]. split.
  - apply columns_intro with (frame_count (reads P S l)); [lia| |now apply reads_lengths].
    unfold reads. now rewrite map_length.
  - now apply reads_proper.
Qed.
Lemma seed_interleaved_input {T} P E (S : sample T) L e g l : sample_ok S -> inv P E e g L -> 
  seed_frames_interleaved P S e l = Ret (seed_result P E e g (interleaved_input P S (e_channels e) l)).
Proof.
  intros HS H. pose proof (i_C _ _ _ _ _ H) as HC. unfold seed_frames_interleaved.
  destruct (interleaved_cases P S (e_channels e) l) as [(-> & ->)|(cols & -> & -> & Hv & Hc & Hl)]; auto; try lia.
  destruct (seed_frames_ok P E S L e g _ _ _ H Hv Hc) as (-> & _). cbn [seed_result obind].
  now rewrite seeded_read by auto.
Qed.
Lemma seed_planar_input {T} P E (S : sample T) L e g l : sample_ok S -> inv P E e g L ->
  planes_ok (e_channels e) l ->
  seed_frames_planar P S e l = Ret (seed_result P E e g (planar_input P S l)).
Proof.
  intros HS H Hp. pose proof (i_C _ _ _ _ _ H) as HC. unfold seed_frames_planar.
  destruct (planar_cases P S (e_channels e) l) as [(-> & ->)|(n & -> & -> & -> & Hv & Hc & Hl)]; auto; try lia.
  destruct (seed_frames_ok P E S L e g _ _ _ H Hv Hc) as (-> & _). cbn [seed_result obind].
  now rewrite seeded_read by auto.
Qed.

Lemma step_add P E L e g a : inv P E e g L -> timing e L -> audio_ok (e_channels e) a ->
  step P E e (OpAdd a) = Ret (add_result P E e g (input P (e_channels e) a)) /\
  input_ok P (e_channels e) (input P (e_channels e) a).
Proof.
  intros H Ht Ha. destruct a as [l|l|l|l|l|l|l|l]; cbn [step input audio_ok] in *.
  - apply add_interleaved_input with L; auto using smp_i16_ok.
  - apply add_interleaved_input with L; auto using smp_i32_ok.
  - apply add_interleaved_input with L; auto using smp_f32_ok.
  - apply add_interleaved_input with L; auto using smp_f64_ok.
  - apply add_planar_input with L; auto using smp_i16_ok.
  - apply add_planar_input with L; auto using smp_i32_ok.
  - apply add_planar_input with L; auto using smp_f32_ok.
  - apply add_planar_input with L; auto using smp_f64_ok.
Qed.
Lemma step_seed P E L e g a : inv P E e g L -> audio_ok (e_channels e) a ->
  step P E e (OpSeed a) = Ret (seed_result P E e g (input P (e_channels e) a)).
Proof.
  intros H Ha. destruct a as [l|l|l|l|l|l|l|l]; cbn [step input audio_ok] in *.
  - apply seed_interleaved_input with L; auto using smp_i16_ok.
  - apply seed_interleaved_input with L; auto using smp_i32_ok.
  - apply seed_interleaved_input with L; auto using smp_f32_ok.
  - apply seed_interleaved_input with L; auto using smp_f64_ok.
  - apply seed_planar_input with L; auto using smp_i16_ok.
  - apply seed_planar_input with L; auto using smp_i32_ok.
  - apply seed_planar_input with L; auto using smp_f32_ok.
  - apply seed_planar_input with L; auto using smp_f64_ok.
Qed.
