(** Peak meters: what they report is determined by the log of the calls. *)
From Coq Require Import List Arith NArith ZArith Bool Lia Reals Lra.
From Flocq Require Import Core.Core IEEE754.BinarySingleNaN.
From Verif Require Import Prelude Float Env Utils History Interp TruePeak Filter Ebur128 Ref
  Prelude_proofs Utils_proofs Interp_proofs Float_proofs TruePeak_proofs Filter_proofs
  Geometry_proofs History_proofs Ebur128_proofs Ops_proofs Chunk_proofs Spec Reach_proofs Input_proofs
  Order_proofs Trace_proofs Format_proofs Feed_proofs.
Import ListNotations.
Ltac Zify.zify_post_hook ::= Z.div_mod_to_equations.

(** * The meters of the feeding loop do not see its blocks *)
Lemma max64_zero_r a : nn a -> max64 a f64_zero = a.
Proof. intros H. rewrite max64_bmax. unfold f64_zero. now apply bmax_zero_r. Qed.
Lemma chan_peak_nil {T} P (S : sample T) pk : sample_ok S -> nn pk -> chan_peak P S pk [] = pk.
Proof. intros HS Hpk. rewrite chan_peak_top by auto. cbn. now apply max64_zero_r. Qed.
Lemma map2_chan_peak_nil {T} P (S : sample T) : sample_ok S -> forall pks cols, length cols = length pks ->
  Forall nn pks -> Forall (fun c => length c = 0) cols -> map2 (chan_peak P S) pks cols = pks.
Proof.
  intros HS. induction pks; destruct cols; simpl; intros Hl Hn Hz; try discriminate; auto.
  inversion_clear Hn. inversion_clear Hz. destruct l; [|discriminate]. f_equal; [now apply chan_peak_nil|].
  apply IHpks; auto.
Qed.
Lemma push_hists_nil taps : forall hs cols, length cols = length hs -> Forall (fun c => length c = 0) cols ->
  push_hists taps hs cols = hs.
Proof.
  unfold push_hists. induction hs; destruct cols; simpl; intros Hl Hz; try discriminate; auto.
  inversion_clear Hz. destruct l; [|discriminate]. f_equal. apply IHhs; auto.
Qed.
Lemma tp_peaks_nil P taps factor filt : forall hs pks cols, length pks = length hs -> length cols = length hs ->
  Forall (fun c => length c = 0) cols -> tp_peaks P taps factor filt hs pks cols = pks.
Proof.
  unfold tp_peaks. induction hs; destruct pks, cols; simpl; intros Hl Hl' Hz; try discriminate; auto.
  inversion_clear Hz. destruct l; [|discriminate]. f_equal. apply IHhs; auto.
Qed.
Lemma lengths_map {A B} (f : A -> B) n (cols : list (list A)) :
  Forall (fun c => length c = n) cols -> Forall (fun c => length c = n) (map (map f) cols).
Proof. intros H. rewrite Forall_map. eapply Forall_impl; [|exact H]. cbn. intros c Hc. now rewrite map_length. Qed.
Lemma split_cols {T} k (cols : list (list T)) : cols = capp (map (firstn k) cols) (map (skipn k) cols).
Proof. unfold capp. induction cols; simpl; auto. now rewrite firstn_skipn, <- IHcols. Qed.

Definition meters_after {T} P E (S : sample T) (e : ebur128) (g : ghost) cols : list f64 * list (list f32) * list f32 :=
  let tp := contains (e_mode e) MODE_TRUE_PEAK in
  let c32 := map (map (s_f32 S P)) cols in
  (if contains (e_mode e) MODE_SAMPLE_PEAK then map2 (chan_peak P S) (f_sample_peak (e_filter e)) cols
   else f_sample_peak (e_filter e),
   tp_hists (e_rate e) tp (g_hs g) c32, tp_pk32 P E (e_rate e) tp (g_hs g) (g_pk g) c32).
Definition meters (e : ebur128) (g : ghost) := (f_sample_peak (e_filter e), g_hs g, g_pk g).

Lemma fed_meters {T} P E (S : sample T) e g L n cols : inv P E e g L ->
  meters (fst (fed P E S e g n cols)) (snd (fed P E S e g n cols)) = meters_after P E S e g cols.
Proof.
  intros H. unfold meters, meters_after, fed. cbn [fst snd]. inv_fields. cbn [filter_after f_sample_peak].
  rewrite (fo_calc _ _ _ _ _ _ _ _ _ (i_filter _ _ _ _ _ H)). reflexivity.
Qed.
Lemma block_done_filter e g : e_filter (block_done e g) = e_filter e.
Proof.
  unfold block_done, advance_block, shorted, gated. inv_fields.
  destruct (contains (e_mode e) MODE_I); inv_fields; destruct (contains (e_mode e) MODE_LRA); inv_fields; auto;
    destruct (_ =? _); reflexivity.
Qed.
Lemma tail_done_filter e n : e_filter (tail_done e n) = e_filter e.
Proof. unfold tail_done. destruct (contains (e_mode e) MODE_LRA); reflexivity. Qed.

Lemma meters_nil {T} P E (S : sample T) e g L cols : sample_ok S -> inv P E e g L -> length cols = e_channels e ->
  Forall (fun c => length c = 0) cols -> meters_after P E S e g cols = meters e g.
Proof.
  intros HS H Hc Hz. pose proof (i_filter _ _ _ _ _ H) as HF.
  pose proof (tp_ok_hists _ _ _ _ _ _ (fo_tp _ _ _ _ _ _ _ _ _ HF)) as Hlen.
  pose proof (fo_sp _ _ _ _ _ _ _ _ _ HF) as Hsp. pose proof (fo_pk _ _ _ _ _ _ _ _ _ HF) as Hpk.
  pose proof (i_nn _ _ _ _ _ H) as (_ & _ & Hn & _).
  pose proof (lengths_map (s_f32 S P) 0 cols Hz) as Hz'.
  unfold meters_after, meters, tp_hists, tp_pk32.
  assert ((if contains (e_mode e) MODE_SAMPLE_PEAK
   then map2 (chan_peak P S) (f_sample_peak (e_filter e)) cols
   else f_sample_peak (e_filter e)) = f_sample_peak (e_filter e)) as ->.
  { destruct (contains (e_mode e) MODE_SAMPLE_PEAK); auto. apply map2_chan_peak_nil; auto.
    exact (eq_trans Hc (eq_sym Hsp)). }
  destruct (if contains (e_mode e) MODE_TRUE_PEAK then _ else _) as [(taps, factor)|]; auto.
  specialize (Hlen _ _ eq_refl).
  rewrite push_hists_nil, tp_peaks_nil; auto; rewrite ?map_length; lia.
Qed.
Lemma meters_app {T} P E (S : sample T) e g L e1 g1 c1 c2 : sample_ok S -> inv P E e g L ->
  length c1 = e_channels e -> length c2 = e_channels e -> same_config e e1 ->
  meters e1 g1 = meters_after P E S e g c1 ->
  meters_after P E S e1 g1 c2 = meters_after P E S e g (capp c1 c2).
Proof.
  intros HS H L1 L2 (M & R & _) HM. pose proof (i_filter _ _ _ _ _ H) as HF.
  pose proof (tp_ok_hists _ _ _ _ _ _ (fo_tp _ _ _ _ _ _ _ _ _ HF)) as Hlen.
  pose proof (fo_sp _ _ _ _ _ _ _ _ _ HF) as Hsp. pose proof (fo_pk _ _ _ _ _ _ _ _ _ HF) as Hpk.
  pose proof (i_nn _ _ _ _ _ H) as (_ & _ & Hn & _).
  unfold meters, meters_after in *. apply pair_equal_spec in HM. destruct HM as (HM & M3).
  apply pair_equal_spec in HM. destruct HM as (M1 & M2). rewrite M1, M2, M3, M, R, map_capp.
  assert (length (map (map (s_f32 S P)) c1) = e_channels e) as K1 by (now rewrite map_length).
  assert (length (map (map (s_f32 S P)) c2) = e_channels e) as K2 by (now rewrite map_length).
  f_equal; [f_equal|].
  - destruct (contains (e_mode e) MODE_SAMPLE_PEAK); auto. symmetry.
    apply (map2_capp _ nn); auto; [intros; now apply chan_peak_app| |].
    + exact (eq_trans L1 (eq_sym Hsp)).
    + exact (eq_trans L2 (eq_sym Hsp)).
  - unfold tp_hists. destruct (if contains (e_mode e) MODE_TRUE_PEAK then _ else _) as [(taps, factor)|]; auto.
    specialize (Hlen _ _ eq_refl). symmetry. apply push_hists_capp; lia.
  - unfold tp_hists, tp_pk32. destruct (if contains (e_mode e) MODE_TRUE_PEAK then _ else _) as [(taps, factor)|]; auto.
    specialize (Hlen _ _ eq_refl). symmetry. apply tp_peaks_capp; lia.
Qed.

Lemma feed_meters {T} P E (S : sample T) L : sample_ok S -> forall fuel e g n cols,
  inv P E e g L -> timing e L -> length cols = e_channels e -> Forall (fun c => length c = n) cols -> n <= fuel ->
  meters (fst (feed P E S fuel e g n cols)) (snd (feed P E S fuel e g n cols)) = meters_after P E S e g cols.
Proof.
  intros HS. induction fuel as [|fuel IH]; intros e g n cols H Ht Hc HF Hn.
  - assert (n = 0) by lia. subst. cbn [feed fst snd]. symmetry. eapply meters_nil; eauto.
  - cbn [feed]. destruct (Nat.eqb_spec n 0) as [->|Hn0].
    { cbn [fst snd]. symmetry. eapply meters_nil; eauto. }
    pose proof (t_needed _ _ Ht). destruct (t_step _ _ Ht) as (kk & Hk & HkL).
    destruct (Nat.leb_spec (e_needed e) n) as [Hle|Hlt].
    + pose proof (firstn_lengths _ n cols Hle HF) as HF1.
      pose proof (skipn_lengths (e_needed e) n cols HF) as HF2.
      pose proof (fed_meters P E S e g L (e_needed e) (map (firstn (e_needed e)) cols) H) as HM.
      pose proof (fed_block_inv P E S e g L (map (firstn (e_needed e)) cols) H Ht
        ltac:(now rewrite map_length) HF1) as HB. cbv zeta in HB.
      pose proof (fed_config P E S e g (e_needed e) (map (firstn (e_needed e)) cols)) as FC.
      assert (meters_after P E S e g cols = meters_after P E S e g (capp (map (firstn (e_needed e)) cols) (map (skipn (e_needed e)) cols))) as ->
        by (now rewrite <- split_cols).
      set (c1 := map (firstn (e_needed e)) cols) in *. set (c2 := map (skipn (e_needed e)) cols) in *.
      assert (length c1 = e_channels e) as L1 by (unfold c1; now rewrite map_length).
      assert (length c2 = e_channels e) as L2 by (unfold c2; now rewrite map_length).
      destruct (fed P E S e g (e_needed e) c1) as (e1, g1). cbn [fst snd] in *.
      pose proof (block_done_config e1 g1) as BC.
      pose proof (same_config_trans _ _ _ FC BC) as SC.
      rewrite IH; try apply HB; auto; try lia.
      * eapply meters_app; eauto. unfold meters in *. rewrite block_done_filter. exact HM.
      * destruct SC as (_ & _ & -> & _). auto.
    + pose proof (fed_meters P E S e g L n cols H) as HM.
      destruct (fed P E S e g n cols) as (e1, g1). cbn [fst snd] in *.
      unfold meters in *. rewrite tail_done_filter. exact HM.
Qed.

(** * One channel of the interpolator *)
Lemma push_fold {T} taps : forall (xs h : list T), length h = taps ->
  fold_left (push taps) xs h = firstn taps (rev xs ++ h).
Proof.
  induction xs; intros h Hh; cbn [fold_left].
  - cbn. now rewrite firstn_all2 by lia.
  - rewrite IHxs.
    + cbn [rev]. rewrite <- app_assoc. cbn [app]. unfold push.
      rewrite !firstn_app. f_equal. rewrite rev_length.
      rewrite firstn_firstn. now rewrite Nat.min_l by lia.
    + unfold push. rewrite firstn_length. simpl. lia.
Qed.
Definition zeros32 taps := repeat f32_zero taps.
Definition hist_of taps (xs : list f32) : list f32 := fold_left (push taps) xs (zeros32 taps).
Lemma hist_of_length taps xs : length (hist_of taps xs) = taps.
Proof.
  unfold hist_of, zeros32. rewrite push_fold by apply repeat_length.
  rewrite firstn_length, app_length, repeat_length. lia.
Qed.
Lemma hist_of_nth taps xs x k : k < taps ->
  nth k (hist_of taps (xs ++ [x])) f32_zero = sample_before (xs ++ [x]) (length xs) k.
Proof.
  intros Hk. unfold hist_of, zeros32, sample_before. rewrite push_fold by apply repeat_length.
  set (ys := xs ++ [x]). assert (length ys = S (length xs)) as Hl by (unfold ys; rewrite app_length; simpl; lia).
  assert (nth k (firstn taps (rev ys ++ repeat f32_zero taps)) f32_zero = nth k (rev ys ++ repeat f32_zero taps) f32_zero) as ->.
  { rewrite <- (firstn_skipn taps (rev ys ++ repeat f32_zero taps)) at 2. rewrite app_nth1; auto.
    rewrite firstn_length, app_length, repeat_length. lia. }
  destruct (Nat.leb_spec k (length xs)).
  - rewrite app_nth1 by (rewrite rev_length; lia). rewrite rev_nth by lia. f_equal. lia.
  - rewrite app_nth2 by (rewrite rev_length; lia). rewrite nth_repeat. reflexivity.
Qed.
Lemma combine_seq {A} (f : nat -> A) d : forall taps (h : list A), length h = taps -> forall s,
  combine (map f (seq s taps)) h = map (fun k => (f k, nth (k - s) h d)) (seq s taps).
Proof.
  induction taps; intros [|x h] Hl s; try discriminate; auto. cbn [seq map combine].
  rewrite Nat.sub_diag. f_equal. rewrite IHtaps by (injection Hl; auto).
  apply map_ext_in. intros k (H1 & H2)%in_seq. replace (k - s) with (S (k - S s)) by lia. reflexivity.
Qed.
Lemma fold_left_map' {A B C} (f : A -> B -> A) (g : C -> B) l : forall a,
  fold_left f (map g l) a = fold_left (fun a c => f a (g c)) l a.
Proof. induction l; simpl; auto. Qed.
Lemma fold_left_ext_in {A B} (f g : A -> B -> A) l : forall a,
  (forall x a, In x l -> f a x = g a x) -> fold_left f l a = fold_left g l a.
Proof. induction l; simpl; auto. intros b H. rewrite H by auto. apply IHl. auto. Qed.

Definition sf_eq (a b : SpecFloat.spec_float) : bool :=
  match a, b with
  | SpecFloat.S754_zero s, SpecFloat.S754_zero t => Bool.eqb s t
  | SpecFloat.S754_finite s m e, SpecFloat.S754_finite t n f => Bool.eqb s t && (m =? n)%positive && (e =? f)%Z
  | _, _ => false
  end.
Lemma sf_eq_spec (x y : f64) : sf_eq (B2SF x) (B2SF y) = true -> x = y.
Proof.
  intros H. apply B2SF_inj. destruct (B2SF x), (B2SF y); try discriminate H; cbn [sf_eq] in H.
  - now apply eqb_prop in H as ->.
  - rewrite !andb_true_iff, Pos.eqb_eq, Z.eqb_eq in H. destruct H as ((H & ->) & ->). now apply eqb_prop in H as ->.
Qed.
Lemma interp_coeff_spec E factor j : j < 48 -> interp_coeff E factor j = hann_sinc E factor j.
Proof.
  intros Hj. unfold interp_coeff, hann_sinc, hann. cbv zeta.
  change (f64_of_nat (TAPS + 1 - 1)) with (f64_of_nat 48).
  assert (f64_sub (f64_of_nat j) (f64_div (f64_of_nat 48) f64_two) = f64_of_Z (Z.of_nat j - 24) /\
          f64_gt (f64_abs (f64_of_Z (Z.of_nat j - 24))) ALMOST_ZERO = negb (j =? 24)) as (-> & ->).
  { assert (forallb (fun j => sf_eq (B2SF (f64_sub (f64_of_nat j) (f64_div (f64_of_nat 48) f64_two))) (B2SF (f64_of_Z (Z.of_nat j - 24))) &&
        Bool.eqb (f64_gt (f64_abs (f64_of_Z (Z.of_nat j - 24))) ALMOST_ZERO) (negb (j =? 24))) (seq 0 48) = true) as Hall
      by (vm_cast_no_check (eq_refl true)).
    rewrite forallb_forall in Hall. specialize (Hall j ltac:(apply in_seq; lia)). apply andb_true_iff in Hall.
    destruct Hall as (H1 & H2). split; [now apply sf_eq_spec|now apply eqb_prop]. }
  destruct (Nat.eqb_spec j 24); subst; reflexivity.
Qed.
Lemma fir_interpolated P E taps factor xs x : taps * factor <= 48 ->
  fir P factor (interp_filter E taps factor) (hist_of taps (xs ++ [x])) =
  map (interpolated P E taps factor (xs ++ [x]) (length xs)) (seq 0 factor).
Proof.
  intros H48. unfold fir. apply map_ext_in. intros f (_ & Hf)%in_seq. unfold fir_phase, interpolated, interp_filter.
  rewrite map_map.
  assert (map (fun k => nth f (map (fun f0 => interp_coeff E factor (k * factor + f0)) (seq 0 factor)) f32_zero) (seq 0 taps)
    = map (fun k => interp_coeff E factor (k * factor + f)) (seq 0 taps)) as ->.
  { apply map_ext. intros k. 
    rewrite (nth_indep _ _ (interp_coeff E factor (k * factor + 0))) by (rewrite map_length, seq_length; lia).
    rewrite (map_nth (fun f0 => interp_coeff E factor (k * factor + f0))). rewrite seq_nth by lia. reflexivity. }
  rewrite (combine_seq (fun k => interp_coeff E factor (k * factor + f)) f32_zero taps) by apply hist_of_length.
  rewrite fold_left_map'. apply fold_left_ext_in. intros k acc (_ & Hk)%in_seq.
  rewrite Nat.sub_0_r, hist_of_nth by lia. rewrite interp_coeff_spec; [reflexivity|nia].
Qed.
Lemma sample_before_app xs ys n k : n < length xs -> sample_before (xs ++ ys) n k = sample_before xs n k.
Proof. intros H. unfold sample_before. destruct (k <=? n); auto. rewrite app_nth1 by lia. reflexivity. Qed.
Lemma interpolated_app P E taps factor xs ys n f : n < length xs ->
  interpolated P E taps factor (xs ++ ys) n f = interpolated P E taps factor xs n f.
Proof. intros H. unfold interpolated. apply fold_left_ext_in. intros. now rewrite sample_before_app. Qed.

Definition outs P E taps factor (xs : list f32) (from : nat) : list f32 :=
  flat_map (fun n => map (interpolated P E taps factor xs n) (seq 0 factor)) (seq from (length xs - from)).
Lemma flat_map_ext_in {A B} (f g : A -> list B) l : (forall x, In x l -> f x = g x) -> flat_map f l = flat_map g l.
Proof. induction l; simpl; auto. intros H. rewrite H, IHl; auto. Qed.
Lemma outs_cons P E taps factor past x xs :
  outs P E taps factor (past ++ x :: xs) (length past) =
  map (interpolated P E taps factor (past ++ [x]) (length past)) (seq 0 factor) ++
  outs P E taps factor ((past ++ [x]) ++ xs) (length (past ++ [x])).
Proof.
  unfold outs. rewrite <- app_assoc. cbn [app].
  replace (length (past ++ x :: xs) - length past) with (S (length xs)) by (rewrite app_length; simpl; lia).
  replace (length (past ++ x :: xs) - length (past ++ [x])) with (length xs) by (rewrite !app_length; simpl; lia).
  cbn [seq flat_map]. f_equal.
  - apply map_ext_in. intros f _. replace (past ++ x :: xs) with ((past ++ [x]) ++ xs) by (rewrite <- app_assoc; reflexivity).
    apply interpolated_app. rewrite app_length. simpl. lia.
  - rewrite app_length. cbn [length]. now rewrite Nat.add_1_r.
Qed.
Definition top32 (l : list f32) : f32 := fold_left max32 (map f32_abs l) f32_zero.
Lemma tp_run_outs P E taps factor : taps * factor <= 48 -> forall xs past pk,
  snd (tp_run P taps factor (interp_filter E taps factor) (hist_of taps past) pk xs) =
  fold_left max32 (map f32_abs (outs P E taps factor (past ++ xs) (length past))) pk.
Proof.
  intros H48. induction xs; intros past pk.
  - cbn. unfold outs. rewrite app_nil_r, Nat.sub_diag. reflexivity.
  - cbn [tp_run].
    assert (push taps (hist_of taps past) a = hist_of taps (past ++ [a])) as ->
      by (unfold hist_of; now rewrite fold_left_app).
    rewrite IHxs, fir_interpolated by auto. rewrite outs_cons, map_app, fold_left_app. reflexivity.
Qed.

(** * The meters follow the log *)
Definition levels (c : list reading) : list f64 := map r_level c.
Record log_ok (e : ebur128) (g : ghost) (lg : log) : Prop := {
  lo_heard : length (lg_heard lg) = e_channels e;
  lo_last : length (lg_last lg) = e_channels e;
  lo_past : length (lg_past lg) = e_channels e;
  lo_inter : length (lg_inter lg) = e_channels e;
  lo_inter_last : length (lg_inter_last lg) = e_channels e;
  lo_proper : Forall (Forall (fun r => nn (r_level r) \/ r_level r = B754_nan)) (lg_heard lg) /\
              Forall (Forall (fun r => nn (r_level r) \/ r_level r = B754_nan)) (lg_last lg);
  lo_sp : contains (e_mode e) MODE_SAMPLE_PEAK = true ->
     e_sample_peak e = map (fun c => top (levels c)) (lg_heard lg) /\
     f_sample_peak (e_filter e) = map (fun c => top (levels c)) (lg_last lg);
  lo_hs : match (if contains (e_mode e) MODE_TRUE_PEAK then tp_params (e_rate e) else None) with
          | Some (taps, _) => g_hs g = map (hist_of taps) (lg_past lg)
          | None => True
          end;
  lo_tp : contains (e_mode e) MODE_TRUE_PEAK = true ->
     e_true_peak e = map (fun l => f64_of_f32 (top32 l)) (lg_inter lg) /\ g_pk g = map top32 (lg_inter_last lg);
}.

Lemma Forall_no_audio {T} (Q : T -> Prop) C : Forall (Forall Q) (no_audio C).
Proof. unfold no_audio. apply Forall_repeat'. constructor. Qed.
Lemma map_no_audio {A B} (f : list A -> B) C : map f (no_audio C) = repeat (f []) C.
Proof. unfold no_audio. induction C; simpl; f_equal; auto. Qed.
Lemma no_audio_length {T} C : length (@no_audio T C) = C.
Proof. apply repeat_length. Qed.
Lemma accepted_ok c r : accepted c r = params_ok c r.
Proof.
  unfold accepted, params_ok, MAX_CHANNELS, MAX_RATE.
  destruct (N.leb_spec 1 c), (N.eqb_spec c 0), (N.leb_spec c 64), (N.ltb_spec 64 c), (N.leb_spec 16 r), (N.leb_spec r 2822400);
    cbn; auto; lia.
Qed.

Lemma top_app a b : top (a ++ b) = max64 (top a) (top b).
Proof.
  unfold top. rewrite fold_left_app, max64_bmax.
  assert (nn (fold_left bmax a f64_zero)) as H by (apply fold_bmax_nn, nn_zero).
  rewrite <- fold_bmax; auto; [|apply nn_zero]. f_equal. symmetry. now apply bmax_zero_r.
Qed.
Lemma top32_app a b : top32 (a ++ b) = max32 (top32 a) (top32 b).
Proof.
  unfold top32. rewrite map_app, fold_left_app.
  assert (nn (fold_left max32 (map f32_abs a) f32_zero)) as H by (apply (fold_bmax_nn (map f32_abs a)), nn_zero).
  set (m := fold_left max32 (map f32_abs a) f32_zero) in *.
  transitivity (fold_left max32 (map f32_abs b) (max32 m f32_zero)).
  - f_equal. symmetry. now apply (bmax_zero_r m).
  - apply (fold_bmax (map f32_abs b) m f32_zero); auto. apply nn_zero.
Qed.
Lemma map_join {A B} (f : list A -> B) (h : B -> B -> B) : (forall a b, f (a ++ b) = h (f a) (f b)) ->
  forall x y, map f (join x y) = map2 h (map f x) (map f y).
Proof. intros H. unfold join. induction x; destruct y; simpl; auto. now rewrite H, IHx. Qed.
Lemma join_length {T} (x y : list (list T)) : length x = length y -> length (join x y) = length x.
Proof. apply map2_length'. Qed.
Lemma Forall_join {T} (Q : T -> Prop) : forall (x y : list (list T)), Forall (Forall Q) x -> Forall (Forall Q) y ->
  Forall (Forall Q) (join x y).
Proof.
  unfold join. induction x; destruct y; simpl; auto. intros H1 H2. inversion_clear H1. inversion_clear H2.
  constructor; auto. now apply Forall_app.
Qed.
Lemma hists_join taps : forall past new, length new = length past ->
  push_hists taps (map (hist_of taps) past) new = map (hist_of taps) (join past new).
Proof.
  unfold push_hists, join. induction past; destruct new; simpl; intros; try discriminate; auto.
  f_equal; [|apply IHpast; lia]. unfold hist_of. now rewrite fold_left_app.
Qed.
Lemma oversampling_params rate : oversampling rate = tp_params rate.
Proof. reflexivity. Qed.
Lemma peaks_outs P E rate taps factor : tp_params rate = Some (taps, factor) -> forall past new C,
  length past = C -> length new = C ->
  tp_peaks P taps factor (interp_filter E taps factor) (map (hist_of taps) past) (repeat f32_zero C) new =
  map top32 (oversample_new P E rate past new).
Proof.
  intros Hr. unfold tp_peaks, oversample_new.
  induction past; destruct new; intros C H1 H2; subst C; try discriminate; auto. cbn [length repeat map map3 map2].
  f_equal; [|apply IHpast; auto].
  rewrite tp_run_outs by (unfold tp_params in Hr; destruct (_ <? _)%N; [injection Hr as <- <-; lia|]; destruct (_ <? _)%N; [injection Hr as <- <-; lia|discriminate]). unfold top32, oversampled. rewrite oversampling_params, Hr. reflexivity.
Qed.
Lemma oversample_none P E rate : tp_params rate = None -> forall past new, length new = length past ->
  oversample_new P E rate past new = no_audio (length past).
Proof.
  intros Hr. unfold oversample_new, no_audio. induction past; destruct new; simpl; intros; try discriminate; auto.
  f_equal; [|apply IHpast; lia]. unfold oversampled. now rewrite oversampling_params, Hr.
Qed.

Lemma meters_cleared {T} P E (S : sample T) e g L cols : sample_ok S -> inv P E e g L -> length cols = e_channels e ->
  meters_after P E S (fst (cleared e g)) (snd (cleared e g)) cols =
  (if contains (e_mode e) MODE_SAMPLE_PEAK then map (fun c => top (map r_level (map (read P S) c))) cols
   else repeat f64_zero (e_channels e),
   tp_hists (e_rate e) (contains (e_mode e) MODE_TRUE_PEAK) (g_hs g) (map (map (s_f32 S P)) cols),
   tp_pk32 P E (e_rate e) (contains (e_mode e) MODE_TRUE_PEAK) (g_hs g) (repeat f32_zero (e_channels e))
     (map (map (s_f32 S P)) cols)).
Proof.
  intros HS H Hc. pose proof (i_filter _ _ _ _ _ H) as HF.
  pose proof (fo_sp _ _ _ _ _ _ _ _ _ HF) as Hsp.
  unfold meters_after, cleared. cbn [fst snd]. inv_fields. cbn [filter_reset_peaks f_sample_peak].
  rewrite map_const_repeat, Hsp.
  assert (map2 (chan_peak P S) (repeat f64_zero (e_channels e)) cols =
          map (fun c => top (map r_level (map (read P S) c))) cols) as ->; [|reflexivity].
  rewrite <- Hc. clear - HS. induction cols; cbn [length repeat map2 map]; auto. rewrite IHcols. f_equal.
  rewrite chan_peak_top by auto. rewrite max64_bmax.
  set (t := top _). assert (nn t) as Ht by (apply fold_bmax_nn, nn_zero).
  unfold bmax. destruct (Bltb f64_zero t) eqn:Eb; auto.
  destruct t as [[]|[]| |[] m ex Hb]; destruct Ht as (A & B); cbn in A, B; try discriminate; reflexivity.
Qed.

Lemma moved_log P E e g L o e' g' L' lg : good P E e g L -> good P E e' g' L' -> moved P E e g L o e' g' L' ->
  log_ok e g lg -> log_ok e' g' (log_after P E e o lg).
Proof.
  intros HG HG' HM [B1 B2 B3 B4 B5 (BP1 & BP2) B6 B7 B8].
  assert (log_ok e g lg) as HB by (constructor; auto).
  destruct o as [number v|m|c rt|w|h| |a|a]; cbn [moved log_after] in *.
  - destruct HM as ((m & ->) & -> & _). constructor; auto.
  - destruct HM as ((m' & ->) & -> & _). constructor; auto.
  - unfold changed in HM. rewrite accepted_ok. destruct (params_ok c rt); cbn [negb andb orb] in *.
    2:{ destruct HM as (-> & -> & _). auto. }
    destruct ((e_rate e =? rt)%N && (N.of_nat (e_channels e) =? c)%N) eqn:Es; cbn [negb] in *.
    { destruct HM as (-> & -> & _). auto. }
    destruct HM as (_ & -> & f & _ & _ & Hsp & ->).
    destruct (N.eqb_spec (N.of_nat (e_channels e)) c) as [Ec|Ec].
    + assert (N.to_nat c = e_channels e) as Hc by lia. rewrite Hc in *.
      constructor; cbn [lg_heard lg_last lg_past lg_inter lg_inter_last]; inv_fields; auto using no_audio_length.
      * split; auto using Forall_no_audio.
      * intros Hm. destruct (B6 Hm) as (X1 & X2). split; auto. rewrite Hsp, map_no_audio. reflexivity.
      * unfold fresh_ghost, tp_hists0. cbn [g_hs].
        destruct (if contains (e_mode e) MODE_TRUE_PEAK then tp_params rt else None) as [(taps, factor)|]; auto.
        now rewrite map_no_audio.
      * intros Hm. destruct (B8 Hm) as (X1 & X2). split; auto. rewrite map_no_audio. reflexivity.
    + constructor; cbn [empty_log lg_heard lg_last lg_past lg_inter lg_inter_last]; inv_fields; auto using no_audio_length.
      * split; auto using Forall_no_audio.
      * intros Hm. rewrite Hsp, map_no_audio. auto.
      * unfold fresh_ghost, tp_hists0. cbn [g_hs].
        destruct (if contains (e_mode e) MODE_TRUE_PEAK then tp_params rt else None) as [(taps, factor)|]; auto.
        now rewrite map_no_audio.
      * intros Hm. rewrite !map_no_audio. auto.
  - unfold rewindowed in HM. cbv zeta in HM. destruct (_ =? _)%N.
    + destruct HM as (-> & -> & _). auto.
    + destruct HM as (_ & -> & ->). constructor; inv_fields; auto.
  - destruct HM as (-> & -> & _). unfold set_max_history. destruct (_ =? _)%N; auto. cbn [snd]. constructor; auto.
  - destruct HM as ((f & _ & _ & Hsp & ->) & -> & _).
    constructor; cbn [empty_log lg_heard lg_last lg_past lg_inter lg_inter_last]; inv_fields; auto using no_audio_length.
    + split; auto using Forall_no_audio.
    + intros Hm. rewrite Hsp, map_no_audio. auto.
    + unfold fresh_ghost, tp_hists0. cbn [g_hs].
      destruct (if contains (e_mode e) MODE_TRUE_PEAK then tp_params (e_rate e) else None) as [(taps, factor)|]; auto.
      now rewrite map_no_audio.
    + intros Hm. rewrite !map_no_audio. auto.
  - destruct HM as (_ & Hi & Heq). destruct (input P (e_channels e) a) as [cols|].
    2:{ injection Heq as -> ->. auto. }
    destruct Hi as ((Hc & HF) & Hpr). change (frames_of cols) with (frame_count cols).
    unfold added in Heq. destruct (Nat.eqb_spec (frame_count cols) 0) as [E0|E0].
    { injection Heq as -> ->. auto. }
    destruct HG as (H & Ht & _).
    pose proof (cleared_ok _ _ _ _ _ H) as H1.
    assert (timing (fst (cleared e g)) L) as T1 by (destruct Ht; split; auto).
    assert (length cols = e_channels (fst (cleared e g))) as C1 by auto.
    pose proof (feed_meters P E smp_reading L smp_reading_ok (frame_count cols) (fst (cleared e g)) (snd (cleared e g))
      (frame_count cols) cols H1 T1 C1 HF (le_n _)) as HMe.
    rewrite (meters_cleared P E smp_reading e g L cols smp_reading_ok H Hc) in HMe.
    pose proof (feed_config P E smp_reading (frame_count cols) (fst (cleared e g)) (snd (cleared e g)) (frame_count cols) cols) as FC.
    pose proof (feed_keeps_peaks P E smp_reading (frame_count cols) (fst (cleared e g)) (snd (cleared e g)) (frame_count cols) cols) as (FK1 & FK2).
    pose proof (feed_inv P E smp_reading (fst (cleared e g)) (snd (cleared e g)) L (frame_count cols) (frame_count cols) cols
      H1 T1 C1 HF (le_n _)) as (H2 & _).
    change (e_sample_peak (fst (cleared e g))) with (e_sample_peak e) in FK1.
    change (e_true_peak (fst (cleared e g))) with (e_true_peak e) in FK2.
    assert (same_config e (fst (cleared e g))) as SC0 by (repeat split).
    pose proof (same_config_trans _ _ _ SC0 FC) as (SM & SR & SCh & _).
    destruct (cleared e g) as (e1, g1). cbn [fst snd] in *.
    destruct (feed P E smp_reading (frame_count cols) e1 g1 (frame_count cols) cols) as (e2, g2). cbn [fst snd] in *.
    injection Heq as -> ->. unfold meters in HMe.
    apply pair_equal_spec in HMe. destruct HMe as (HMe & M3). apply pair_equal_spec in HMe. destruct HMe as (M1 & M2).
    change (map (map (s_f32 smp_reading P)) cols) with (map (map r_32) cols) in *.
    assert (map (fun c => top (map r_level (map (read P smp_reading) c))) cols = map (fun c => top (levels c)) cols) as Hrd.
    { apply map_ext_in. intros c Hin. unfold levels. rewrite map_read_reading; auto. rewrite Forall_forall in Hpr. auto. }
    rewrite Hrd in M1.
    set (new := map (map r_32) cols) in *. assert (length new = e_channels e) as Hnew by (unfold new; now rewrite map_length).
    constructor; cbn [lg_heard lg_last lg_past lg_inter lg_inter_last]; unfold retained; inv_fields; rewrite ?SM, ?SR, ?SCh.
    + rewrite join_length; lia.
    + auto.
    + rewrite join_length; lia.
    + rewrite join_length; auto. unfold oversample_new. rewrite map2_length'; lia.
    + unfold oversample_new. rewrite map2_length'; lia.
    + assert (Forall (Forall (fun r => nn (r_level r) \/ r_level r = B754_nan)) cols) as Hcp.
      { eapply Forall_impl; [|exact Hpr]. intros c Hcc. eapply Forall_impl; [|exact Hcc]. intros r Hr. apply Hr. }
      split; auto. apply Forall_join; auto.
    + intros Hm. destruct (B6 Hm) as (X1 & X2). rewrite Hm in M1. rewrite FK1, M1. split; auto.
      rewrite X1, (map_join _ max64); [reflexivity|]. intros x y. unfold levels. now rewrite map_app, top_app.
    + unfold tp_hists in M2. destruct (if contains (e_mode e) MODE_TRUE_PEAK then tp_params (e_rate e) else None) as [(taps, factor)|]; auto.
      rewrite M2, B7. apply hists_join. lia.
    + intros Hm. destruct (B8 Hm) as (X1 & X2).
      assert (g_pk g2 = map top32 (oversample_new P E (e_rate e) (lg_past lg) new)) as Hpk.
      { rewrite M3. unfold tp_pk32. rewrite Hm in *. destruct (tp_params (e_rate e)) as [(taps, factor)|] eqn:Etp.
        - rewrite B7. apply peaks_outs; auto.
        - rewrite oversample_none by (auto; lia). rewrite B3, map_no_audio. reflexivity. }
      split; auto.
      rewrite FK2, X1, (fo_tpk _ _ _ _ _ _ _ _ _ (i_filter _ _ _ _ _ H2)), Hpk, map_map.
      rewrite (map_join _ max64); [reflexivity|]. intros x y. now rewrite top32_app, f64_of_f32_max.
  - destruct HM as (_ & Hi & Heq). destruct (input P (e_channels e) a) as [cols|].
    2:{ injection Heq as -> ->. auto. }
    destruct Hi as ((Hc & HF) & Hpr). unfold seeded in Heq. injection Heq as -> ->.
    constructor; cbn [lg_heard lg_last lg_past lg_inter lg_inter_last]; inv_fields; auto.
    + rewrite join_length; auto. rewrite map_length. lia.
    + unfold tp_hists. destruct (if contains (e_mode e) MODE_TRUE_PEAK then tp_params (e_rate e) else None) as [(taps, factor)|]; auto.
      cbn [g_hs]. rewrite B7. apply hists_join. rewrite map_length. lia.
Qed.

Lemma logged_ok P E e lg : is_64bit P -> logged P E e lg -> exists g L, good P E e g L /\ log_ok e g lg.
Proof.
  intros HP. induction 1 as [channels rate m e Hn Hs|e o r e' lg Hl IH Ha Hst].
  - destruct (new_good P E channels rate m e HP Hn Hs) as (g & L & HG & HB). exists g, L. split; auto.
    destruct HB as [Q1 Q2 Q3 Q4 Q5 Q6 Q7 Q8 Q9 Q10 Q11 Q12 Q13 Q14 Q15]. constructor; cbn [empty_log lg_heard lg_last lg_past lg_inter lg_inter_last];
      rewrite ?no_audio_length; auto.
    + split; apply Forall_no_audio.
    + intros Hm. rewrite Q8, Q14, map_no_audio, Q3. auto.
    + rewrite Q1, Q2, Q5. unfold fresh_ghost, tp_hists0. cbn [g_hs].
      destruct (if contains m MODE_TRUE_PEAK then tp_params rate else None) as [(taps, factor)|]; auto.
      now rewrite map_no_audio.
    + intros Hm. rewrite Q9, Q5, !map_no_audio, Q3. auto.
  - destruct IH as (g & L & HG & HL). destruct (step_moves P E e g L o r e' HP HG Ha Hst) as (g' & L' & HG' & HM).
    exists g', L'. split; auto. eapply moved_log; eauto.
Qed.

(** * The answers *)
Definition larger (s t : f64) : f64 := if f64_gt s t then s else t.
Lemma has_SP m : has_SAMPLE_PEAK m <-> contains m MODE_SAMPLE_PEAK = true.
Proof. symmetry. apply contains_SP. Qed.
Lemma has_TP m : has_TRUE_PEAK m <-> contains m MODE_TRUE_PEAK = true.
Proof. symmetry. apply contains_TP. Qed.
Lemma TP_SP m : contains m MODE_TRUE_PEAK = true -> contains m MODE_SAMPLE_PEAK = true.
Proof. rewrite <- has_TP, <- has_SP. intros (H & _). auto. Qed.

Lemma nth_map_idx {A} (f : list A -> f64) (l : list (list A)) c : c < length l -> idx (map f l) c = Ret (f (nth c l [])).
Proof.
  intros H. unfold idx. rewrite nth_error_map. destruct (nth_error l c) as [x|] eqn:Ex.
  - cbn. now rewrite (nth_error_nth l c [] Ex).
  - apply nth_error_None in Ex. lia.
Qed.
Lemma peak_answers P E e lg c : is_64bit P -> logged P E e lg -> (c < N.of_nat (e_channels e))%N ->
  (has_SAMPLE_PEAK (e_mode e) ->
     sample_peak e c = Ret (Ok (top (levels (channel c (lg_heard lg))))) /\
     prev_sample_peak e c = Ret (Ok (top (levels (channel c (lg_last lg)))))) /\
  (has_TRUE_PEAK (e_mode e) ->
     true_peak e c = Ret (Ok (larger (top (levels (channel c (lg_heard lg)))) (f64_of_f32 (top32 (channel c (lg_inter lg)))))) /\
     prev_true_peak e c = Ret (Ok (larger (top (levels (channel c (lg_last lg)))) (f64_of_f32 (top32 (channel c (lg_inter_last lg))))))).
Proof.
  intros HP Hl Hc. destruct (logged_ok P E e lg HP Hl) as (g & L & (H & _ & _) & HB).
  rewrite has_SP, has_TP. unfold sample_peak, prev_sample_peak, true_peak, prev_true_peak, peak_query, max_peak, channel.
  pose proof (lo_heard _ _ _ HB). pose proof (lo_last _ _ _ HB).
  pose proof (lo_inter _ _ _ HB). pose proof (lo_inter_last _ _ _ HB).
  destruct (N.leb_spec (N.of_nat (e_channels e)) c); [lia|].
  split; intros Hm; rewrite Hm; cbn [negb].
  - destruct (lo_sp _ _ _ HB Hm) as (-> & ->). rewrite !nth_map_idx by lia. auto.
  - destruct (lo_sp _ _ _ HB (TP_SP _ Hm)) as (-> & ->). destruct (lo_tp _ _ _ HB Hm) as (-> & Hpk).
    rewrite (fo_tpk _ _ _ _ _ _ _ _ _ (i_filter _ _ _ _ _ H)), Hpk, map_map.
    rewrite !nth_map_idx by lia. auto.
Qed.

(** ** the maximum *)
Lemma nn_le {p e} (x : binary_float p e) : nn x -> Bleb (B754_zero false) x = true.
Proof. intros (H1 & H2). destruct x as [[]|[]| |[]]; try discriminate; reflexivity. Qed.
Lemma bmax_ge {p e} (a x : binary_float p e) : nn a ->
  Bleb a (bmax a x) = true /\ (is_nan x = false -> Bleb x (bmax a x) = true).
Proof.
  intros Ha. unfold bmax. destruct (Bltb a x) eqn:Eb.
  - split; [now apply Bltb_le|]. intros. now apply Bleb_refl.
  - split; [apply Bleb_refl, Ha|]. intros Hx. rewrite Bltb_Bleb in Eb by (auto; apply Ha).
    now apply negb_false_iff in Eb.
Qed.
Lemma bmax_cases {p e} (a x : binary_float p e) : bmax a x = a \/ bmax a x = x.
Proof. unfold bmax. destruct (Bltb a x); auto. Qed.
Lemma fold_bmax_spec {p e} (l : list (binary_float p e)) : forall a, nn a ->
  nn (fold_left bmax l a) /\ (fold_left bmax l a = a \/ In (fold_left bmax l a) l) /\
  Bleb a (fold_left bmax l a) = true /\
  Forall (fun x => is_nan x = false -> Bleb x (fold_left bmax l a) = true) l.
Proof.
  induction l as [|x l IH]; intros a Ha; cbn [fold_left].
  - split; auto. split; auto. split; [|constructor]. apply Bleb_refl. apply Ha.
  - assert (nn (bmax a x)) as Hm by now apply bmax_nn.
    destruct (IH (bmax a x) Hm) as (H1 & H2 & H3 & H4). split; auto.
    destruct (bmax_ge a x Ha) as (K1 & K2). split; [|split].
    + destruct H2 as [->|H2]; [|right; now right]. destruct (bmax_cases a x) as [->| ->]; auto. right. now left.
    + eapply Bleb_trans; eauto.
    + constructor; auto. intros Hx. eapply Bleb_trans; eauto.
Qed.
Lemma top_largest l : largest l (top l) /\ nn (top l).
Proof.
  destruct (fold_bmax_spec l f64_zero nn_zero) as (H1 & H2 & H3 & H4). split; auto. split; [now apply nn_le|]. auto.
Qed.
Lemma f64_of_f32_nn x : nn x -> nn (f64_of_f32 x).
Proof.
  intros (H1 & H2). destruct x as [s|s| |s m ex Hb] eqn:Ex; cbn in H1, H2; subst; try discriminate; try (split; reflexivity).
  destruct (f64_of_f32_finite (B754_finite false m ex Hb) eq_refl) as (F1 & _ & F3). split.
  - now apply fin_not_nan.
  - exact F3.
Qed.

Lemma top32_spec l : largest (magnitudes l) (f64_of_f32 (top32 l)) /\ nn (f64_of_f32 (top32 l)).
Proof.
  assert (f64_of_f32 (top32 l) = top (magnitudes l)) as ->; [|apply top_largest].
  unfold top32, top, magnitudes. change f64_zero with (f64_of_f32 f32_zero). generalize f32_zero.
  induction l; intros z; cbn [map fold_left]; auto. rewrite IHl, f64_of_f32_max. reflexivity.
Qed.
Lemma larger_largest l m s t : largest l s -> nn s -> largest m t -> nn t -> largest (l ++ m) (larger s t) /\ nn (larger s t).
Proof.
  intros (L1 & L2 & L3) Hs (M1 & M2 & M3) Ht. unfold larger, f64_gt. destruct (Bltb t s) eqn:Eb.
  - split; auto. split; auto. split; [rewrite in_app_iff; tauto|]. apply Forall_app. split; auto.
    eapply Forall_impl; [|exact M3]. intros x H Hx. eapply Bleb_trans; [apply H; auto|]. now apply Bltb_le.
  - split; auto. split; auto. split; [rewrite in_app_iff; tauto|]. apply Forall_app. split; auto.
    rewrite Bltb_Bleb in Eb by (apply Ht || apply Hs). apply negb_false_iff in Eb.
    eapply Forall_impl; [|exact L3]. intros x H Hx. eapply Bleb_trans; [apply H; auto|]. exact Eb.
Qed.
Lemma largest_le l l' v v' : largest l v -> largest l' v' -> incl l l' -> f64_le v v' = true.
Proof.
  intros (L1 & L2 & L3) (M1 & M2 & M3) Hi. destruct L2 as [->|L2]; auto.
  rewrite Forall_forall in M3. apply M3; auto. apply (Bleb_not_nan _ _ L1).
Qed.

Lemma sample_peak_log P E e lg c : is_64bit P -> logged P E e lg -> has_SAMPLE_PEAK (e_mode e) ->
  (c < N.of_nat (e_channels e))%N ->
  exists v, ask P E e (QSamplePeak c) = Ret (AValue (Ok v)) /\ largest (levels_of (channel c (lg_heard lg))) v.
Proof.
  intros HP Hl Hm Hc. destruct (peak_answers P E e lg c HP Hl Hc) as (H & _). destruct (H Hm) as (H1 & _).
  eexists. cbn [ask]. rewrite H1. split; [reflexivity|]. apply top_largest.
Qed.
Lemma prev_sample_peak_log P E e lg c : is_64bit P -> logged P E e lg -> has_SAMPLE_PEAK (e_mode e) ->
  (c < N.of_nat (e_channels e))%N ->
  exists v, ask P E e (QPrevSamplePeak c) = Ret (AValue (Ok v)) /\ largest (levels_of (channel c (lg_last lg))) v.
Proof.
  intros HP Hl Hm Hc. destruct (peak_answers P E e lg c HP Hl Hc) as (H & _). destruct (H Hm) as (_ & H1).
  eexists. cbn [ask]. rewrite H1. split; [reflexivity|]. apply top_largest.
Qed.
Lemma true_peak_log P E e lg c : is_64bit P -> logged P E e lg -> has_TRUE_PEAK (e_mode e) ->
  (c < N.of_nat (e_channels e))%N ->
  exists v, ask P E e (QTruePeak c) = Ret (AValue (Ok v)) /\
    largest (levels_of (channel c (lg_heard lg)) ++ magnitudes (channel c (lg_inter lg))) v.
Proof.
  intros HP Hl Hm Hc. destruct (peak_answers P E e lg c HP Hl Hc) as (_ & H). destruct (H Hm) as (H1 & _).
  eexists. cbn [ask]. rewrite H1. split; [reflexivity|]. apply larger_largest; apply top_largest || apply top32_spec.
Qed.
Lemma prev_true_peak_log P E e lg c : is_64bit P -> logged P E e lg -> has_TRUE_PEAK (e_mode e) ->
  (c < N.of_nat (e_channels e))%N ->
  exists v, ask P E e (QPrevTruePeak c) = Ret (AValue (Ok v)) /\
    largest (levels_of (channel c (lg_last lg)) ++ magnitudes (channel c (lg_inter_last lg))) v.
Proof.
  intros HP Hl Hm Hc. destruct (peak_answers P E e lg c HP Hl Hc) as (_ & H). destruct (H Hm) as (_ & H1).
  eexists. cbn [ask]. rewrite H1. split; [reflexivity|]. apply larger_largest; apply top_largest || apply top32_spec.
Qed.

(** every reachable analyzer has a log *)
Lemma reachable_logged P E e : reachable P E e -> exists lg, logged P E e lg.
Proof.
  induction 1 as [channels rate m e Hn Hs|e o r e' Hr IH Ha Hst].
  - eexists. eapply logged_new; eauto.
  - destruct IH as (lg & IH). eexists. eapply logged_step; eauto.
Qed.
Lemma logged_reachable P E e lg : logged P E e lg -> reachable P E e.
Proof.
  induction 1 as [channels rate m e Hn Hs|e o r e' lg Hl IH Ha Hst].
  - eapply reach_new; eauto.
  - eapply reach_step; eauto.
Qed.

(** ** the last call is part of everything *)
Lemma channel_join_incl {T} c (x y : list (list T)) : length x = length y ->
  incl (channel c x) (channel c (join x y)) /\ incl (channel c y) (channel c (join x y)).
Proof.
  unfold channel, join. generalize (N.to_nat c). intros n. revert x y. 
  induction n; intros [|a x] [|b y] Hl; try discriminate; cbn [map2 nth]; try (split; intros z Hz; exact Hz).
  - split; intros z Hz; apply in_app_iff; auto.
  - apply IHn. now injection Hl.
Qed.
Lemma channel_no_audio {T} c C : channel c (@no_audio T C) = [].
Proof.
  unfold channel, no_audio. generalize (N.to_nat c). intros n. destruct (Nat.lt_ge_cases n C).
  - apply nth_repeat.
  - apply nth_overflow. rewrite repeat_length. lia.
Qed.
Lemma last_incl P E e lg c : is_64bit P -> logged P E e lg ->
  incl (channel c (lg_last lg)) (channel c (lg_heard lg)) /\
  incl (channel c (lg_inter_last lg)) (channel c (lg_inter lg)).
Proof.
  intros HP. induction 1 as [channels rate m e Hn Hs|e o r e' lg Hl IH Ha Hst].
  - split; intros x Hx; exact Hx.
  - destruct (logged_ok P E e lg HP Hl) as (g & L & HG & [B1 B2 B3 B4 B5 _ _ _ _]).
    destruct o as [number v|m|cc rt|w|h| |a|a]; cbn [log_after]; auto.
    + destruct (negb _ || _); auto. destruct (_ =? _)%N; cbn [lg_last lg_heard lg_inter lg_inter_last empty_log];
        rewrite ?channel_no_audio; split; intros x [].
    + cbn [lg_last lg_heard lg_inter lg_inter_last empty_log]. split; intros x Hx; exact Hx.
    + pose proof (input_cases_ok P E e g L a HG (admissible_op_ok _ _ Ha)) as Hi.
      destruct (input P (e_channels e) a) as [cols|]; auto. destruct (frames_of cols =? 0); auto.
      cbn [lg_last lg_heard lg_inter lg_inter_last]. destruct Hi as ((Hc & _) & _). split.
      * apply channel_join_incl. lia.
      * apply channel_join_incl. unfold oversample_new. rewrite map2_length'; rewrite ?map_length; lia.
    + destruct (input P (e_channels e) a); auto.
Qed.
(** adding frames only extends the log *)
Lemma add_incl P E e lg a c : is_64bit P -> logged P E e lg -> admissible e (OpAdd a) ->
  incl (channel c (lg_heard lg)) (channel c (lg_heard (log_after P E e (OpAdd a) lg))) /\
  incl (channel c (lg_inter lg)) (channel c (lg_inter (log_after P E e (OpAdd a) lg))).
Proof.
  intros HP Hl Ha. destruct (logged_ok P E e lg HP Hl) as (g & L & HG & [B1 B2 B3 B4 B5 _ _ _ _]).
  cbn [log_after]. pose proof (input_cases_ok P E e g L a HG (admissible_op_ok _ _ Ha)) as Hi.
  destruct (input P (e_channels e) a) as [cols|]; [|split; intros x Hx; exact Hx].
  destruct (frames_of cols =? 0); [split; intros x Hx; exact Hx|].
  cbn [lg_last lg_heard lg_inter lg_inter_last]. destruct Hi as ((Hc & _) & _). split.
  * apply channel_join_incl. lia.
  * apply channel_join_incl. unfold oversample_new. rewrite map2_length'; rewrite ?map_length; lia.
Qed.
Lemma step_add_config P E e a r e' : is_64bit P -> reachable P E e -> admissible e (OpAdd a) ->
  step P E e (OpAdd a) = Ret (r, e') -> e_mode e' = e_mode e /\ e_channels e' = e_channels e /\ e_rate e' = e_rate e.
Proof.
  intros HP Hr Ha Hs. destruct (reachable_ok P E e HP Hr) as (g & L & H & Ht & Hg).
  destruct (step_moves P E e g L _ r e' HP (conj H (conj Ht Hg)) Ha Hs) as (g' & L' & _ & HM).
  cbn [moved] in HM. destruct HM as (_ & _ & Heq). destruct (input P (e_channels e) a) as [cols|].
  - pose proof (added_config P E smp_reading e g (frame_count cols) cols) as Hc. rewrite <- Heq in Hc. cbn [fst] in Hc.
    destruct Hc as (-> & -> & -> & _). auto.
  - injection Heq as -> _. auto.
Qed.

Lemma peaks_ordered P E e c : is_64bit P -> reachable P E e -> has_TRUE_PEAK (e_mode e) ->
  (c < N.of_nat (e_channels e))%N ->
  exists tp sp psp ptp,
    ask P E e (QTruePeak c) = Ret (AValue (Ok tp)) /\ ask P E e (QSamplePeak c) = Ret (AValue (Ok sp)) /\
    ask P E e (QPrevSamplePeak c) = Ret (AValue (Ok psp)) /\ ask P E e (QPrevTruePeak c) = Ret (AValue (Ok ptp)) /\
    f64_le sp tp = true /\ f64_le psp sp = true /\ f64_le psp ptp = true /\ f64_le ptp tp = true /\
    f64_le f64_zero psp = true.
Proof.
  intros HP Hr Hm Hc. destruct (reachable_logged P E e Hr) as (lg & Hl).
  assert (has_SAMPLE_PEAK (e_mode e)) as Hm' by apply Hm.
  destruct (true_peak_log P E e lg c HP Hl Hm Hc) as (tp & T1 & T2).
  destruct (sample_peak_log P E e lg c HP Hl Hm' Hc) as (sp & S1 & S2).
  destruct (prev_sample_peak_log P E e lg c HP Hl Hm' Hc) as (psp & U1 & U2).
  destruct (prev_true_peak_log P E e lg c HP Hl Hm Hc) as (ptp & V1 & V2).
  destruct (last_incl P E e lg c HP Hl) as (I1 & I2).
  exists tp, sp, psp, ptp. repeat (split; [assumption|]). repeat split.
  - eapply largest_le; eauto. now apply incl_appl.
  - eapply largest_le; eauto. unfold levels_of. now apply incl_map.
  - eapply largest_le; eauto. now apply incl_appl.
  - eapply largest_le; eauto. apply incl_app; [apply incl_appl; now apply incl_map|apply incl_appr; now apply incl_map].
  - apply U2.
Qed.
Lemma peaks_grow P E e a r e' c : is_64bit P -> reachable P E e -> admissible e (OpAdd a) ->
  step P E e (OpAdd a) = Ret (r, e') -> (c < N.of_nat (e_channels e))%N ->
  (has_SAMPLE_PEAK (e_mode e) -> exists v v', ask P E e (QSamplePeak c) = Ret (AValue (Ok v)) /\
      ask P E e' (QSamplePeak c) = Ret (AValue (Ok v')) /\ f64_le v v' = true) /\
  (has_TRUE_PEAK (e_mode e) -> exists v v', ask P E e (QTruePeak c) = Ret (AValue (Ok v)) /\
      ask P E e' (QTruePeak c) = Ret (AValue (Ok v')) /\ f64_le v v' = true).
Proof.
  intros HP Hr Ha Hs Hc. destruct (reachable_logged P E e Hr) as (lg & Hl).
  pose proof (logged_step P E e (OpAdd a) r e' lg Hl Ha Hs) as Hl'.
  destruct (step_add_config P E e a r e' HP Hr Ha Hs) as (M & C & _).
  destruct (add_incl P E e lg a c HP Hl Ha) as (I1 & I2).
  split; intros Hm.
  - destruct (sample_peak_log P E e lg c HP Hl Hm Hc) as (v & S1 & S2).
    rewrite <- M in Hm. rewrite <- C in Hc.
    destruct (sample_peak_log P E e' _ c HP Hl' Hm Hc) as (v' & T1 & T2).
    exists v, v'. repeat split; auto. eapply largest_le; eauto. now apply incl_map.
  - destruct (true_peak_log P E e lg c HP Hl Hm Hc) as (v & S1 & S2).
    rewrite <- M in Hm. rewrite <- C in Hc.
    destruct (true_peak_log P E e' _ c HP Hl' Hm Hc) as (v' & T1 & T2).
    exists v, v'. repeat split; auto. eapply largest_le; eauto.
    apply incl_app; [apply incl_appl; now apply incl_map|apply incl_appr; now apply incl_map].
Qed.

(** ** an add call without frames changes nothing *)
Lemma empty_add_unchanged P E e a cols : is_64bit P -> reachable P E e -> admissible e (OpAdd a) ->
  input P (e_channels e) a = Some cols -> frames_of cols = 0 -> step P E e (OpAdd a) = Ret (Ok tt, e).
Proof.
  intros HP Hr Ha Hi H0. destruct (reachable_ok P E e HP Hr) as (g & L & H & Ht & Hg).
  destruct (step_add P E L e g a H Ht (admissible_op_ok _ _ Ha)) as (-> & _). rewrite Hi. unfold add_result, added.
  change (frame_count cols) with (frames_of cols). now rewrite H0.
Qed.

(** ** one channel of one analyzer and one of another *)
Definition same_channel_log (c d : N) (a b : log) : Prop :=
  channel c (lg_heard a) = channel d (lg_heard b) /\ channel c (lg_last a) = channel d (lg_last b) /\
  channel c (lg_past a) = channel d (lg_past b) /\ channel c (lg_inter a) = channel d (lg_inter b) /\
  channel c (lg_inter_last a) = channel d (lg_inter_last b).
Lemma channel_map2 {A B D} (f : list A -> list B -> list D) c : forall (x : list (list A)) (y : list (list B)),
  N.to_nat c < length x -> N.to_nat c < length y -> channel c (map2 f x y) = f (channel c x) (channel c y).
Proof.
  unfold channel. generalize (N.to_nat c). induction n; intros [|a x] [|b y] H1 H2; cbn in H1, H2; try lia; auto.
  cbn [map2 nth]. apply IHn; lia.
Qed.
Lemma channel_map {A B} (f : A -> B) c : forall (x : list (list A)), channel c (map (map f) x) = map f (channel c x).
Proof. unfold channel. intros x. now rewrite <- (map_nth (map f) x []). Qed.
Lemma channel_input_some P C c a cols : input P C a = Some cols -> N.to_nat c < length cols ->
  channel_input P C c a = Some (channel c cols).
Proof.
  intros H Hc. unfold channel_input, channel. rewrite H. now apply nth_error_nth'.
Qed.
Lemma columns_channel {T} C c (cols : list (list T)) : columns C cols -> N.to_nat c < C ->
  length (channel c cols) = frame_count cols.
Proof.
  intros (H1 & H2) Hc. rewrite Forall_forall in H2. apply H2. unfold channel. apply nth_In. lia.
Qed.

Lemma same_channel_step P E e e' lg lg' c d o o' g L g' L' : 
  good P E e g L -> good P E e' g' L' -> log_ok e g lg -> log_ok e' g' lg' -> e_rate e = e_rate e' ->
  (c < N.of_nat (e_channels e))%N -> (d < N.of_nat (e_channels e'))%N -> admissible e o -> admissible e' o' ->
  same_for_channel P (e_channels e) c (e_channels e') d o o' -> same_channel_log c d lg lg' ->
  same_channel_log c d (log_after P E e o lg) (log_after P E e' o' lg').
Proof.
  intros HG HG' B B' HR Hc Hd Ha Ha' Hs Hl.
  destruct o as [number v|m|cc rt|w|h| |a|a], o' as [number' v'|m'|cc' rt'|w'|h'| |a'|a']; cbn [same_for_channel] in Hs;
    try contradiction; cbn [log_after]; auto.
  - unfold same_channel_log, empty_log. cbn [lg_heard lg_last lg_past lg_inter lg_inter_last].
    rewrite !channel_no_audio. auto.
  - pose proof (input_cases_ok P E e g L a HG (admissible_op_ok _ _ Ha)) as Hi.
    pose proof (input_cases_ok P E e' g' L' a' HG' (admissible_op_ok _ _ Ha')) as Hi'.
    destruct B, B'.
    destruct (input P (e_channels e) a) as [cols|] eqn:E1, (input P (e_channels e') a') as [cols'|] eqn:E2; cbn [input_ok] in *.
    + destruct Hi as (Hk & _), Hi' as (Hk' & _). pose proof (proj1 Hk) as K1. pose proof (proj1 Hk') as K1'.
      rewrite (channel_input_some P _ c a cols E1), (channel_input_some P _ d a' cols' E2) in Hs by lia.
      injection Hs as Hs.
      pose proof (columns_channel _ c cols Hk ltac:(lia)) as N1. pose proof (columns_channel _ d cols' Hk' ltac:(lia)) as N2.
      change (frames_of cols) with (frame_count cols). change (frames_of cols') with (frame_count cols').
      rewrite <- N1, <- N2, Hs. destruct (_ =? 0); auto.
      destruct Hl as (X1 & X2 & X3 & X4 & X5). 
      unfold same_channel_log, join, oversample_new. cbn [lg_heard lg_last lg_past lg_inter lg_inter_last].
      rewrite !channel_map2; rewrite ?map2_length'; rewrite ?map_length; try lia.
      rewrite !channel_map, X1, X3, X4, Hs, HR. auto.
    + unfold channel_input in Hs. rewrite E1, E2 in Hs. destruct Hi as (Hk & _). pose proof (proj1 Hk).
      apply nth_error_None in Hs. lia.
    + unfold channel_input in Hs. rewrite E1, E2 in Hs. destruct Hi' as (Hk & _). pose proof (proj1 Hk).
      symmetry in Hs. apply nth_error_None in Hs. lia.
    + auto.
  - pose proof (input_cases_ok P E e g L a HG (admissible_op_ok _ _ Ha)) as Hi.
    pose proof (input_cases_ok P E e' g' L' a' HG' (admissible_op_ok _ _ Ha')) as Hi'.
    destruct B, B'.
    destruct (input P (e_channels e) a) as [cols|] eqn:E1, (input P (e_channels e') a') as [cols'|] eqn:E2; cbn [input_ok] in *.
    + destruct Hi as (Hk & _), Hi' as (Hk' & _). pose proof (proj1 Hk) as K1. pose proof (proj1 Hk') as K1'.
      rewrite (channel_input_some P _ c a cols E1), (channel_input_some P _ d a' cols' E2) in Hs by lia.
      injection Hs as Hs. destruct Hl as (X1 & X2 & X3 & X4 & X5). 
      unfold same_channel_log, join. cbn [lg_heard lg_last lg_past lg_inter lg_inter_last].
      rewrite !channel_map2; rewrite ?map_length; try lia.
      rewrite !channel_map, X3, Hs. auto.
    + unfold channel_input in Hs. rewrite E1, E2 in Hs. destruct Hi as (Hk & _). pose proof (proj1 Hk).
      apply nth_error_None in Hs. lia.
    + unfold channel_input in Hs. rewrite E1, E2 in Hs. destruct Hi' as (Hk & _). pose proof (proj1 Hk).
      symmetry in Hs. apply nth_error_None in Hs. lia.
    + auto.
Qed.

(** calls other than change_parameters keep rate, mode and channels *)
Lemma moved_config P E e g L o e' g' L' : moved P E e g L o e' g' L' ->
  match o with OpChangeParameters _ _ => True | _ =>
    e_mode e' = e_mode e /\ e_rate e' = e_rate e /\ e_channels e' = e_channels e end.
Proof.
  destruct o as [number v|m|c rt|w|h| |a|a]; cbn [moved]; auto.
  - intros ((m & ->) & _). auto.
  - intros ((m' & ->) & _). auto.
  - unfold rewindowed. cbv zeta. destruct (_ =? _)%N; [intros (-> & _)|intros (_ & _ & ->)]; auto.
  - intros (-> & _). unfold set_max_history. destruct (_ =? _)%N; auto.
  - intros ((f & _ & _ & _ & ->) & _). auto.
  - intros (_ & _ & Heq). destruct (input P (e_channels e) a) as [cols|]; [|injection Heq as -> _; auto].
    pose proof (added_config P E smp_reading e g (frame_count cols) cols) as Hc. rewrite <- Heq in Hc. cbn [fst] in Hc.
    destruct Hc as (-> & -> & -> & _). auto.
  - intros (_ & _ & Heq). destruct (input P (e_channels e) a) as [cols|]; injection Heq as -> _; auto.
Qed.

Lemma channel_sessions P E c d : is_64bit P -> forall os e e1, session P E e os e1 -> forall os' e' e1', session P E e' os' e1' ->
  Forall2 (same_for_channel P (e_channels e) c (e_channels e') d) os os' ->
  forall lg lg', logged P E e lg -> logged P E e' lg' -> e_rate e = e_rate e' ->
  (c < N.of_nat (e_channels e))%N -> (d < N.of_nat (e_channels e'))%N -> same_channel_log c d lg lg' ->
  exists l1 l2, logged P E e1 l1 /\ logged P E e1' l2 /\ same_channel_log c d l1 l2 /\
    e_channels e1 = e_channels e /\ e_channels e1' = e_channels e' /\ e_mode e1 = e_mode e /\ e_mode e1' = e_mode e'.
Proof.
  intros HP. induction 1 as [e|e o r e1 os e2 Ha Hs Hss IH]; intros os' e' e1' H' HF lg lg' Hl Hl' HR Hc Hd Hsame.
  - inversion HF; subst. inversion H'; subst. exists lg, lg'. auto 10.
  - inversion HF; subst. inversion H'; subst.
    destruct (logged_ok P E e lg HP Hl) as (g & L & HG & B). destruct (logged_ok P E e' lg' HP Hl') as (g' & L' & HG' & B').
    match goal with X : admissible e' ?o' |- _ => rename X into Ha' end.
    match goal with X : step P E e' ?o' = Ret _ |- _ => rename X into Hs' end.
    match goal with X : session P E _ l' _ |- _ => rename X into Hss' end.
    match goal with X : same_for_channel _ _ _ _ _ o ?o' |- _ => rename X into Hso end.
    destruct (step_moves P E e g L o r e1 HP HG Ha Hs) as (ga & La & _ & HM).
    destruct (step_moves P E e' g' L' _ _ _ HP HG' Ha' Hs') as (gb & Lb & _ & HM').
    apply moved_config in HM, HM'.
    pose proof (same_channel_step P E e e' lg lg' c d o y g L g' L' HG HG' B B' HR Hc Hd Ha Ha' Hso Hsame) as Hn.
    assert (e_channels e1 = e_channels e /\ e_rate e1 = e_rate e /\ e_mode e1 = e_mode e) as (C1 & R1 & M1).
    { destruct o, y; cbn [same_for_channel] in Hso; try contradiction; tauto. }
    match goal with X : session P E ?ex l' _ |- _ => 
      assert (e_channels ex = e_channels e' /\ e_rate ex = e_rate e' /\ e_mode ex = e_mode e') as (C2 & R2 & M2) end.
    { destruct o, y; cbn [same_for_channel] in Hso; try contradiction; tauto. }
    destruct (IH _ _ _ Hss') with (lg := log_after P E e o lg) (lg' := log_after P E e' y lg')
      as (l1 & l2 & K1 & K2 & K3 & K4 & K5 & K6 & K7).
    + rewrite C1, C2. assumption.
    + exact (logged_step P E e o r e1 lg Hl Ha Hs).
    + exact (logged_step P E e' y _ _ lg' Hl' Ha' Hs').
    + congruence.
    + rewrite C1. auto.
    + rewrite C2. auto.
    + exact Hn.
    + exists l1, l2. repeat (split; [assumption||congruence|]). congruence.
Qed.
Lemma channel_independent P E c d channels channels' rate m m' e e' os os' e1 e1' : is_64bit P ->
  ebur128_new P E channels rate m = Ret (Ok e) -> ebur128_new P E channels' rate m' = Ret (Ok e') ->
  supported m rate -> supported m' rate -> (c < channels)%N -> (d < channels')%N ->
  session P E e os e1 -> session P E e' os' e1' ->
  Forall2 (same_for_channel P (N.to_nat channels) c (N.to_nat channels') d) os os' ->
  (has_SAMPLE_PEAK m -> has_SAMPLE_PEAK m' ->
     ask P E e1 (QSamplePeak c) = ask P E e1' (QSamplePeak d) /\
     ask P E e1 (QPrevSamplePeak c) = ask P E e1' (QPrevSamplePeak d)) /\
  (has_TRUE_PEAK m -> has_TRUE_PEAK m' ->
     ask P E e1 (QTruePeak c) = ask P E e1' (QTruePeak d) /\
     ask P E e1 (QPrevTruePeak c) = ask P E e1' (QPrevTruePeak d)).
Proof.
  intros HP Hn Hn' Hs Hs' Hc Hd S1 S2 HF.
  destruct (new_good P E channels rate m e HP Hn Hs) as (g & L & HG & HB).
  destruct (new_good P E channels' rate m' e' HP Hn' Hs') as (g' & L' & HG' & HB').
  pose proof (nb_channels _ _ _ _ _ _ _ _ HB) as C1. pose proof (nb_channels _ _ _ _ _ _ _ _ HB') as C2.
  pose proof (nb_rate _ _ _ _ _ _ _ _ HB) as R1. pose proof (nb_rate _ _ _ _ _ _ _ _ HB') as R2.
  pose proof (nb_mode _ _ _ _ _ _ _ _ HB) as M1. pose proof (nb_mode _ _ _ _ _ _ _ _ HB') as M2.
  rewrite <- C1, <- C2 in HF.
  destruct (channel_sessions P E c d HP os e e1 S1 os' e' e1' S2 HF _ _
    (logged_new P E channels rate m e Hn Hs) (logged_new P E channels' rate m' e' Hn' Hs')) as
    (l1 & l2 & K1 & K2 & (X1 & X2 & X3 & X4 & X5) & K4 & K5 & K6 & K7); try congruence; try lia.
  { unfold same_channel_log, empty_log. cbn [lg_heard lg_last lg_past lg_inter lg_inter_last].
    rewrite !channel_no_audio. auto. }
  destruct (peak_answers P E e1 l1 c HP K1 ltac:(lia)) as (A1 & A2).
  destruct (peak_answers P E e1' l2 d HP K2 ltac:(lia)) as (B1 & B2).
  rewrite K6, M1 in A1, A2. rewrite K7, M2 in B1, B2. cbn [ask].
  split; intros Hm Hm'.
  - destruct (A1 Hm) as (-> & ->), (B1 Hm') as (-> & ->). rewrite X1, X2. auto.
  - destruct (A2 Hm) as (-> & ->), (B2 Hm') as (-> & ->). rewrite X1, X2, X4, X5. auto.
Qed.

(** ** a new analyzer that is only fed *)
Lemma join_no_audio {T} (x : list (list T)) n : length x = n -> join x (no_audio n) = x.
Proof.
  intros <-. unfold join, no_audio. induction x; cbn [length repeat map2]; auto. now rewrite app_nil_r, IHx.
Qed.
Lemma join_empty {T} (x y : list (list T)) : Forall (fun c => length c = 0) x -> length x = length y -> join x y = y.
Proof.
  intros HF. revert y. unfold join. induction HF as [|c l Hc HF IH]; intros [|b y] Hl; try discriminate; auto.
  cbn [map2]. destruct c; [|discriminate]. cbn [app]. f_equal. apply IH. now injection Hl.
Qed.
Lemma join_assoc {T} (x y z : list (list T)) : length x = length y -> length y = length z ->
  join (join x y) z = join x (join y z).
Proof.
  revert y z. unfold join. induction x; intros [|b y] [|d z] H1 H2; try discriminate; auto.
  cbn [map2]. rewrite app_assoc. f_equal. apply IHx; [now injection H1|now injection H2].
Qed.
Lemma fed_log P E : is_64bit P -> forall l e lg rs e1 cols, logged P E e lg ->
  Forall (fun a => admissible e (OpAdd a)) l -> all_input P (e_channels e) l = Some cols ->
  run P E e (map OpAdd l) = Ret (rs, e1) ->
  exists lg1, logged P E e1 lg1 /\ lg_heard lg1 = join (lg_heard lg) cols /\
    e_mode e1 = e_mode e /\ e_channels e1 = e_channels e.
Proof.
  intros HP. induction l as [|a l IH]; intros e lg rs e1 cols Hl Ha Hi Hr.
  - cbn [map run all_input] in *. apply Ret_pair_inj in Hr. destruct Hr as (_ & <-). injection Hi as <-. exists lg. split; auto.
    destruct (logged_ok P E e lg HP Hl) as (g & L & HG & B). split; auto.
    symmetry. apply join_no_audio. apply (lo_heard _ _ _ B).
  - cbn [map run all_input] in *. inversion_clear Ha as [|? ? Ha1 Ha2].
    destruct (logged_ok P E e lg HP Hl) as (g & L & HG & B). pose proof HG as (H & Ht & Hg).
    pose proof (input_cases_ok P E e g L a HG (admissible_op_ok _ _ Ha1)) as Hio.
    destruct (step P E e (OpAdd a)) as [[r1 e2]| | |] eqn:Hs; cbn [obind] in Hr; try discriminate.
    destruct (run P E e2 (map OpAdd l)) as [[rs2 e3]| | |] eqn:Hr2; cbn [obind] in Hr; try discriminate.
    apply Ret_pair_inj in Hr. destruct Hr as (_ & <-).
    destruct (input P (e_channels e) a) as [x|] eqn:Ei; [|discriminate].
    destruct (all_input P (e_channels e) l) as [y|] eqn:El; [|discriminate]. injection Hi as <-.
    destruct (step_add_config P E e a r1 e2 HP (logged_reachable _ _ _ _ Hl) Ha1 Hs) as (M & C & R).
    assert (Forall (audio_ok (e_channels e)) l) as Hao.
    { eapply Forall_impl; [|exact Ha2]. intros b Hb. exact (admissible_op_ok _ _ Hb). }
    destruct (all_input_columns P E L l e g y H Ht Hao El) as (Hy & _).
    destruct (IH e2 (log_after P E e (OpAdd a) lg) rs2 e3 y) as (lg1 & K1 & K2 & K3 & K4); auto.
    + eapply logged_step; eauto.
    + eapply Forall_impl; [|exact Ha2]. intros b Hb. destruct b; cbn in *; auto; rewrite C; auto.
    + now rewrite C.
    + exists lg1. split; auto. split; [|split; congruence]. rewrite K2. cbn [log_after]. rewrite Ei.
      cbn [input_ok] in Hio. destruct Hio as ((Hk1 & Hk2) & _).
      destruct B as [B1 B2 B3 B4 B5 _ _ _ _].
      destruct (Nat.eqb_spec (frames_of x) 0) as [Ez|Ez].
      * change (frames_of x) with (frame_count x) in Ez. rewrite Ez in Hk2. 
        rewrite (join_empty x y); auto. congruence.
      * cbn [lg_heard]. apply join_assoc; lia.
Qed.
Lemma fresh_sample_peak P E channels rate m e l rs e1 cols c : is_64bit P ->
  ebur128_new P E channels rate m = Ret (Ok e) -> supported m rate -> has_SAMPLE_PEAK m -> (c < channels)%N ->
  Forall (fun a => admissible e (OpAdd a)) l -> all_input P (N.to_nat channels) l = Some cols ->
  run P E e (map OpAdd l) = Ret (rs, e1) ->
  exists v, ask P E e1 (QSamplePeak c) = Ret (AValue (Ok v)) /\ largest (levels_of (channel c cols)) v.
Proof.
  intros HP Hn Hs Hm Hc Ha Hi Hr.
  destruct (new_good P E channels rate m e HP Hn Hs) as (g & L & HG & HB).
  pose proof (nb_channels _ _ _ _ _ _ _ _ HB) as C1. pose proof (nb_mode _ _ _ _ _ _ _ _ HB) as M1.
  rewrite <- C1 in Hi.
  pose proof (logged_new P E channels rate m e Hn Hs) as Hl.
  destruct (fed_log P E HP l e _ rs e1 cols Hl Ha Hi Hr) as (lg1 & K1 & K2 & K3 & K4).
  destruct (sample_peak_log P E e1 lg1 c HP K1) as (v & V1 & V2); [congruence|lia|].
  exists v. split; auto. rewrite K2 in V2. cbn [empty_log lg_heard] in V2.
  rewrite <- C1 in V2. assert (Forall (audio_ok (e_channels e)) l) as Hao.
  { eapply Forall_impl; [|exact Ha]. intros b Hb. exact (admissible_op_ok _ _ Hb). }
  destruct HG as (H & Ht & _). destruct (all_input_columns P E L l e g cols H Ht Hao Hi) as (Hy & _).
  rewrite join_empty in V2; auto.
  - apply Forall_forall. intros x Hx. apply repeat_spec in Hx. now subst.
  - unfold no_audio. now rewrite repeat_length, Hy.
Qed.

(** ** Levels *)
Lemma flush64_normal (x : f64) : is_finite x = true -> (bpow radix2 (-1022) <= Rabs (B2R x))%R -> flush64 x = x.
Proof.
  destruct x as [s|s| |s m e B]; intros Hf Hb; auto. unfold flush64.
  destruct (Z.ltb_spec (Zpos m) (2 ^ 52)); auto. exfalso.
  pose proof (canonical_bounded 53 1024 false m e B) as Hc. unfold canonical, cexp in Hc. cbn [Fexp Fnum SpecFloat.cond_Zopp] in Hc.
  unfold B2R in Hb. rewrite <- F2R_Zabs in Hb. 
  assert (Z.abs (SpecFloat.cond_Zopp s (Zpos m)) = Zpos m) as Ha by (destruct s; reflexivity). rewrite Ha in Hb.
  assert (mag radix2 (F2R (Float radix2 (Zpos m) e)) <= 52 + e)%Z as Hmag.
  { rewrite mag_F2R by discriminate. apply Zplus_le_compat_r. apply mag_le_bpow; [apply not_0_IZR; discriminate|].
    rewrite <- abs_IZR. rewrite <- (IZR_Zpower radix2 52) by lia. apply IZR_lt. exact H. }
  unfold SpecFloat.fexp, SpecFloat.emin in Hc. assert (e = -1074)%Z as -> by lia.
  apply Rle_not_lt in Hb. apply Hb. unfold F2R. cbn [Fnum Fexp].
  change (-1022)%Z with (52 + -1074)%Z. rewrite bpow_plus. apply Rmult_lt_compat_r; [apply bpow_gt_0|].
  rewrite <- (IZR_Zpower radix2) by lia. apply IZR_lt. exact H.
Qed.
Lemma ftz64_normal P (x : f64) : is_finite x = true -> B2R x = 0%R \/ (bpow radix2 (-1022) <= Rabs (B2R x))%R -> ftz64 P x = x.
Proof.
  intros Hf [H|H]; unfold ftz64; destruct (p_ftz P); auto using flush64_normal.
  destruct x as [s|s| |s m e B]; auto. exfalso. pose proof (B2R_Bsign_inj _ _ (B754_finite s m e B) (B754_zero s) Hf eq_refl H eq_refl). discriminate.
Qed.
Lemma level_f64 P x : r_level (read P smp_f64 x) = ftz64 P (f64_abs x).
Proof. unfold read. cbn [r_level smp_f64 s_raw s_max]. now rewrite f64_div_one_abs. Qed.
Lemma level_f64_normal P x : (p_ftz P = true -> subnormal64 x = false) -> r_level (read P smp_f64 x) = f64_abs x.
Proof.
  intros H. rewrite level_f64. unfold ftz64. destruct (p_ftz P); auto. specialize (H eq_refl). destruct x; auto.
  unfold f64_abs. cbn [Babs]. unfold flush64. cbn [subnormal64] in H. now rewrite H.
Qed.
Lemma level_f64_subnormal P x : p_ftz P = true -> subnormal64 x = true -> r_level (read P smp_f64 x) = f64_zero.
Proof.
  intros HP H. rewrite level_f64. unfold ftz64. rewrite HP. destruct x; try discriminate.
  unfold f64_abs. cbn [Babs]. unfold flush64. cbn [subnormal64] in H. now rewrite H.
Qed.
Lemma scaled_level P z k : (0 <= k <= 31)%Z -> (Z.abs z <= 2 ^ 31)%Z ->
  let y := ftz64 P (f64_abs (f64_div (f64_of_Z z) (f64_of_Z (2 ^ k)))) in
  is_finite y = true /\ B2R y = (IZR (Z.abs z) * bpow radix2 (-k))%R.
Proof.
  intros Hk Hz y. destruct (scale64 z k Hk Hz) as (A1 & A2 & _).
  set (w := f64_abs (f64_div (f64_of_Z z) (f64_of_Z (2 ^ k)))) in *.
  assert (is_finite w = true) as W1 by (unfold w, f64_abs; now rewrite is_finite_Babs).
  assert (B2R w = (IZR (Z.abs z) * bpow radix2 (-k))%R) as W2.
  { unfold w, f64_abs. rewrite B2R_Babs, A2, Rabs_mult, (Rabs_pos_eq (bpow _ _)) by apply bpow_ge_0. now rewrite abs_IZR. }
  assert (y = w) as ->; auto. apply ftz64_normal; auto. rewrite W2. destruct (Z.eq_dec z 0) as [->|Hz0].
  - left. cbn [Z.abs]. apply Rmult_0_l.
  - right. rewrite Rabs_pos_eq by (apply Rmult_le_pos; [apply IZR_le; lia|apply bpow_ge_0]).
    apply Rle_trans with (1 * bpow radix2 (-k))%R.
    + rewrite Rmult_1_l. apply bpow_le. lia.
    + apply Rmult_le_compat_r; [apply bpow_ge_0|]. apply IZR_le. lia.
Qed.
Lemma level_i16 P z : in_i16 z -> is_finite (r_level (read P smp_i16 z)) = true /\
  B2R (r_level (read P smp_i16 z)) = (IZR (Z.abs z) / 32768)%R.
Proof. intros H. rewrite read_i16, level_f64 by auto. apply (scaled_level P z 15); unfold in_i16 in *; lia. Qed.
Lemma level_i32 P z : in_i32 z -> is_finite (r_level (read P smp_i32 z)) = true /\
  B2R (r_level (read P smp_i32 z)) = (IZR (Z.abs z) / 2147483648)%R.
Proof. intros H. rewrite read_i32, level_f64 by auto. apply (scaled_level P z 31); unfold in_i32 in *; lia. Qed.
Lemma level_f32 P x : r_level (read P smp_f32 x) = f64_of_f32 (f32_abs x).
Proof.
  transitivity (ftz64 P (f64_of_f32 (f32_abs x))).
  { rewrite f64_of_f32_abs. unfold read. cbn [r_level smp_f32 s_raw s_max]. now rewrite f64_div_one_abs. }
  destruct (is_finite (f32_abs x)) eqn:Hf.
  - destruct (f64_of_f32_finite (f32_abs x) Hf) as (F1 & F2 & _). apply ftz64_normal; auto. rewrite F2.
    destruct (f32_abs x) as [s|s| |s m e B]; try discriminate; [left; reflexivity|right].
    cbn [B2R]. rewrite <- F2R_Zabs.
    assert (Z.abs (SpecFloat.cond_Zopp s (Zpos m)) = Zpos m) as -> by (destruct s; reflexivity).
    unfold F2R. cbn [Fnum Fexp]. apply Rle_trans with (1 * bpow radix2 e)%R.
    + rewrite Rmult_1_l. apply bpow_le. pose proof (proj1 (proj1 (andb_true_iff _ _) B)) as K.
      unfold SpecFloat.canonical_mantissa in K. apply Zeq_bool_eq in K.
      unfold SpecFloat.fexp, SpecFloat.emin in K. lia.
    + apply Rmult_le_compat_r; [apply bpow_ge_0|]. apply IZR_le. lia.
  - destruct (f32_abs x) as [s|s| |s m e B]; try discriminate; unfold ftz64; destruct (p_ftz P); reflexivity.
Qed.

(** ** The rolling buffer and the interpolator on their own *)
Lemma push_all_ok {T} n (vs : list T) : forall r h, rb_ok n r h ->
  exists r', push_all n r vs = Ret r' /\ rb_ok n r' (fold_left (push n) vs h).
Proof.
  induction vs; intros r h H; cbn [push_all fold_left]; eauto.
  destruct (push_front_ok n r h a H) as (r1 & -> & H1). cbn [obind]. apply IHvs. auto.
Qed.
Lemma rolling_ok {T} n (d : T) vs : 0 < n -> n <= 24 ->
  exists r0 r, rolling_new n d = Ret r0 /\ push_all n r0 vs = Ret r /\
    rolling_view n r = Ret (firstn n (rev vs ++ repeat d n)).
Proof.
  intros H0 H1. destruct (rolling_new_ok n d H0) as (r0 & Hr & Hok); [lia|].
  destruct (push_all_ok n vs r0 _ Hok) as (r & Hp & Hk). exists r0, r. split; auto. split; auto.
  rewrite (rolling_view_ok n r _ Hk). f_equal. apply push_fold. apply repeat_length.
Qed.
Lemma hists_of_interp {T} (d : T) taps C : forall frames h, Forall (fun f => length f = C) frames -> Forall (fun f => length f = C) h ->
  forall c, c < C -> col c (fold_left (push taps) frames h) = fold_left (push taps) (map (fun f => nth c f d) frames) (col c h).
Proof.
  induction frames; intros h HF Hh c Hc; cbn [fold_left map]; auto. inversion_clear HF.
  assert (nth_error a c = Some (nth c a d)) as Hx by (apply nth_error_nth'; lia).
  rewrite IHframes; auto.
  - now rewrite (col_push taps c C h a (nth c a d)).
  - unfold push. apply Forall_forall. intros x Hx'. assert (In x (a :: h)) as [<-|Hi] by
      (rewrite <- (firstn_skipn taps (a :: h)); apply in_or_app; auto); auto. rewrite Forall_forall in Hh. auto.
Qed.
Lemma interpolate_all_ok P E taps factor C : forall frames past i, 0 < C -> taps * factor = 48 ->
  Forall (fun f => length f = C) past ->
  interp_ok i taps factor C (interp_filter E taps factor) (fold_left (push taps) past (repeat (zero_frame C) taps)) ->
  Forall (fun f => length f = C) frames ->
  exists i' outs, interpolate_all P i frames = Ret (i', outs) /\ length outs = length frames /\
    forall n f c, n < length frames -> f < factor -> c < C ->
      nth c (nth f (nth n outs []) []) f32_zero =
      interpolated P E taps factor (map (fun x => nth c x f32_zero) (past ++ frames)) (length past + n) f.
Proof.
  induction frames as [|x frames IH]; intros past i HC H48 Hp Hi HF.
  - exists i, []. repeat split; auto. cbn. lia.
  - inversion_clear HF as [|? ? Hx HF'].
    destruct (interpolate_ok P i taps factor C _ _ x Hi Hx) as (i1 & E1 & Hi1).
    assert (push taps (fold_left (push taps) past (repeat (zero_frame C) taps)) x =
            fold_left (push taps) (past ++ [x]) (repeat (zero_frame C) taps)) as Epush by (now rewrite fold_left_app).
    rewrite Epush in *.
    assert (Forall (fun f => length f = C) (past ++ [x])) as Hp' by (apply Forall_app; auto).
    destruct (IH (past ++ [x]) i1 HC H48 Hp' Hi1 HF') as (i2 & os & E2 & Hl & Hn).
    cbn [interpolate_all]. rewrite E1. cbn [obind]. rewrite E2. cbn [obind].
    eexists i2, (_ :: os). split; [reflexivity|]. split; [cbn; lia|].
    intros n f c Hlt Hf Hc. destruct n as [|n].
    + cbn [nth]. rewrite Nat.add_0_r.
      set (h := fold_left (push taps) (past ++ [x]) (repeat (zero_frame C) taps)) in *.
      destruct Hi1 as (_ & _ & _ & _ & _ & Hrow & _ & Hh).
      destruct (interp_out_col P factor C (interp_filter E taps factor) h c) as (Q1 & Q2 & Q3); auto.
      assert (nth c (nth f (interp_out P factor C (interp_filter E taps factor) h) []) f32_zero =
              nth f (col c (interp_out P factor C (interp_filter E taps factor) h)) f32_zero) as ->.
      { destruct (nth_error (interp_out P factor C (interp_filter E taps factor) h) f) as [o|] eqn:Eo;
          [|apply nth_error_None in Eo; lia].
        rewrite (nth_error_nth _ _ [] Eo). pose proof (col_nth_error c _ C Hc Q2 f o Eo) as Hcol.
        assert (length o = C) as Ho by (rewrite Forall_forall in Q2; apply Q2; eapply nth_error_In; eauto).
        symmetry. apply nth_error_nth. rewrite Hcol. apply nth_error_nth'. lia. }
      rewrite Q1. unfold h. rewrite (hists_of_interp f32_zero taps C); auto.
      2: { apply Forall_forall. intros y Hy. apply repeat_spec in Hy. subst. apply repeat_length. }
      assert (col c (repeat (zero_frame C) taps) = zeros32 taps) as ->.
      { unfold zeros32. clear - Hc. induction taps; cbn [repeat]; auto. rewrite col_cons, IHtaps.
        unfold zero_frame. replace (firstn 1 (skipn c (repeat f32_zero C))) with [f32_zero]; auto.
        apply nth_error_ext. intros i. rewrite nth_error_firstn, nth_error_skipn.
        destruct i; cbn [Nat.ltb Nat.leb nth_error].
        - rewrite Nat.add_0_r. symmetry. now apply nth_error_repeat'.
        - now destruct i. }
      rewrite map_app. cbn [map]. change (fold_left (push taps) ?l (zeros32 taps)) with (hist_of taps l).
      rewrite fir_interpolated by lia. rewrite map_length.
      rewrite (nth_indep _ _ (interpolated P E taps factor (map (fun x => nth c x f32_zero) past ++ [nth c x f32_zero]) (length past) 0))
        by (rewrite map_length, seq_length; lia).
      rewrite map_nth, seq_nth by lia. cbn [Nat.add].
      rewrite map_app. cbn [map].
      replace (map (fun x0 => nth c x0 f32_zero) past ++ nth c x f32_zero :: map (fun x0 => nth c x0 f32_zero) frames)
        with ((map (fun x0 => nth c x0 f32_zero) past ++ [nth c x f32_zero]) ++ map (fun x0 => nth c x0 f32_zero) frames)
        by (rewrite <- app_assoc; reflexivity).
      symmetry. apply interpolated_app. rewrite app_length, map_length. cbn. lia.
    + cbn [nth]. cbn [length] in Hlt. rewrite Hn by (auto; lia).
      rewrite <- app_assoc. cbn [app]. f_equal. rewrite app_length. cbn. lia.
Qed.
Lemma interpolator_ok P E taps factor C frames : 0 < C -> taps * factor = 48 -> 2 <= factor ->
  Forall (fun f => length f = C) frames ->
  exists i i' outs, interpf_new E taps factor C = Ret i /\
    interpolate_all P i frames = Ret (i', outs) /\ length outs = length frames /\
    forall n f c, n < length frames -> f < factor -> c < C ->
      nth c (nth f (nth n outs []) []) f32_zero =
      interpolated P E taps factor (map (fun x => nth c x f32_zero) frames) n f.
Proof.
  intros HC H48 Hf2 HF. destruct (interpf_new_ok E taps factor C) as (i & Hi & Hok); auto; try nia.
  destruct (interpolate_all_ok P E taps factor C frames [] i HC H48 (Forall_nil _) Hok HF) as (i' & os & H1 & H2 & H3).
  exists i, i', os. auto.
Qed.
