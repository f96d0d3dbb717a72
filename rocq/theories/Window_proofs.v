(** Windows of loudness_window, signs of energies, chunking without flush-to-zero, seeding with everything heard so far. *)
From Coq Require Import List Arith NArith ZArith Bool Lia Reals Lra.
From Flocq Require Import Core.Core IEEE754.BinarySingleNaN.
From Verif Require Import Prelude Float Env Utils Interp History TruePeak Filter Ebur128 Ref Prelude_proofs Utils_proofs
  TruePeak_proofs Filter_proofs Geometry_proofs History_proofs Ebur128_proofs Ops_proofs Chunk_proofs Spec Reach_proofs
  Input_proofs Trace_proofs Feed_proofs Peak_proofs Stream_proofs Energy_proofs Loud_proofs Parallel_proofs Silence_proofs.
Import ListNotations.
Local Open Scope nat_scope.

(** * C49 *)
Lemma hop_div e : (e_rate e mod 10 = 0)%N -> N.of_nat (hop e) = (e_rate e / 10)%N.
Proof.
  intros H. unfold hop. rewrite N2Nat.id. unfold hundred_ms. pose proof (N.div_mod (e_rate e) 10 ltac:(lia)) as Hd.
  rewrite H in Hd. symmetry. apply N.div_unique with (r := 5%N); lia.
Qed.
Lemma window_frames e k : (e_rate e mod 10 = 0)%N -> N.to_nat (e_rate e * (100 * k) / 1000) = N.to_nat k * hop e.
Proof.
  intros H. pose proof (hop_div e H) as Hh. pose proof (N.div_mod (e_rate e) 10 ltac:(lia)) as Hd. rewrite H in Hd.
  assert (e_rate e * (100 * k) / 1000 = k * N.of_nat (hop e))%N as ->.
  { symmetry. apply N.div_unique with (r := 0%N); [lia|]. rewrite Hh. nia. }
  lia.
Qed.
Lemma window_400 P E e : is_64bit P -> reachable P E e -> (e_rate e mod 10 = 0)%N -> ask P E e (QWindow 400) = ask P E e QMomentary.
Proof.
  intros HP HR Hm. destruct (reachable_taped P E e HR) as (t & HT). rewrite (ask_window P E e t 400 HP HT) by lia.
  rewrite (ask_momentary P E e t HP HT). pose proof (window_frames e 4 Hm) as X. change (100 * 4)%N with 400%N in X. rewrite X.
  change (N.to_nat 4) with 4. unfold recent_loudness.
  destruct (taped_ok P E e t HP HT) as (g & L & (H & Ht & _) & _). rewrite (capacity_L _ _ _ _ _ H).
  pose proof (t_4 _ _ Ht) as H4. rewrite (hop_eq P E e t) in H4 by auto.
  destruct (Nat.ltb_spec L (4 * hop e)); [lia|reflexivity].
Qed.
Lemma window_3000 P E e : is_64bit P -> reachable P E e -> (e_rate e mod 10 = 0)%N -> ask P E e (QWindow 3000) = ask P E e QShortterm.
Proof.
  intros HP HR Hm. destruct (reachable_taped P E e HR) as (t & HT). rewrite (ask_window P E e t 3000 HP HT) by lia.
  rewrite (ask_shortterm P E e t HP HT). pose proof (window_frames e 30 Hm) as X. change (100 * 30)%N with 3000%N in X. now rewrite X.
Qed.
Lemma recent_0 ys : recent 0 ys = [].
Proof. unfold recent. cbn [repeat app]. apply skipn_all. Qed.
Lemma energy_0 L roles ss : energy L 0 roles ss = f64_nan.
Proof.
  unfold energy.
  assert (forall l, fold_left (fun sum '(ch, ys) => if unused ch then sum
             else f64_add sum (gain ch (sum_of_squares (ring_order (length ys mod L) (recent 0 ys))))) l f64_zero = f64_zero) as X.
  { induction l as [|[ch ys] l IH]; [reflexivity|]. cbn [fold_left]. destruct (unused ch); [exact IH|].
    rewrite recent_0. replace (ring_order (length ys mod L) []) with (@nil f64) by (unfold ring_order; now destruct (_ <? _)).
    change (sum_of_squares []) with f64_zero. rewrite gain_zero. change (f64_add f64_zero f64_zero) with f64_zero. exact IH. }
  rewrite X. reflexivity.
Qed.
Lemma window_0 P E e ms : is_64bit P -> reachable P E e -> (ms <= 4294967295)%N -> (e_rate e * ms < 1000)%N -> e_log10 E f64_nan = f64_nan ->
  ask P E e (QWindow ms) = Ret (AValue (Ok f64_nan)).
Proof.
  intros HP HR Hw Hm HE. destruct (reachable_taped P E e HR) as (t & HT). rewrite (ask_window P E e t ms HP HT Hw).
  rewrite N.div_small by lia. change (N.to_nat 0) with 0. unfold recent_loudness. destruct (Nat.ltb_spec (capacity e) 0); [lia|].
  rewrite energy_0. unfold reported. change (f64_le f64_nan f64_zero) with false. cbn [negb]. unfold loudness. rewrite HE. reflexivity.
Qed.

(** * C48 *)
Lemma unsigned_ge x : unsigned x -> is_nan x = true \/ f64_le f64_zero x = true.
Proof. unfold unsigned. destruct x as [[]|[]| |[] m e B]; cbn; auto; discriminate. Qed.
Lemma energy_sign L w roles ss : is_nan (energy L w roles ss) = true \/ f64_le f64_zero (energy L w roles ss) = true.
Proof. apply unsigned_ge, energy_unsigned. Qed.
Lemma reported_cases E L w roles ss : let x := energy L w roles ss in
  (x = f64_zero -> reported E x = f64_neg f64_inf) /\ (x <> f64_zero -> reported E x = loudness E x).
Proof.
  cbv zeta. split.
  - intros ->. apply reported_zero.
  - intros H. unfold reported. destruct (f64_le _ _) eqn:El; [|reflexivity]. destruct H. eapply unsigned_not_le0; eauto. apply energy_unsigned.
Qed.

Lemma plane_sum_unsigned n i plane x : plane_sum n i plane = Ret x -> unsigned x.
Proof.
  unfold plane_sum. destruct (i <? n).
  - destruct (slice plane 0 i) as [p1| | |]; try discriminate. cbn [obind]. destruct (sub_usize _ _) as [o| | |]; try discriminate. cbn [obind].
    destruct (slice_from plane _) as [p2| | |]; try discriminate. cbn [obind]. intros [= <-]. now apply squares_unsigned, squares_unsigned.
  - destruct (sub_usize _ _) as [o| | |]; try discriminate. cbn [obind]. destruct (slice plane _ _) as [p| | |]; try discriminate. cbn [obind].
    intros [= <-]. now apply squares_unsigned.
Qed.
Lemma apply_weight_unsigned ch x : unsigned x -> unsigned (apply_weight ch x).
Proof. rewrite apply_weight_gain. apply gain_unsigned. Qed.
Lemma gating_loop_unsigned n i : forall cmap planes s x, unsigned s -> gating_loop n i cmap planes s = Ret x -> unsigned x.
Proof.
  induction cmap as [|ch cmap IH]; intros [|p planes] s x Hs; cbn [gating_loop]; try (intros [= <-]; exact Hs).
  destruct (channel_eqb ch Unused); [now apply IH|]. destruct (i <=? length p); [|discriminate].
  destruct (plane_sum n i p) as [y| | |] eqn:Ep; try discriminate. cbn [obind]. apply IH, add_unsigned; auto.
  apply apply_weight_unsigned. eapply plane_sum_unsigned; eauto.
Qed.
Lemma gating_block_unsigned n audio i cmap x : calc_gating_block n audio i cmap = Ret x -> unsigned x.
Proof.
  unfold calc_gating_block. cbv zeta. destruct (negb _); [|discriminate]. destruct (_ mod _ =? 0); [|discriminate].
  destruct (_ <=? _); [|discriminate]. destruct (chunks_exact _ _) as [ps| | |]; try discriminate. cbn [obind].
  destruct (gating_loop _ _ _ _ _) as [y| | |] eqn:E; try discriminate. cbn [obind]. intros [= <-].
  apply div_unsigned; [|apply f64_of_nat_unsigned]. eapply gating_loop_unsigned; [|exact E]. reflexivity.
Qed.
Lemma gating_block_sign n audio i cmap x : calc_gating_block n audio i cmap = Ret x -> is_nan x = true \/ f64_le f64_zero x = true.
Proof. intros H. eapply unsigned_ge, gating_block_unsigned; eauto. Qed.
Lemma interval_sign e n x : energy_in_interval e n = Ret (Ok x) -> is_nan x = true \/ f64_le f64_zero x = true.
Proof.
  unfold energy_in_interval. destruct (_ <? _); [discriminate|]. destruct (calc_gating_block _ _ _ _) as [y| | |] eqn:E; try discriminate. cbn [obind].
  intros [= <-]. eapply gating_block_sign; eauto.
Qed.
Lemma reported_energy P E e q n v : is_64bit P -> reachable P E e ->
  (q = QMomentary /\ n = 4 * hop e \/ q = QShortterm /\ n = 30 * hop e \/
   exists ms, q = QWindow ms /\ (ms <= 4294967295)%N /\ n = N.to_nat (e_rate e * ms / 1000)) ->
  ask P E e q = Ret (AValue (Ok v)) ->
  exists x, energy_in_interval e n = Ret (Ok x) /\
    (x = f64_zero -> v = f64_neg f64_inf) /\ (x <> f64_zero -> v = loudness E x).
Proof.
  intros HP HR Hq Ha. destruct (reachable_taped P E e HR) as (t & HT).
  assert (recent_loudness E e t n = Ok v) as Hv.
  { destruct Hq as [(-> & ->)|[(-> & ->)|(ms & -> & Hm & ->)]].
    - pose proof (recent_ok P E e t (e_s100 e * 4) HP HT) as Hk. cbn [ask] in Ha. unfold loudness_momentary in Ha. rewrite Hk in Ha.
      cbn [obind] in Ha. rewrite (hop_eq P E e t HP HT), (Nat.mul_comm (hop e)) in Ha. now injection Ha.
    - rewrite (ask_shortterm P E e t HP HT) in Ha. now injection Ha.
    - rewrite (ask_window P E e t ms HP HT Hm) in Ha. now injection Ha. }
  exists (energy (capacity e) n (e_cmap e) (signals t)). rewrite (interval_ok P E e t n HP HT).
  unfold recent_loudness in Hv. destruct (capacity e <? n); [discriminate|]. injection Hv as Hv. split; [reflexivity|].
  pose proof (reported_cases E (capacity e) n (e_cmap e) (signals t)) as (H1 & H2). rewrite <- Hv. auto.
Qed.

(** * C08 *)
Lemma oversampled_app P E rate p x y : 
  oversampled P E rate (p ++ x) (length p) ++ oversampled P E rate ((p ++ x) ++ y) (length (p ++ x)) =
  oversampled P E rate (p ++ (x ++ y)) (length p).
Proof.
  unfold oversampled. destruct (oversampling rate) as [[taps factor]|]; [|reflexivity].
  rewrite !app_length. replace (length p + length x - length p) with (length x) by lia.
  replace (length p + length x + length y - (length p + length x)) with (length y) by lia.
  replace (length p + (length x + length y) - length p) with (length x + length y) by lia.
  rewrite seq_app, flat_map_app, <- app_assoc. f_equal.
  apply flat_map_ext_in. intros n Hn. apply in_seq in Hn. apply map_ext. intros f. 
  rewrite app_assoc. symmetry. apply interpolated_app. rewrite app_length. lia.
Qed.
Lemma oversample_app P E rate : forall p x y, length x = length p -> length y = length p ->
  join (oversample_new P E rate p x) (oversample_new P E rate (join p x) y) = oversample_new P E rate p (join x y).
Proof.
  unfold oversample_new, join. induction p as [|a p IH]; intros [|b x] [|c y] H1 H2; try discriminate; [reflexivity|].
  cbn [map2]. f_equal; [apply oversampled_app|]. apply IH; auto.
Qed.
Lemma oversample_nil P E rate : forall p x, length x = length p -> Forall (fun c => length c = 0) x ->
  oversample_new P E rate p x = no_audio (length p).
Proof.
  unfold oversample_new, no_audio. induction p as [|a p IH]; intros [|b x] H1 H2; try discriminate; [reflexivity|].
  inversion_clear H2. cbn [map2 repeat length]. f_equal; [|apply IH; auto]. destruct b; [|discriminate].
  unfold oversampled. destruct (oversampling rate) as [[taps factor]|]; [|reflexivity].
  rewrite app_nil_r, Nat.sub_diag. reflexivity.
Qed.
Lemma map_join' {A B} (f : A -> B) : forall x y, map (map f) (join x y) = join (map (map f) x) (map (map f) y).
Proof. unfold join. induction x as [|a x IH]; intros [|b y]; cbn [map2 map]; auto. now rewrite map_app, IH. Qed.
Lemma map2_len {A B C} (f : A -> B -> C) : forall l m, length (map2 f l m) = min (length l) (length m).
Proof. induction l as [|a l IH]; intros [|b m]; cbn [map2 length]; auto. now rewrite IH. Qed.
Lemma adds_log P E : is_64bit P -> forall l e lg e1 cols, logged P E e lg -> session P E e (map OpAdd l) e1 ->
  all_input P (e_channels e) l = Some cols ->
  exists lg1, logged P E e1 lg1 /\ lg_heard lg1 = join (lg_heard lg) cols /\
    lg_past lg1 = join (lg_past lg) (map (map r_32) cols) /\
    lg_inter lg1 = join (lg_inter lg) (oversample_new P E (e_rate e) (lg_past lg) (map (map r_32) cols)) /\
    length cols = e_channels e /\ e_mode e1 = e_mode e /\ e_channels e1 = e_channels e.
Proof.
  intros HP. induction l as [|a l IH]; intros e lg e1 cols Hl HS Hi.
  - inversion HS; subst. injection Hi as <-. exists lg. destruct (logged_ok P E e1 lg HP Hl) as (g & L & HG & B).
    destruct B as [B1 B2 B3 B4 B5 _ _ _ _].
    assert (@map (list reading) (list f32) (map r_32) (no_audio (e_channels e1)) = no_audio (e_channels e1)) as X by (rewrite map_no_audio; reflexivity).
    rewrite X. rewrite (oversample_nil P E (e_rate e1) (lg_past lg) (no_audio (e_channels e1))).
    2:{ now rewrite no_audio_length. } 2:{ apply Forall_repeat'. reflexivity. }
    rewrite B3. rewrite !join_no_audio by auto. rewrite no_audio_length. auto 10.
  - cbn [map] in HS. inversion HS as [|e0 o r e2 os e3 Ha Hst HS' ]; subst. cbn [all_input] in Hi.
    destruct (input P (e_channels e) a) as [x|] eqn:Ei; [|discriminate].
    destruct (all_input P (e_channels e) l) as [y|] eqn:El; [|discriminate]. injection Hi as <-.
    destruct (logged_ok P E e lg HP Hl) as (g & L & HG & B). 
    pose proof (input_cases_ok P E e g L a HG (admissible_op_ok _ _ Ha)) as Hio. rewrite Ei in Hio. cbn [input_ok] in Hio.
    destruct Hio as ((Hk1 & Hk2) & _).
    destruct (step_add_config P E e a r e2 HP (logged_reachable _ _ _ _ Hl) Ha Hst) as (M & C & R).
    destruct (IH e2 (log_after P E e (OpAdd a) lg) e1 y) as (lg1 & K1 & K2 & K3 & K4 & K5 & K6 & K7); auto.
    { eapply logged_step; eauto. } { now rewrite C. }
    exists lg1. split; auto. rewrite K2, K3, K4, R. rewrite C in K5. clear K1 K2 K3 K4.
    destruct B as [B1 B2 B3 B4 B5 _ _ _ _]. cbn [log_after]. rewrite Ei. rewrite map_join'.
    assert (length (map (map r_32) x) = e_channels e) as Lx by now rewrite map_length.
    assert (length (map (map r_32) y) = e_channels e) as Ly by now rewrite map_length.
    destruct (Nat.eqb_spec (frames_of x) 0) as [Ez|Ez].
    + change (frames_of x) with (frame_count x) in Ez. rewrite Ez in Hk2.
      rewrite (join_empty x y) by congruence. rewrite (join_empty (map (map r_32) x)) by (try congruence; now apply lengths_map).
      spl; auto; congruence.
    + cbn [lg_heard lg_past lg_inter].
      rewrite <- (oversample_app P E (e_rate e) (lg_past lg)) by congruence.
      spl; try congruence.
      * apply join_assoc; congruence.
      * apply join_assoc; congruence.
      * apply join_assoc; unfold oversample_new, join; rewrite ?map2_len; rewrite ?map2_len; lia.
      * unfold join. rewrite map2_len. lia.
Qed.

Lemma chunking_peaks P E e l l' cols e1 e2 : is_64bit P -> reachable P E e ->
  session P E e (map OpAdd l) e1 -> session P E e (map OpAdd l') e2 ->
  all_input P (e_channels e) l = Some cols -> all_input P (e_channels e) l' = Some cols ->
  forall c, ask P E e1 (QSamplePeak c) = ask P E e2 (QSamplePeak c) /\ ask P E e1 (QTruePeak c) = ask P E e2 (QTruePeak c).
Proof.
  intros HP HR H1 H2 I1 I2 c. destruct (reachable_logged P E e HR) as (lg & Hl).
  destruct (adds_log P E HP l e lg e1 cols Hl H1 I1) as (la & A1 & A2 & A3 & A4 & A5 & A6 & A7).
  destruct (adds_log P E HP l' e lg e2 cols Hl H2 I2) as (lb & B1 & B2 & B3 & B4 & B5 & B6 & B7).
  destruct (logged_ok P E e1 la HP A1) as (g1 & L1 & _ & O1). destruct (logged_ok P E e2 lb HP B1) as (g2 & L2 & _ & O2).
  destruct O1 as [_ _ _ _ _ _ S1 _ T1]. destruct O2 as [_ _ _ _ _ _ S2 _ T2].
  rewrite A6 in *. rewrite B6 in *.
  cbn [ask]. unfold sample_peak, true_peak, peak_query. rewrite A6, B6, A7, B7. split.
  - destruct (contains (e_mode e) MODE_SAMPLE_PEAK); [|reflexivity]. destruct (S1 eq_refl) as (-> & _). destruct (S2 eq_refl) as (-> & _).
    now rewrite A2, B2.
  - destruct (contains (e_mode e) MODE_TRUE_PEAK) eqn:ET; [|reflexivity]. destruct (T1 eq_refl) as (-> & _). destruct (T2 eq_refl) as (-> & _).
    pose proof (TP_SP _ ET) as ES. destruct (S1 ES) as (-> & _). destruct (S2 ES) as (-> & _).
    now rewrite A2, B2, A4, B4.
Qed.
Lemma chunking_schedule P E : is_64bit P -> forall l e t e1 t1 cols, taped P E e t ->
  taped_session P E e t (map OpAdd l) e1 t1 -> all_input P (e_channels e) l = Some cols ->
  frames_of (signals t1) = frames_of (signals t) + frames_of cols.
Proof.
  intros HP. induction l as [|a l IH]; intros e t e1 t1 cols HT HS Hin;
    inversion HS as [e0 t0|e0 t0 o0 r e2 os e3 t3 H1 H2 H6]; subst.
  - injection Hin as <-. unfold no_audio, frames_of at 3. destruct (e_channels e1); cbn; lia.
  - cbn [all_input] in Hin. destruct (input P (e_channels e) a) as [x|] eqn:Ex; [|discriminate].
    destruct (all_input P (e_channels e) l) as [y|] eqn:Ey; [|discriminate]. injection Hin as <-.
    pose proof (taped_step P E e _ r e2 t HT H1 H2) as HT1.
    pose proof (adds_config P E e t a r e2 HP HT H1 H2) as C. destruct (settings_hop _ _ C) as (_ & _ & _ & _ & C5 & _).
    destruct (add_records P E e t a x r e2 HP HT H1 H2 Ex) as (F1 & _).
    rewrite (IH e2 _ e1 t1 y HT1 H6) by now rewrite C5. rewrite F1.
    destruct (taped_ok P E e t HP HT) as (g & L & HG & _).
    pose proof (input_cases_ok P E e g L a HG (admissible_op_ok _ _ H1)) as Hi. rewrite Ex in Hi. destruct Hi as ((Hx & _) & _).
    pose proof (session_audio P E HP l e2 _ e1 t1 H6 HT1) as Hao. rewrite C5 in Hao.
    pose proof HG as (HI & Ht & _).
    destruct (all_input_columns P E L l e g y HI Ht Hao Ey) as (Hy & _).
    pose proof (i_C _ _ _ _ _ HI) as Hch.
    destruct x as [|cx x]; destruct y as [|cy y]; cbn in Hx, Hy; try lia.
    unfold join, frames_of. cbn [map2 hd]. rewrite app_length. lia.
Qed.

(** * C41: seeding with everything heard so far *)
Lemma weigh_fst P E e ch tr xs : fst (seed_track P E e ch tr xs) = fst (track_after P E e ch tr xs).
Proof. unfold seed_track, track_after. destruct (unused ch); auto. now destruct (weigh _ _ _ _ _). Qed.
Lemma track_fst P E e ch tr tr' xs : fst tr = fst tr' -> fst (track_after P E e ch tr xs) = fst (track_after P E e ch tr' xs).
Proof. intros H. unfold track_after. destruct (unused ch); auto. rewrite H. now destruct (weigh _ _ _ _ _). Qed.
Lemma seed_fst_all P E e : forall cm t xs, map fst (per_channel (seed_track P E e) cm t xs) = map fst (per_channel (track_after P E e) cm t xs).
Proof.
  induction cm as [|ch cm IH]; intros [|tr t] [|x xs]; try reflexivity. rewrite !per_channel_cons. cbn [map].
  now rewrite weigh_fst, IH.
Qed.
Lemma track_fst_all P E e : forall cm t t' xs, map fst t = map fst t' ->
  map fst (per_channel (track_after P E e) cm t xs) = map fst (per_channel (track_after P E e) cm t' xs).
Proof.
  induction cm as [|ch cm IH]; intros [|tr t] [|tr' t'] [|x xs] H; try reflexivity; try discriminate. cbn [map] in H.
  injection H as H1 H2. rewrite !per_channel_cons. cbn [map]. rewrite (track_fst P E e ch tr tr' x H1). f_equal. auto.
Qed.
Lemma seeds_config P E e t a r e' : is_64bit P -> taped P E e t -> admissible e (OpSeed a) -> step P E e (OpSeed a) = Ret (r, e') ->
  settings e' = settings e.
Proof.
  intros HP HT Ha Hs. destruct (taped_ok P E e t HP HT) as (g & L & HG & HO).
  destruct (step_moves P E e g L _ r e' HP HG Ha Hs) as (g' & L' & HG' & HM). cbn [moved] in HM.
  destruct HM as (-> & Hi & Heq). destruct (input P (e_channels e) a) as [cols|];
  apply pair_equal_spec in Heq; destruct Heq as (-> & _); reflexivity.
Qed.
Lemma seeds_tape P E : is_64bit P -> p_ftz P = true -> forall l e t e' t' cols,
  taped_session P E e t (map OpSeed l) e' t' -> taped P E e t -> all_input P (e_channels e) l = Some cols ->
  map fst t' = map fst (per_channel (track_after P E e) (e_cmap e) t cols) /\ signals t' = signals t /\
  settings e' = settings e /\ taped P E e' t'.
Proof.
  intros HP HF. induction l as [|a l IH]; intros e t e' t' cols HS HT Hin;
    inversion HS as [e0 t0|e0 t0 o0 r e1 os e2 t2 H1 H2 H6]; subst.
  - cbn [all_input] in Hin. injection Hin as <-.
    destruct (taped_ok P E e' t' HP HT) as (g & L & (H & _) & (Y & _)). spl; auto. f_equal. symmetry. apply per_channel_none; auto.
    + rewrite (i_cmap _ _ _ _ _ H). symmetry. apply Y.
    + unfold no_audio. rewrite repeat_length. symmetry. apply Y.
    + apply Forall_repeat'. reflexivity.
  - cbn [all_input] in Hin. destruct (input P (e_channels e) a) as [x|] eqn:Ex; [|discriminate].
    destruct (all_input P (e_channels e) l) as [y|] eqn:Ey; [|discriminate]. injection Hin as <-.
    pose proof (taped_step P E e _ r e1 t HT H1 H2) as HT1.
    pose proof (seeds_config P E e t a r e1 HP HT H1 H2) as C. destruct (settings_hop _ _ C) as (C1 & C2 & C3 & C4 & C5 & C6 & C7).
    rewrite <- C5 in Ey. destruct (IH e1 _ e' t' y H6 HT1 Ey) as (-> & -> & K3 & K4).
    cbn [tape_after]. rewrite Ex.
    destruct (taped_ok P E e t HP HT) as (g & L & HG & (Y & _)). pose proof HG as (H & Ht & _).
    pose proof (input_cases_ok P E e g L a HG (admissible_op_ok _ _ H1)) as Hi. rewrite Ex in Hi. destruct Hi as ((Hc1 & Hc2) & _).
    assert (track_after P E e1 = track_after P E e) as -> by (unfold track_after, capacity; now rewrite C6, C7).
    rewrite C3.
    assert (length (e_cmap e) = length t) as Hm by (rewrite (i_cmap _ _ _ _ _ H); symmetry; apply Y).
    assert (length x = length t) as Hx by (rewrite Hc1; symmetry; apply Y).
    assert (length y = length t) as Hy.
    { assert (Forall (audio_ok (e_channels e)) l) as Hao.
      { clear -HP HT1 H6 C5. rewrite <- C5. clear C5. revert H6 HT1. generalize (tape_after P E e (OpSeed a) t) as u. clear t.
        revert e1 e' t'. induction l as [|b l IH]; intros e1 e' t' u H6 HT1; [constructor|].
        cbn [map] in H6. inversion H6 as [e0 t0|e0 t0 o0 r e4 os e5 t5 K1 K2 K6]; subst.
        pose proof (taped_step P E e1 _ r e4 u HT1 K1 K2) as HT4.
        pose proof (seeds_config P E e1 u b r e4 HP HT1 K1 K2) as C. destruct (settings_hop _ _ C) as (_ & _ & _ & _ & C5 & _).
        constructor; [exact (admissible_op_ok _ _ K1)|]. rewrite <- C5. eapply IH; eauto. }
      rewrite C5 in Ey. destruct (all_input_columns P E L l e g y H Ht Hao Ey) as (Hy & _). rewrite Hy. symmetry. apply Y. }
    split; [|spl; auto; [|congruence]].
    + rewrite (track_fst_all P E e (e_cmap e) _ _ y (seed_fst_all P E e (e_cmap e) t x)). f_equal.
      change (join x y) with (capp x y). apply per_channel_capp; auto.
    + clear -Hm Hx. revert t x Hm Hx. generalize (e_cmap e) as cm. induction cm as [|ch cm IH]; intros [|tr t] [|c x] Hm Hx; try discriminate; [reflexivity|].
      rewrite per_channel_cons. unfold signals in *. cbn [map]. f_equal; [|apply IH; auto].
      unfold seed_track. now destruct (unused ch).
Qed.
(** two analyzers in the same initial state, one hears the audio and one is seeded with it, in any chunks *)
Lemma seed_like_adds P E e t f u l l' cols e' t' f' u' : is_64bit P -> p_ftz P = true -> taped P E e t -> taped P E f u ->
  settings f = settings e -> fst (memories f) = fst (memories e) ->
  taped_session P E e t (map OpAdd l) e' t' -> taped_session P E f u (map OpSeed l') f' u' ->
  all_input P (e_channels e) l = Some cols -> all_input P (e_channels e) l' = Some cols ->
  fst (memories f') = fst (memories e') /\ signals u' = signals u /\ settings f' = settings e'.
Proof.
  intros HP HF HT HU Hset Hmem HS HS' Hin Hin'. destruct (settings_hop _ _ Hset) as (C1 & C2 & C3 & C4 & C5 & C6 & C7).
  destruct (session_tape P E HP HF l e t e' t' cols HS HT Hin) as (Et & Lt).
  rewrite <- C5 in Hin'. destruct (seeds_tape P E HP HF l' f u f' u' cols HS' HU Hin') as (Eu & Su & Sf & HU').
  destruct (session_records P E HP e t _ e' t' HS HT) as (HT' & _ & Se & _).
  { rewrite Forall_map. apply Forall_forall. intros x _. exact I. }
  destruct (taped_ok P E e t HP HT) as (g & L & _ & (Y & _)). destruct (taped_ok P E f u HP HU) as (g1 & L1 & _ & (Y1 & _)).
  destruct (taped_ok P E e' t' HP HT') as (g2 & L2 & _ & (Y2 & _)). destruct (taped_ok P E f' u' HP HU') as (g3 & L3 & _ & (Y3 & _)).
  unfold memories in *. cbn [fst] in *. spl; [|auto|congruence].
  rewrite <- (y_state _ _ _ _ _ Y2), <- (y_state _ _ _ _ _ Y3), Eu, Et.
  assert (track_after P E f = track_after P E e) as -> by (unfold track_after, capacity; now rewrite C6, C7).
  rewrite C3. apply track_fst_all. rewrite (y_state _ _ _ _ _ Y), (y_state _ _ _ _ _ Y1). exact Hmem.
Qed.

(** ** Sizes *)
Lemma capacity_small P E e : is_64bit P -> reachable P E e -> (Z.of_nat (capacity e) <= 2 ^ 53)%Z.
Proof.
  intros HP Hr. destruct (reachable_inv P E e HP Hr) as (g & L & H & Ht).
  pose proof (i_rate _ _ _ _ _ H) as (H0 & H1). pose proof (i_win _ _ _ _ _ H) as H2.
  unfold capacity, buffer_size. unfold MAX_RATE in H1. unfold u32_max in H2.
  set (r := e_rate e) in *. set (w := e_window e) in *.
  assert (r * w <= 2822400 * 4294967295)%N as Hm by (apply N.mul_le_mono; auto).
  assert (r * w / 1000 <= r * w)%N as Hd by (apply N.div_le_upper_bound; lia).
  assert (hundred_ms r <= r + 5)%N as Hh by (unfold hundred_ms; apply N.div_le_upper_bound; lia).
  assert (1 <= hundred_ms r)%N as Hh' by (unfold hundred_ms; apply N.div_le_lower_bound; lia).
  set (s := hundred_ms r) in *. set (k := (r * w / 1000)%N) in *.
  pose proof (N.mul_div_le (k + s - 1) s ltac:(lia)) as Hb. set (q := ((k + s - 1) / s)%N) in *.
  rewrite (N.mul_comm s q) in Hb. set (z := (q * s)%N) in *. set (y := (r * w)%N) in *.
  change (2 ^ 53)%Z with 9007199254740992%Z. lia.
Qed.

(** ** A chunk that was seeded with all of the audio before it *)
Lemma seeded_chunk P E e t e1 t1 e2 t2 f u f1 u1 f2 u2 l1 l1' l2 l2' before cols :
  is_64bit P -> p_ftz P = true -> taped P E e t -> taped P E f u -> settings f = settings e ->
  fst (memories f) = fst (memories e) -> frames_of (signals u) = 0 ->
  taped_session P E e t (map OpAdd l1) e1 t1 -> taped_session P E f u (map OpSeed l1') f1 u1 ->
  all_input P (e_channels e) l1 = Some before -> all_input P (e_channels e) l1' = Some before ->
  taped_session P E e1 t1 (map OpAdd l2) e2 t2 -> taped_session P E f1 u1 (map OpAdd l2') f2 u2 ->
  all_input P (e_channels e) l2 = Some cols -> all_input P (e_channels e) l2' = Some cols ->
  let n := frames_of (signals t1) in
  forall w k, w <= k -> k <= frames_of cols ->
    same_recent w (e_cmap e) (map (firstn k) (signals u2)) (map (firstn (n + k)) (signals t2)) /\
    (n mod capacity e = 0 ->
     energy_at (capacity e) w (e_cmap e) (signals u2) k = energy_at (capacity e) w (e_cmap e) (signals t2) (n + k)).
Proof.
  intros HP Hf HT HU Hset Hmem H0 S1 S1' I1 I1' S2 S2' I2 I2' n w k Hw Hk.
  destruct (seed_like_adds P E e t f u l1 l1' before e1 t1 f1 u1) as (M1 & M2 & M3); auto.
  destruct (session_records P E HP e t _ e1 t1 S1 HT) as (HT1 & _ & Hs1 & _).
  { apply Forall_forall. intros o Ho. apply in_map_iff in Ho. destruct Ho as (a & <- & _). exact I. }
  assert (taped P E f1 u1) as HU1.
  { revert HU. clear - S1'. induction S1' as [|x y o r x1 os x2 y2 Ha Hs HS IH]; intros HT; auto. apply IH. eapply taped_step; eauto. }
  assert (e_channels e1 = e_channels e /\ e_cmap e1 = e_cmap e /\ capacity e1 = capacity e) as (Ec & Em & El).
  { unfold settings in Hs1. unfold capacity. injection Hs1. intros. repeat split; congruence. }
  rewrite <- Ec in I2, I2'. rewrite <- Em, <- El.
  apply (chunk_frames P E e1 t1 e2 t2 f1 u1 f2 u2 l2 l2' cols); auto. rewrite M2. exact H0.
Qed.
