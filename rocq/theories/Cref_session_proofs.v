(** The true peak of a session, in C and in Rust. *)
From Coq Require Import List Arith NArith ZArith Bool Lia Reals Lra Psatz.
From Flocq Require Import Core IEEE754.BinarySingleNaN.
From Verif Require Import Prelude Float Env Interp Utils Cref Cref_filter Cref_interp Ebur128 Spec Spec_real Spec_interp Spec_cref_interp
  Prelude_proofs Float_proofs Trace_proofs Reach_proofs Peak_proofs Window_proofs Oversample_proofs Overshoot_proofs Cref_taps_proofs Cref_interp_proofs Cref_peak_proofs.
Import ListNotations.
Local Open Scope nat_scope.

(** * C *)
Lemma metered_fed P L rate C tp past peaks : metered_c P L rate C tp past peaks -> fed_c P L rate C tp past.
Proof. induction 1; [now apply fed_create|eapply fed_check; eauto]. Qed.
Lemma metered_state P L rate taps factor C tp past peaks : oversampling rate = Some (taps, factor) -> metered_c P L rate C tp past peaks ->
  peaks = fold_left retain_c (concat (map (rows_c L factor C P past) (seq 0 (length past)))) (repeat f64_zero C).
Proof.
  intros HO. induction 1 as [tp H|tp past T t frames peaks tp' peaks' H IH HF HC]; [reflexivity|].
  destruct (fed_state P L rate C tp past (metered_fed _ _ _ _ _ _ _ H)) as (taps' & factor' & HO' & HI & E2 & E3).
  assert (taps' = taps /\ factor' = factor) as (-> & ->) by (rewrite HO in HO'; split; congruence). clear HO'.
  assert (length frames <= ct_room tp) as HR. { unfold true_peak_check_c in HC. destruct (Nat.ltb_spec (ct_room tp) (length frames)); [discriminate|auto]. }
  destruct (check_ok P L t rate taps factor C tp past frames peaks HO HI E2 HF HR) as (tp2 & E & _). rewrite E in HC.
  apply (f_equal (fun o => match o with Ret (_, b) => b | _ => peaks' end)) in HC. cbn beta iota in HC. rewrite <- HC. rewrite app_length, map_length, seq_app, map_app, concat_app, fold_left_app. cbn [Nat.add].
  f_equal. rewrite IH at 1. f_equal. f_equal. apply map_ext_in. intros n Hn. apply in_seq in Hn. symmetry. apply rows_prefix. lia.
Qed.
Lemma metered_same P L rate C tp tp' past peaks peaks' : metered_c P L rate C tp past peaks -> metered_c P L rate C tp' past peaks' -> peaks = peaks'.
Proof.
  intros H H'. destruct (fed_state P L rate C tp past (metered_fed _ _ _ _ _ _ _ H)) as (taps & factor & HO & _).
  rewrite (metered_state P L rate taps factor C tp past peaks HO H), (metered_state P L rate taps factor C tp' past peaks' HO H'). reflexivity.
Qed.
Local Open Scope R_scope.
Lemma metered_near P L rate taps factor C tp past peaks M c : metered_c P L rate C tp past peaks -> oversampling rate = Some (taps, factor) -> csin_accurate L -> ccos_accurate L -> 0 <= M <= 2 ^ 100 ->
  (c < C)%nat -> let xs := channel_of c past in Forall (moderate M) xs ->
  exists y, nth_error peaks c = Some y /\ is_finite y = true /\ 0 <= real y /\
    (forall n f, (n < length xs)%nat -> (f < factor)%nat -> Rabs (interpolatedR taps factor xs n f) <= real y + fir_noise_c M) /\
    (y = f64_zero \/ exists n f, (n < length xs)%nat /\ (f < factor)%nat /\ Rabs (real y - Rabs (interpolatedR taps factor xs n f)) <= fir_noise_c M).
Proof.
  intros H HO HS HC HM Hc xs HX. rewrite (metered_state P L rate taps factor C tp past peaks HO H).
  assert (length xs = length past) as Hl by (unfold xs, channel_of; apply map_length).
  eexists. split; [apply retain_fold; [apply nth_error_repeat, Hc|]|].
  { apply Forall_forall. intros row Hr. apply in_concat in Hr. destruct Hr as (rows & Hrs & Hr). apply in_map_iff in Hrs. destruct Hrs as (n & <- & _). unfold rows_c in Hr. apply in_map_iff in Hr. destruct Hr as (f & <- & _). now rewrite map_length, seq_length. }
  destruct (peaks_real P L taps factor C (taps_cases _ _ _ HO) past 0 (length past) M f64_zero c HS HC HM Hc HX eq_refl (Rle_refl 0)) as (Y1 & Y2 & Y3 & Y4). rewrite Hl. split; [exact Y1|]. split; [exact Y2|]. split.
  - intros n f Hn Hf. apply Y3; [lia|exact Hf].
  - destruct Y4 as [Y4|(n & f & Hn & Hf & Y4)]; [now left|right]. exists n, f. split; [lia|]. split; [exact Hf|exact Y4].
Qed.

(** * Rust *)
Lemma added_logged P E e lg : added P E e lg -> logged P E e lg.
Proof. induction 1; [eapply logged_new; eauto|eapply logged_step; eauto]. Qed.
Lemma join_channel {T} c (x y : list (list T)) : length x = length y -> channel c (join x y) = channel c x ++ channel c y.
Proof. unfold channel, join. generalize (N.to_nat c). intros k. revert x y. induction k; intros [|a x] [|b y] Hl; try discriminate Hl; cbn; auto. Qed.
Lemma no_channel {T} c C : @channel T c (no_audio C) = [].
Proof. unfold channel, no_audio. apply nth_repeat. Qed.
Lemma added_inter P E e lg c : is_64bit P -> added P E e lg -> (c < N.of_nat (e_channels e))%N ->
  channel c (lg_inter lg) = oversampled P E (e_rate e) (channel c (lg_past lg)) 0 /\ channel c (lg_past lg) = map r_32 (channel c (lg_heard lg)).
Proof.
  intros HP. induction 1 as [channels rate m e Hn Hs|e a r e' lg H IH Ha Hs]; intros Hc.
  { unfold empty_log. cbn [lg_inter lg_past lg_heard]. rewrite !no_channel. split; [|reflexivity]. unfold oversampled. destruct (oversampling (e_rate e)) as [[]|]; reflexivity. }
  pose proof (added_logged _ _ _ _ H) as Hl. destruct (add_config P E e lg a r e' HP Hl Ha Hs) as (Hl' & _ & Ec & Er). rewrite Ec in Hc. rewrite Er. specialize (IH Hc). destruct IH as (IH1 & IH2).
  destruct (logged_ok P E e lg HP Hl) as (g & L & HG & [B1 B2 B3 B4 B5 _ _ _ _]).
  pose proof (input_cases_ok P E e g L a HG (admissible_op_ok _ _ Ha)) as Hi. cbn [log_after].
  destruct (input P (e_channels e) a) as [cols|]; [|auto]. destruct Hi as ((Hlen & HFr) & _). destruct (frames_of cols =? 0)%nat; [auto|]. cbn [lg_inter lg_past lg_heard].
  rewrite !join_channel by (unfold oversample_new; rewrite ?map2_length, ?map_length; lia).
  rewrite oversample_new_channel by (rewrite ?map_length; lia). rewrite !channel_map, IH1. split; [|now rewrite map_app, <- IH2].
  pose proof (oversampled_app P E (e_rate e) [] (channel c (lg_past lg)) (map r_32 (channel c cols))) as A. cbn [app length] in A. exact A.
Qed.
Lemma session_same P E L e lg c taps factor M tp past peaks : is_64bit P -> sin_accurate E -> cos_accurate E -> csin_accurate L -> ccos_accurate L ->
  added P E e lg -> has_TRUE_PEAK (e_mode e) -> oversampling (e_rate e) = Some (taps, factor) -> (c < N.of_nat (e_channels e))%N -> 0 <= M <= 2 ^ 100 ->
  let heard := channel c (lg_heard lg) in Forall (moderate M) (map r_32 heard) -> Forall (fun r => is_finite (r_level r) = true) heard ->
  metered_c P L (e_rate e) (e_channels e) tp past peaks -> channel_of (N.to_nat c) past = map r_32 heard ->
  exists x y, ask P E e (QTruePeak c) = Ret (AValue (Ok x)) /\ nth_error peaks (N.to_nat c) = Some y /\
    is_finite x = true /\ is_finite y = true /\ real y <= real x + (fir_noise M + fir_noise_c M) /\
    (real x <= real y + (fir_noise M + fir_noise_c M) \/ In x (levels_of heard)).
Proof.
  intros HP HS HC HSc HCc Hadd Hm Ho Hc HM heard HX HLv HMt Ep.
  destruct (added_inter P E e lg c HP Hadd Hc) as (I1 & I2). fold heard in I2. rewrite I2 in I1. set (xs := map r_32 heard) in *.
  destruct (true_peak_log P E e lg c HP (added_logged _ _ _ _ Hadd) Hm Hc) as (x & Q & Lg). fold heard in Lg. rewrite I1 in Lg.
  destruct (metered_near P L (e_rate e) taps factor (e_channels e) tp past peaks M (N.to_nat c) HMt Ho HSc HCc HM ltac:(lia)) as (y & Ey & Fy & Y1 & Y2 & Y3); [rewrite Ep; exact HX|]. rewrite Ep in Y2, Y3.
  assert (forall n f, (f < factor)%nat -> near32 (interpolated P E taps factor xs n f) (interpolatedR taps factor xs n f) (fir_noise M)) as N.
  { intros n f Hf. exact (proj1 (interpolated_near P E taps factor M xs n f HS HC (taps_cases _ _ _ Ho) Hf HM HX)). }
  pose proof (fun y => proj1 (oversampled_in P E (e_rate e) taps factor xs 0 y Ho)) as O1. pose proof (fun y => proj2 (oversampled_in P E (e_rate e) taps factor xs 0 y Ho)) as O2.
  assert (Forall (fun y => is_finite y = true) (levels_of heard ++ magnitudes (oversampled P E (e_rate e) xs 0))) as FF.
  { apply Forall_app. split; [unfold levels_of; now rewrite Forall_map|]. unfold magnitudes. rewrite Forall_map. apply Forall_forall. intros z Hz.
    destruct (O1 z Hz) as (n & f & _ & Hf & ->). apply magnitude_real. apply N; auto. }
  destruct (largest_real _ _ Lg FF) as (Fx & X0 & XA & XI). apply Forall_app in XA. destruct XA as (_ & XB).
  exists x, y. split; [exact Q|]. split; [exact Ey|]. split; [exact Fx|]. split; [exact Fy|].
  assert (0 <= fir_noise M /\ 0 <= fir_noise_c M) as (N1 & N2).
  { assert (forall k, 0 < / 2 ^ k) as I by (intros k; apply Rinv_0_lt_compat, pow_lt; lra). unfold fir_noise, fir_noise_c. pose proof (I 16%nat). pose proof (I 118%nat). pose proof (I 22%nat). pose proof (I 124%nat).
    split; apply Rplus_le_le_0_compat; try (apply Rmult_le_pos); lra. }
  split.
  - destruct Y3 as [->|(n & f & Hn & Hf & Y3)]; [change (real f64_zero) with 0; lra|]. destruct (N n f Hf) as (F & NN). unfold magnitudes in XB. rewrite Forall_map, Forall_forall in XB.
    specialize (XB _ (O2 _ (ex_intro _ n (ex_intro _ f (conj (conj (Nat.le_0_l n) Hn) (conj Hf eq_refl)))))). rewrite (proj2 (magnitude_real _ F)) in XB.
    pose proof (Rabs_triang_inv (interpolatedR taps factor xs n f) (real32 (interpolated P E taps factor xs n f))) as T. rewrite Rabs_minus_sym in T. apply Rabs_le_inv in Y3. lra.
  - destruct XI as [XI|XI]; [left; lra|]. apply in_app_or in XI. destruct XI as [XI|XI]; [now right|left]. unfold magnitudes in XI. apply in_map_iff in XI. destruct XI as (z & <- & Hz).
    destruct (O1 z Hz) as (n & f & Hn & Hf & ->). destruct (N n f Hf) as (F & NN). rewrite (proj2 (magnitude_real _ F)). specialize (Y2 n f (proj2 Hn) Hf).
    pose proof (Rabs_triang_inv (real32 (interpolated P E taps factor xs n f)) (interpolatedR taps factor xs n f)) as T. lra.
Qed.
