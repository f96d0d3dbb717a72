(** The C true peak. *)
From Coq Require Import List Arith NArith ZArith Bool Lia Reals Lra Psatz.
From Flocq Require Import Core IEEE754.BinarySingleNaN.
From Verif Require Import Prelude Float Env Interp Utils Cref Cref_filter Cref_interp Ebur128 Spec Spec_real Spec_interp Spec_cref_filter Spec_cref_interp
  Prelude_proofs Float_proofs Format_proofs Oversample_proofs Overshoot_proofs Cref_taps_proofs Cref_filter_proofs Cref_format_proofs Cref_interp_proofs.
Import ListNotations.
Local Open Scope nat_scope.

Lemma concat_nth {A} (frames : list (list A)) C : Forall (fun fr => length fr = C) frames -> forall i c fr x, nth_error frames i = Some fr -> nth_error fr c = Some x ->
  nth_error (concat frames) (i * C + c) = Some x.
Proof.
  induction 1 as [|fr0 frames Hf HF IH]; intros i c fr x Hi Hc; [destruct i; discriminate|]. destruct i as [|i]; cbn [nth_error] in Hi; cbn [concat].
  - injection Hi as ->. cbn [Nat.mul Nat.add]. rewrite nth_error_app1; auto. apply nth_error_Some. congruence.
  - rewrite nth_error_app2 by (cbn; lia). replace (S i * C + c - length fr0) with (i * C + c) by (cbn; lia). eapply IH; eauto.
Qed.
Lemma omap_seq {A B} (f : nat -> outcome B) (g : A -> B) : forall (l : list A) s, (forall i a, nth_error l i = Some a -> f (s + i) = Ret (g a)) -> omap f (seq s (length l)) = Ret (map g l).
Proof.
  induction l as [|a l IH]; intros s H; [reflexivity|]. cbn [omap length seq map]. pose proof (H 0 a eq_refl) as H0. rewrite Nat.add_0_r in H0. rewrite H0. cbn [obind].
  rewrite (IH (S s)); [reflexivity|]. intros i b Hb. rewrite <- (H (S i) b Hb). f_equal. lia.
Qed.
Lemma input_read {T} P (t : ctype T) C frames : Forall (fun fr => length fr = C) frames ->
  omap (fun i => omap (fun c => x <- cidx (concat frames) (i * C + c) ;; Ret (resampled_c P t x)) (seq 0 C)) (seq 0 (length frames)) = Ret (map (map (resampled_c P t)) frames).
Proof.
  intros HF. apply omap_seq. intros i fr Hi. cbn [Nat.add]. assert (length fr = C) as <- by (rewrite Forall_forall in HF; apply HF; eapply nth_error_In; eauto).
  apply omap_seq. intros c x Hc. cbn [Nat.add]. unfold cidx. now rewrite (concat_nth frames (length fr) HF i c fr x Hi Hc).
Qed.

(** * States *)
Lemma check_ok {T} P L (t : ctype T) rate taps factor C tp past frames peaks : oversampling rate = Some (taps, factor) ->
  interp_c_ok L factor C (ct_interp tp) past -> ct_channels tp = C -> Forall (fun fr => length fr = C) frames -> length frames <= ct_room tp ->
  let new := map (map (resampled_c P t)) frames in
  exists tp', true_peak_check_c P t tp (length frames) (concat frames) peaks =
      Ret (tp', fold_left retain_c (concat (map (rows_c L factor C P (past ++ new)) (seq (length past) (length frames)))) peaks) /\
    interp_c_ok L factor C (ct_interp tp') (past ++ new) /\ ct_channels tp' = C /\ ct_room tp' = ct_room tp.
Proof.
  intros HO HI HC HF HR new. unfold true_peak_check_c. destruct (Nat.ltb_spec (ct_room tp) (length frames)); [lia|]. rewrite HC, input_read by auto. cbn [obind].
  assert (Forall (fun fr => length fr = C) new) as HN by (unfold new; apply Forall_map; revert HF; apply Forall_impl; intros fr E; now rewrite map_length).
  destruct (process_ok L taps factor C (taps_cases _ _ _ HO) P new (ct_interp tp) past [] HI HN) as (ci & E & HI'). unfold interp_process_c. fold new. rewrite E. cbn [obind app].
  assert (length new = length frames) as -> by (unfold new; apply map_length). eexists. split; [reflexivity|]. cbn [ct_interp ct_channels ct_room]. auto.
Qed.
Lemma create_some L rate C tp : true_peak_create_c L rate C = Some tp -> exists taps factor, oversampling rate = Some (taps, factor) /\
  ct_interp tp = interp_create_c L 49 factor C /\ ct_channels tp = C /\ ct_room tp = N.to_nat ((rate + 5) / 10) * 4.
Proof.
  unfold true_peak_create_c, oversampling. destruct (rate <? 96000)%N; [intros H; injection H as <-; do 2 eexists; repeat split|].
  destruct (rate <? 192000)%N; [intros H; injection H as <-; do 2 eexists; repeat split|discriminate].
Qed.
Lemma fed_state P L rate C tp past : fed_c P L rate C tp past -> exists taps factor, oversampling rate = Some (taps, factor) /\
  interp_c_ok L factor C (ct_interp tp) past /\ ct_channels tp = C /\ ct_room tp = N.to_nat ((rate + 5) / 10) * 4.
Proof.
  induction 1 as [tp H|tp past T t frames peaks tp' peaks' H IH HF HC].
  - destruct (create_some L rate C tp H) as (taps & factor & HO & E1 & E2 & E3). exists taps, factor. split; auto. rewrite E1. split; auto. eapply create_ok, taps_cases; eauto.
  - destruct IH as (taps & factor & HO & E1 & E2 & E3). exists taps, factor. split; auto.
    assert (length frames <= ct_room tp) as HR. { unfold true_peak_check_c in HC. destruct (Nat.ltb_spec (ct_room tp) (length frames)); [discriminate|auto]. }
    destruct (check_ok P L t rate taps factor C tp past frames peaks HO E1 E2 HF HR) as (tp2 & E & I1 & I2 & I3). rewrite E in HC. apply (f_equal (fun o => match o with Ret (a, _) => a | _ => tp2 end)) in HC. cbn in HC. subst tp2. split; auto. split; auto. congruence.
Qed.

(** * Peaks *)
Definition keep_c (pk : f64) (v : f32) : f64 := let val := f64_of_f32 v in if f64_gt (c_max val (f64_neg val)) pk then c_max val (f64_neg val) else pk.
Lemma retain_fold c : forall rows peaks pk, nth_error peaks c = Some pk -> Forall (fun row => c < length row) rows ->
  nth_error (fold_left retain_c rows peaks) c = Some (fold_left keep_c (map (fun row => nth c row f32_zero) rows) pk).
Proof.
  induction rows as [|row rows IH]; intros peaks pk Hpk HF; [exact Hpk|]. apply Forall_cons_iff in HF. destruct HF as (Hr & HF). cbn [fold_left map]. apply IH; auto.
  unfold retain_c. rewrite nth_error_map2, Hpk, nth_error_nth' with (d := f32_zero) by exact Hr. reflexivity.
Qed.
Local Open Scope R_scope.
Lemma keep_real : forall vs pk, Forall (fun v => is_finite v = true) vs -> is_finite pk = true -> 0 <= real pk ->
  let y := fold_left keep_c vs pk in is_finite y = true /\ real pk <= real y /\ Forall (fun v => Rabs (real32 v) <= real y) vs /\
  (y = pk \/ exists v, In v vs /\ real y = Rabs (real32 v)).
Proof.
  induction vs as [|v vs IH]; intros pk HF Fp Hp; cbn zeta.
  { cbn [fold_left]. split; auto. split; [lra|]. split; auto. }
  apply Forall_cons_iff in HF. destruct HF as (Fv & HF). cbn [fold_left].
  assert (is_finite (keep_c pk v) = true /\ real pk <= real (keep_c pk v) /\ Rabs (real32 v) <= real (keep_c pk v) /\ (keep_c pk v = pk \/ real (keep_c pk v) = Rabs (real32 v))) as (K1 & K2 & K3 & K4).
  { unfold keep_c. cbv zeta. assert (f64_gt f64_zero pk = false) as HZ.
    { unfold f64_gt, f64_lt. rewrite (Bltb_correct _ _ pk f64_zero) by auto. apply Rlt_bool_false. exact Hp. }
    destruct (c_max_abs (f64_of_f32 v) pk HZ) as (-> & _). destruct (f64_of_f32_finite v Fv) as (F1 & F2 & _).
    assert (is_finite (f64_abs (f64_of_f32 v)) = true) as FA by (unfold f64_abs; now rewrite is_finite_Babs).
    assert (real (f64_abs (f64_of_f32 v)) = Rabs (real32 v)) as RA by (unfold real, f64_abs, real32; rewrite B2R_Babs; now rewrite F2).
    unfold f64_gt, f64_lt. rewrite (Bltb_correct _ _ pk) by auto. fold (real (f64_abs (f64_of_f32 v))) (real pk). rewrite RA.
    destruct (Rlt_bool_spec (real pk) (Rabs (real32 v))); [rewrite RA; split; [auto|split; [lra|split; [lra|auto]]]|split; [auto|split; [lra|split; [lra|auto]]]]. }
  destruct (IH (keep_c pk v) HF K1 ltac:(lra)) as (I1 & I2 & I3 & I4). split; auto. split; [lra|]. split; [constructor; [lra|auto]|].
  destruct I4 as [I4|(u & Hu & I4)]; [|right; exists u; split; [now right|auto]]. rewrite I4 in *. destruct K4 as [K4|K4]; [now left|right; exists v; split; [now left|auto]].
Qed.
(** * The output of the interpolator *)
Section out.
Context (P : platform) (L : libc) (taps factor C : nat) (HT : (taps = 12 /\ factor = 4 \/ taps = 24 /\ factor = 2)%nat).
Lemma rows_length frames n : length (rows_c L factor C P frames n) = factor.
Proof. unfold rows_c. now rewrite map_length, seq_length. Qed.
Lemma rows_at frames n f : (f < factor)%nat -> nth_error (rows_c L factor C P frames n) f = Some (map (fun c => phase_c P L factor f (sample_before (channel_of c frames) n)) (seq 0 C)).
Proof. intros Hf. unfold rows_c. rewrite nth_error_map, nth_error_nth' with (d := 0%nat) by (now rewrite seq_length). rewrite seq_nth by auto. reflexivity. Qed.
Lemma row_at frames n f c : (c < C)%nat -> nth_error (map (fun c => phase_c P L factor f (sample_before (channel_of c frames) n)) (seq 0 C)) c = Some (phase_c P L factor f (sample_before (channel_of c frames) n)).
Proof. intros Hc. rewrite nth_error_map, nth_error_nth' with (d := 0%nat) by (now rewrite seq_length). rewrite seq_nth by auto. reflexivity. Qed.
Lemma outputs_at (g : nat -> list (list f32)) : (forall n, length (g n) = factor) -> forall k s n f, (n < k)%nat -> (f < factor)%nat ->
  nth_error (concat (map g (seq s k))) (n * factor + f) = nth_error (g (s + n)%nat) f.
Proof.
  intros HG. induction k as [|k IH]; intros s n f Hn Hf; [lia|]. cbn [seq map concat]. destruct n as [|n].
  - cbn [Nat.mul Nat.add]. rewrite nth_error_app1 by (rewrite HG; auto). now rewrite Nat.add_0_r.
  - rewrite nth_error_app2 by (rewrite HG; cbn; lia). rewrite HG. replace (S n * factor + f - factor)%nat with (n * factor + f)%nat by (cbn; lia). rewrite IH by lia. f_equal. f_equal. lia.
Qed.
Lemma interp_create_process past new M E : sin_accurate E -> cos_accurate E -> csin_accurate L -> ccos_accurate L -> 0 <= M <= 2 ^ 100 ->
  Forall (fun fr => length fr = C /\ Forall (moderate M) fr) (past ++ new) ->
  exists ci out0 ci' out, interp_process_c P (interp_create_c L 49 factor C) past = Ret (ci, out0) /\ interp_process_c P ci new = Ret (ci', out) /\
    length out = (length new * factor)%nat /\
    forall n f c, (n < length new)%nat -> (f < factor)%nat -> (c < C)%nat -> exists row y, nth_error out (n * factor + f) = Some row /\ length row = C /\ nth_error row c = Some y /\ is_finite y = true /\
      let xs := channel_of c (past ++ new) in
      Rabs (real32 y - interpolatedR taps factor xs (length past + n) f) <= fir_noise_c M /\
      Rabs (real32 y - real32 (interpolated P E taps factor xs (length past + n) f)) <= fir_noise M + fir_noise_c M.
Proof.
  intros HS1 HC1 HS HC HM HF.
  assert (Forall (fun fr => length fr = C) (past ++ new)) as HL by (revert HF; apply Forall_impl; tauto).
  destruct (proj1 (Forall_app _ _ _) HL) as (HL1 & HL2).
  destruct (process_ok L taps factor C HT P past _ [] [] (create_ok L taps factor C HT) HL1) as (ci & E1 & I1). cbn [app] in E1, I1.
  destruct (process_ok L taps factor C HT P new ci past [] I1 HL2) as (ci' & E2 & I2). cbn [app] in E2.
  exists ci, (concat (map (rows_c L factor C P past) (seq (length (@nil (list f32))) (length past)))), ci', (concat (map (rows_c L factor C P (past ++ new)) (seq (length past) (length new)))).
  split; [exact E1|]. split; [exact E2|]. split.
  { clear. generalize (length past) as s. induction (length new) as [|k IH]; intros s; [reflexivity|]. cbn [seq map concat]. rewrite app_length, IH, rows_length. cbn. lia. }
  intros n f c Hn Hf Hc. eexists _, _. split; [rewrite outputs_at by (auto; intros; apply rows_length); now apply rows_at|]. split; [now rewrite map_length, seq_length|]. split; [now apply row_at|].
  assert (Forall (moderate M) (channel_of c (past ++ new))) as HX.
  { unfold channel_of. apply Forall_map. revert HF. apply Forall_impl. intros fr (Hl & Hm). rewrite Forall_forall in Hm. apply Hm, nth_In. lia. }
  destruct (phase_near taps factor f HT Hf P L (channel_of c (past ++ new)) (length past + n) M HS HC HM HX) as (F & N). split; [exact F|]. cbn zeta. split; [exact N|].
  destruct (proj1 (interpolated_near P E taps factor M (channel_of c (past ++ new)) (length past + n) f HS1 HC1 HT Hf HM HX)) as (_ & N2).
  rewrite Rabs_minus_sym in N2. pose proof (Rabs_triang (real32 (phase_c P L factor f (sample_before (channel_of c (past ++ new)) (length past + n))) - interpolatedR taps factor (channel_of c (past ++ new)) (length past + n) f)
    (interpolatedR taps factor (channel_of c (past ++ new)) (length past + n) f - real32 (interpolated P E taps factor (channel_of c (past ++ new)) (length past + n) f))) as T.
  match type of T with Rabs ?a <= _ => match goal with |- Rabs ?b <= _ => replace b with a by ring end end. lra.
Qed.

(** * The true peak *)
Lemma peaks_real all s k M pk c : csin_accurate L -> ccos_accurate L -> 0 <= M <= 2 ^ 100 -> (c < C)%nat -> Forall (moderate M) (channel_of c all) -> is_finite pk = true -> 0 <= real pk ->
  let y := fold_left keep_c (map (fun row => nth c row f32_zero) (concat (map (rows_c L factor C P all) (seq s k)))) pk in
  is_finite y = true /\ real pk <= real y /\
  (forall n f, (s <= n < s + k)%nat -> (f < factor)%nat -> Rabs (interpolatedR taps factor (channel_of c all) n f) <= real y + fir_noise_c M) /\
  (y = pk \/ exists n f, (s <= n < s + k)%nat /\ (f < factor)%nat /\ Rabs (real y - Rabs (interpolatedR taps factor (channel_of c all) n f)) <= fir_noise_c M).
Proof.
  intros HS HC HM Hc HX Fp Hp. set (vs := map _ _).
  assert (forall n f, (f < factor)%nat -> near32 (phase_c P L factor f (sample_before (channel_of c all) n)) (interpolatedR taps factor (channel_of c all) n f) (fir_noise_c M)) as N.
  { intros n f Hf. exact (phase_near taps factor f HT Hf P L (channel_of c all) n M HS HC HM HX). }
  assert (forall v, In v vs <-> exists n f, (s <= n < s + k)%nat /\ (f < factor)%nat /\ v = phase_c P L factor f (sample_before (channel_of c all) n)) as HV.
  { intros v. unfold vs. rewrite in_map_iff. split.
    - intros (row & <- & Hr). apply in_concat in Hr. destruct Hr as (rows & Hrs & Hr). apply in_map_iff in Hrs. destruct Hrs as (n & <- & Hn). apply in_seq in Hn. unfold rows_c in Hr. apply in_map_iff in Hr.
      destruct Hr as (f & <- & Hf). apply in_seq in Hf. exists n, f. split; auto. split; [lia|]. apply nth_error_nth. now apply row_at.
    - intros (n & f & Hn & Hf & ->). eexists. split; [apply nth_error_nth, row_at, Hc|]. apply in_concat. exists (rows_c L factor C P all n). split; [apply in_map, in_seq; lia|].
      unfold rows_c. apply in_map_iff. exists f. split; [reflexivity|]. apply in_seq. lia. }
  assert (Forall (fun v => is_finite v = true) vs) as FV.
  { apply Forall_forall. intros v Hv. apply HV in Hv. destruct Hv as (n & f & _ & Hf & ->). apply N, Hf. }
  destruct (keep_real vs pk FV Fp Hp) as (Y1 & Y2 & Y3 & Y4). cbn zeta. split; auto. split; auto. split.
  - intros n f Hn Hf. rewrite Forall_forall in Y3. specialize (Y3 _ (proj2 (HV _) (ex_intro _ n (ex_intro _ f (conj Hn (conj Hf eq_refl)))))). destruct (N n f Hf) as (_ & NN).
    rewrite Rabs_minus_sym in NN. pose proof (Rabs_triang_inv (interpolatedR taps factor (channel_of c all) n f) (real32 (phase_c P L factor f (sample_before (channel_of c all) n)))). lra.
  - destruct Y4 as [Y4|(v & Hv & Y4)]; [now left|right]. apply HV in Hv. destruct Hv as (n & f & Hn & Hf & ->). exists n, f. split; auto. split; auto. rewrite Y4. eapply Rle_trans; [apply Rabs_triang_inv2|]. apply N, Hf.
Qed.
End out.
Lemma true_peak_near {T} P L (t : ctype T) rate taps factor C tp past frames peaks M : fed_c P L rate C tp past -> oversampling rate = Some (taps, factor) ->
  csin_accurate L -> ccos_accurate L -> 0 <= M <= 2 ^ 100 ->
  Forall (fun fr => length fr = C) frames -> (length frames <= N.to_nat ((rate + 5) / 10) * 4)%nat ->
  let all := past ++ map (map (resampled_c P t)) frames in
  exists tp' peaks', true_peak_check_c P t tp (length frames) (concat frames) peaks = Ret (tp', peaks') /\ fed_c P L rate C tp' all /\
    forall c pk, (c < C)%nat -> nth_error peaks c = Some pk -> is_finite pk = true -> 0 <= real pk -> let xs := channel_of c all in Forall (moderate M) xs ->
      exists y, nth_error peaks' c = Some y /\ is_finite y = true /\ real pk <= real y /\
        (forall n f, (length past <= n < length xs)%nat -> (f < factor)%nat -> Rabs (interpolatedR taps factor xs n f) <= real y + fir_noise_c M) /\
        (y = pk \/ exists n f, (length past <= n < length xs)%nat /\ (f < factor)%nat /\ Rabs (real y - Rabs (interpolatedR taps factor xs n f)) <= fir_noise_c M).
Proof.
  intros HF HO HS HC HM HL HR all. destruct (fed_state P L rate C tp past HF) as (taps' & factor' & HO' & HI & Hch & Hroom).
  assert (taps' = taps /\ factor' = factor) as (-> & ->) by (rewrite HO in HO'; split; congruence). clear HO'.
  destruct (check_ok P L t rate taps factor C tp past frames peaks HO HI Hch HL ltac:(lia)) as (tp' & E & _). eexists tp', _. split; [exact E|].
  split; [eapply fed_check; [exact HF|exact HL|exact E]|]. fold all. intros c pk Hc Hpk Fp Hp xs HX.
  assert (length xs = length past + length frames)%nat as Hxs by (unfold xs, all, channel_of; rewrite map_length, app_length, map_length; reflexivity).
  eexists. split; [apply retain_fold; [exact Hpk|]|].
  { apply Forall_forall. intros row Hr. apply in_concat in Hr. destruct Hr as (rows & Hrs & Hr). apply in_map_iff in Hrs. destruct Hrs as (n & <- & _). unfold rows_c in Hr. apply in_map_iff in Hr. destruct Hr as (f & <- & _). now rewrite map_length, seq_length. }
  destruct (peaks_real P L taps factor C (taps_cases _ _ _ HO) all (length past) (length frames) M pk c HS HC HM Hc HX Fp Hp) as (Y1 & Y2 & Y3 & Y4). rewrite Hxs. split; [exact Y1|]. split; [exact Y2|]. split; [exact Y3|exact Y4].
Qed.

(** * Against the analyzer *)
Lemma last_call_same {T} P E L (t : ctype T) e lg a r e' c new taps factor M tp past frames peaks : is_64bit P -> sin_accurate E -> cos_accurate E -> csin_accurate L -> ccos_accurate L ->
  logged P E e lg -> admissible e (OpAdd a) -> step P E e (OpAdd a) = Ret (r, e') ->
  has_TRUE_PEAK (e_mode e) -> oversampling (e_rate e) = Some (taps, factor) -> channel_input P (e_channels e) c a = Some new -> new <> [] -> 0 <= M <= 2 ^ 100 ->
  Forall (moderate M) (channel c (lg_past lg) ++ map r_32 new) -> Forall (fun r => is_finite (r_level r) = true) new ->
  fed_c P L (e_rate e) (e_channels e) tp past -> Forall (fun fr => length fr = e_channels e) frames -> (length frames <= N.to_nat ((e_rate e + 5) / 10) * 4)%nat ->
  channel_of (N.to_nat c) past = channel c (lg_past lg) -> channel_of (N.to_nat c) (map (map (resampled_c P t)) frames) = map r_32 new -> nth_error peaks (N.to_nat c) = Some f64_zero ->
  exists x tp' peaks' y, ask P E e' (QPrevTruePeak c) = Ret (AValue (Ok x)) /\
    true_peak_check_c P t tp (length frames) (concat frames) peaks = Ret (tp', peaks') /\ nth_error peaks' (N.to_nat c) = Some y /\
    is_finite x = true /\ is_finite y = true /\ real y <= real x + (fir_noise M + fir_noise_c M) /\
    (real x <= real y + (fir_noise M + fir_noise_c M) \/ In x (levels_of new)).
Proof.
  intros HP HS HC HSc HCc Hl Ha Hs Hm Ho Hi Hn HM HX HLv HF HFr HR Ep En Hpk.
  destruct (last_call_near P E e lg a r e' c new taps factor M HP HS HC Hl Ha Hs Hm Ho Hi Hn HM HX HLv) as (x & Q & Fx & X1 & X2 & X3).
  destruct (true_peak_near P L t (e_rate e) taps factor (e_channels e) tp past frames peaks M HF Ho HSc HCc HM HFr HR) as (tp' & peaks' & Ec & _ & HY).
  assert (N.to_nat c < e_channels e)%nat as Hc.
  { destruct (add_log P E e lg a c new HP Hl Ha Hi Hn) as (_ & _ & _ & Lc). lia. }
  assert (channel_of (N.to_nat c) (past ++ map (map (resampled_c P t)) frames) = channel c (lg_past lg) ++ map r_32 new) as EX.
  { rewrite <- Ep, <- En. unfold channel_of. apply map_app. }
  assert (length past = length (channel c (lg_past lg))) as EL by (rewrite <- Ep; unfold channel_of; now rewrite map_length).
  specialize (HY (N.to_nat c) f64_zero Hc Hpk eq_refl (Rle_refl 0)). cbn zeta in HY. rewrite EX, EL in HY. destruct (HY HX) as (y & Ey & Fy & Y1 & Y2 & Y3). change (real f64_zero) with 0 in Y1.
  exists x, tp', peaks', y. split; auto. split; auto. split; auto. split; auto. split; auto.
  assert (0 <= fir_noise M /\ 0 <= fir_noise_c M) as (N1 & N2).
  { assert (forall k, 0 < / 2 ^ k) as I by (intros k; apply Rinv_0_lt_compat, pow_lt; lra). unfold fir_noise, fir_noise_c. pose proof (I 16%nat). pose proof (I 118%nat). pose proof (I 22%nat). pose proof (I 124%nat).
    split; apply Rplus_le_le_0_compat; try (apply Rmult_le_pos); lra. }
  assert (0 <= real x + fir_noise M) as X0.
  { eapply Rle_trans; [apply Rabs_pos|]. apply (X2 (length (channel c (lg_past lg))) 0%nat); [|destruct (taps_cases _ _ _ Ho) as [(_ & ->)|(_ & ->)]; lia].
    rewrite app_length, map_length. destruct new; [congruence|cbn [length]; lia]. }
  split.
  - destruct Y3 as [->|(n & f & Hn' & Hf & Y3)]; [change (real f64_zero) with 0; lra|]. specialize (X2 n f Hn' Hf). apply Rabs_le_inv in Y3. lra.
  - destruct X3 as [X3|[X3|(n & f & Hn' & Hf & X3)]]; [left; lra|now right|left]. specialize (Y2 n f Hn' Hf). apply Rabs_le_inv in X3. lra.
Qed.

(** * The sample formats *)
Lemma resampled_scaled {T} P (S : sample T) (t : ctype T) x : reads_same P S t x -> resampled_c P t x = ftz32 P (f32_of_f64 (s_f64 S x)).
Proof. intros (_ & E). unfold resampled_c. now rewrite <- E. Qed.
Lemma resampled_i16 P z : in_i16 z -> resampled_c P c_short z = s_f32 smp_i16 P z.
Proof. intros H. rewrite (resampled_scaled P smp_i16 c_short z (reads_i16 P z H)). cbn [smp_i16 s_f64 s_f32]. f_equal. apply (scale_f32 z 15); unfold in_i16 in H; lia. Qed.
Lemma resampled_i32 P z : in_i32 z -> resampled_c P c_int z = s_f32 smp_i32 P z.
Proof. intros H. rewrite (resampled_scaled P smp_i32 c_int z (reads_i32 P z H)). cbn [smp_i32 s_f64 s_f32]. f_equal. apply (scale_f32 z 31); unfold in_i32 in H; lia. Qed.
Lemma resampled_f32 P x : (p_ftz P = true -> subnormal32 x = false) -> resampled_c P c_float x = s_f32 smp_f32 P x.
Proof. intros H. rewrite (resampled_scaled P smp_f32 c_float x (reads_f32 P x)). cbn [smp_f32 s_f64 s_f32]. rewrite f32_of_f64_of_f32. now apply subnormal_stable. Qed.
Lemma resampled_f64 P x : (p_ftz P = true -> subnormal64 x = false) -> resampled_c P c_double x = s_f32 smp_f64 P x.
Proof. intros H. rewrite (resampled_scaled P smp_f64 c_double x (reads_f64 P x H)). reflexivity. Qed.
Lemma create_none L rate C : true_peak_create_c L rate C = None <-> oversampling rate = None.
Proof. unfold true_peak_create_c, oversampling. destruct (rate <? 96000)%N; [split; discriminate|]. destruct (rate <? 192000)%N; split; try discriminate; auto. Qed.
