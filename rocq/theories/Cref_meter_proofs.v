(** The whole C filter, with its true peaks, and the Rust filter. *)
From Coq Require Import List Arith NArith ZArith Bool Lia Reals Lra Psatz.
From Flocq Require Import Core IEEE754.BinarySingleNaN.
From Verif Require Import Prelude Float Env Tables History Ebur128 Interp Spec Spec_history Spec_accuracy Twin_proofs Cref_proofs Cref_same_proofs Utils TruePeak Filter Cref Cref_filter Cref_interp Cref_meter Spec_real Spec_interp Spec_cref Spec_cref_filter Spec_cref_interp Spec_cref_meter
  Ref Prelude_proofs Float_proofs Utils_proofs Interp_proofs TruePeak_proofs Filter_proofs Peak_proofs Oversample_proofs Overshoot_proofs
  Cref_filter_proofs Cref_format_proofs Cref_taps_proofs Cref_interp_proofs Cref_peak_proofs.
Import ListNotations.
Local Open Scope nat_scope.

(** * Splitting off the true peaks *)
Definition with_tp (f : filter) (tp : option scanner) (pk : list f64) : filter :=
  {| f_channels := f_channels f; f_b := f_b f; f_a := f_a f; f_state := f_state f; f_calc_sample_peak := f_calc_sample_peak f;
     f_sample_peak := f_sample_peak f; f_tp := tp; f_true_peak := pk |}.
Lemma process_splits {T} P (S : sample T) f src dest i cmap sc g d sc' pk : f_tp f = Some sc -> length (f_true_peak f) = f_channels f ->
  filter_process P S (apart_from_true_peaks f) src dest i cmap = Ret (g, d) -> check_true_peak P S sc src (f_true_peak f) = Ret (sc', pk) ->
  filter_process P S f src dest i cmap = Ret (with_tp g (Some sc') pk, d).
Proof.
  intros H1 H2 H3 H4. unfold filter_process in *. cbn [apart_from_true_peaks f_channels f_b f_a f_state f_calc_sample_peak f_sample_peak f_tp f_true_peak] in H3.
  rewrite H1, H2, Nat.eqb_refl, H4. cbn [assert_ obind].
  unfold assert_ in *.
  repeat match goal with |- (if ?b then _ else _) = _ => destruct b; [|discriminate H3] end.
  destruct (if f_calc_sample_peak f then _ else _) as [sp| | |]; cbn [obind] in *; try discriminate H3.
  match goal with |- (if ?b then _ else _) = _ => destruct b; [|discriminate H3] end.
  destruct (chunks_exact _ dest) as [planes| | |]; cbn [obind] in *; try discriminate H3.
  destruct (process_loop _ _ _ _ _ _ _ _ _ _) as [(planes', states')| | |]; cbn [obind] in *; try discriminate H3.
  injection H3 as <- <-. reflexivity.
Qed.
Lemma process_same {T} P (S : sample T) f src dest i cmap : f_tp f = None -> filter_process P S (apart_from_true_peaks f) src dest i cmap = filter_process P S f src dest i cmap.
Proof. intros H. unfold filter_process. cbn [apart_from_true_peaks f_channels f_b f_a f_state f_calc_sample_peak f_sample_peak f_tp f_true_peak]. rewrite H. reflexivity. Qed.
Lemma apart_with f tp pk g : twin_filters f g -> twin_filters (apart_from_true_peaks (with_tp f tp pk)) g.
Proof. intros [T1 T2 T3 T4 T5 T6 T7 T8 T9 T10]. constructor; auto. Qed.
Lemma apart_id f g : twin_filters f g -> twin_filters (apart_from_true_peaks f) g.
Proof. intros [T1 T2 T3 T4 T5 T6 T7 T8 T9 T10]. constructor; auto. Qed.

(** * Frames and columns *)
Lemma map2_maps {A B D F} (f : B -> D -> F) (a : A -> B) (b : A -> D) l : map2 f (map a l) (map b l) = map (fun x => f (a x) (b x)) l.
Proof. induction l; cbn; congruence. Qed.
Lemma map3_maps {A B D E F} (f : B -> D -> E -> F) (a : A -> B) (b : A -> D) (c : A -> E) l : map3 f (map a l) (map b l) (map c l) = map (fun x => f (a x) (b x) (c x)) l.
Proof. induction l; cbn; congruence. Qed.
Lemma col_map {A} (g : A -> f32) C c frames : c < C -> Forall (fun fr => length fr = C) frames -> map g (col c frames) = channel_of c (map (map g) frames).
Proof.
  intros Hc. induction 1 as [|fr frames Hf HF IH]; [reflexivity|]. rewrite col_cons, map_app, IH. unfold channel_of. cbn [map].
  destruct (nth_error fr c) as [x|] eqn:E; [|apply nth_error_None in E; lia].
  assert (firstn 1 (skipn c fr) = [x]) as ->.
  { pose proof (nth_error_skipn fr c 0) as K. rewrite Nat.add_0_r, E in K. destruct (skipn c fr) as [|y l]; [discriminate K|]. cbn in K. injection K as ->. reflexivity. }
  cbn [map app]. f_equal. symmetry. apply nth_error_nth. rewrite nth_error_map, E. reflexivity.
Qed.
Lemma outs_extend P E taps factor xs ys k : k <= length xs -> outs P E taps factor xs k ++ outs P E taps factor (xs ++ ys) (length xs) = outs P E taps factor (xs ++ ys) k.
Proof.
  intros Hk. unfold outs. rewrite app_length. replace (length xs + length ys - length xs) with (length ys) by lia.
  replace (length xs + length ys - k) with ((length xs - k) + length ys) by lia. rewrite seq_app, flat_map_app. replace (k + (length xs - k)) with (length xs) by lia. f_equal.
  apply flat_map_ext_in. intros n Hn. apply in_seq in Hn. apply map_ext. intros f. symmetry. apply interpolated_app. lia.
Qed.

(** * The two true peak meters after the frames [past], the peaks cleared before frame [k] *)
Section meters.
Context (P : platform) (E : ext) (L : libc) (rate : N) (taps factor C : nat) (HO : oversampling rate = Some (taps, factor)).
Definition filt := interp_filter E taps factor.
Definition pks_rust (past : list (list f32)) (k : nat) : list f32 := map (fun c => top32 (outs P E taps factor (channel_of c past) k)) (seq 0 C).
Definition pks_c (past : list (list f32)) (k : nat) : list f64 :=
  fold_left retain_c (concat (map (rows_c L factor C P past) (seq k (length past - k)))) (repeat f64_zero C).
Record both (sc : scanner) (pk : list f64) (tp : ctrue_peak) (peaks : list f64) (past : list (list f32)) (k : nat) : Prop := {
  bo_k : k <= length past;
  bo_sc : scanner_ok sc taps factor C filt (map (fun c => hist_of taps (channel_of c past)) (seq 0 C));
  bo_pk : pk = map f64_of_f32 (pks_rust past k);
  bo_stable : Forall (stable32 P) (pks_rust past k);
  bo_ci : interp_c_ok L factor C (ct_interp tp) past;
  bo_channels : ct_channels tp = C;
  bo_room : ct_room tp = N.to_nat ((rate + 5) / 10) * 4;
  bo_peaks : peaks = pks_c past k;
}.
Lemma channel_app c past new : channel_of c (past ++ new) = channel_of c past ++ channel_of c new.
Proof. apply map_app. Qed.
Lemma channel_len c past : length (channel_of c past) = length past.
Proof. apply map_length. Qed.
Lemma taps48 : taps * factor <= 48.
Proof. destruct (taps_cases _ _ _ HO) as [(-> & ->)|(-> & ->)]; cbn; lia. Qed.
Lemma both_step {T} (S : sample T) (t : ctype T) sc pk tp peaks past k frames : both sc pk tp peaks past k -> 0 < C ->
  Forall (fun fr => length fr = C) frames -> Forall (Forall (fun x => resampled_c P t x = s_f32 S P x)) frames -> length frames <= N.to_nat ((rate + 5) / 10) * 4 ->
  exists sc' pk' tp' peaks', check_true_peak P S sc (Interleaved (concat frames) C) pk = Ret (sc', pk') /\
    true_peak_check_c P t tp (length frames) (concat frames) peaks = Ret (tp', peaks') /\
    both sc' pk' tp' peaks' (past ++ map (map (resampled_c P t)) frames) k.
Proof.
  intros [B1 B2 B3 B4 B5 B6 B7 B8] HC HF HR Hn. set (new := map (map (resampled_c P t)) frames).
  assert (view (Interleaved (concat frames) C) (length frames) (cols_of C frames)) as Hv.
  { cbn [view]. rewrite cols_of_length. split; [reflexivity|]. split; [exact HC|]. exists frames. auto. }
  assert (map (map (s_f32 S P)) (cols_of C frames) = map (fun c => channel_of c new) (seq 0 C)) as Ec.
  { unfold cols_of. rewrite map_map. apply map_ext_in. intros c Hc. apply in_seq in Hc. rewrite (col_map (s_f32 S P) C c frames) by (lia || auto). f_equal. unfold new.
    apply map_ext_in. intros fr Hfr. rewrite Forall_forall in HR. specialize (HR _ Hfr). rewrite Forall_forall in HR. apply map_ext_in. intros x Hx. symmetry. auto. }
  destruct (check_true_peak_ok P S sc taps factor C filt _ (Interleaved (concat frames) C) (length frames) (cols_of C frames) (pks_rust past k) B2 Hv) as (R1 & R2); [apply cols_of_length|unfold pks_rust; now rewrite map_length, seq_length|exact B4|].
  rewrite Ec in R1, R2. rewrite <- B3 in R1.
  destruct (check_ok P L t rate taps factor C tp past frames peaks HO B5 B6 HF) as (tp' & K1 & K2 & K3 & K4); [lia|].
  assert (tp_peaks P taps factor filt (map (fun c => hist_of taps (channel_of c past)) (seq 0 C)) (pks_rust past k) (map (fun c => channel_of c new) (seq 0 C)) = pks_rust (past ++ new) k) as EP.
  { unfold tp_peaks, pks_rust. rewrite (map3_maps (fun h pk xs => snd (tp_run P taps factor filt h pk xs)) (fun c => hist_of taps (channel_of c past)) (fun c => top32 (outs P E taps factor (channel_of c past) k)) (fun c => channel_of c new)).
    apply map_ext. intros c. unfold filt. rewrite tp_run_outs by apply taps48. rewrite channel_app, <- (outs_extend P E taps factor (channel_of c past) (channel_of c new) k) by (rewrite channel_len; exact B1).
    unfold top32. rewrite map_app, fold_left_app. reflexivity. }
  eexists _, _, tp', _. split; [exact R1|]. split; [exact K1|]. constructor; auto.
  - rewrite app_length. lia.
  - unfold push_hists in R2. rewrite (map2_maps (fun h xs => fold_left (push taps) xs h) (fun c => hist_of taps (channel_of c past)) (fun c => channel_of c new)) in R2.
    assert (map (fun c => hist_of taps (channel_of c (past ++ new))) (seq 0 C) = map (fun c => fold_left (push taps) (channel_of c new) (hist_of taps (channel_of c past))) (seq 0 C)) as ->; [|exact R2].
    apply map_ext. intros c. rewrite channel_app. unfold hist_of. apply fold_left_app.
  - now rewrite EP.
  - rewrite <- EP. now apply tp_peaks_stable.
  - lia.
  - rewrite B8. unfold pks_c. fold new. rewrite app_length. assert (length new = length frames) as El by (unfold new; apply map_length). rewrite El.
    replace (length past + length frames - k) with ((length past - k) + length frames) by lia. rewrite seq_app, map_app, concat_app, fold_left_app. replace (k + (length past - k)) with (length past) by lia.
    f_equal. f_equal. f_equal. apply map_ext_in. intros n Hin. apply in_seq in Hin. symmetry. apply rows_prefix. lia.
Qed.
Lemma pks_c_length past k : length (pks_c past k) = C.
Proof.
  unfold pks_c. assert (Forall (fun row => length row = C) (concat (map (rows_c L factor C P past) (seq k (length past - k))))) as H.
  { apply Forall_forall. intros row Hr. apply in_concat in Hr. destruct Hr as (rows & Hrs & Hr). apply in_map_iff in Hrs. destruct Hrs as (n & <- & _). unfold rows_c in Hr. apply in_map_iff in Hr. destruct Hr as (f & <- & _). now rewrite map_length, seq_length. }
  assert (length (repeat f64_zero C) = C) as H0 by apply repeat_length. revert H0. generalize (repeat f64_zero C). induction H as [|row rows Hr HF IH]; intros l Hl; [exact Hl|]. cbn [fold_left]. apply IH. unfold retain_c. rewrite map2_length. lia.
Qed.
Lemma zeros_const {A} (l : list A) : length l = C -> map (fun _ => f64_zero) l = repeat f64_zero C.
Proof. intros <-. induction l; cbn; congruence. Qed.
Lemma both_reset sc pk tp peaks past k : both sc pk tp peaks past k -> both sc (map (fun _ => f64_zero) pk) tp (map (fun _ => f64_zero) peaks) past (length past).
Proof.
  intros [B1 B2 B3 B4 B5 B6 B7 B8].
  assert (pks_rust past (length past) = repeat f32_zero C) as EZ.
  { unfold pks_rust. transitivity (map (fun _ => f32_zero) (seq 0 C)); [|rewrite map_const_repeat, seq_length; reflexivity]. apply map_ext. intros c. unfold outs. rewrite channel_len, Nat.sub_diag. reflexivity. }
  constructor; auto.
  - rewrite EZ. assert (map f64_of_f32 (repeat f32_zero C) = repeat f64_zero C) as -> by (clear; induction C as [|n IH]; [reflexivity|cbn [repeat map]; rewrite IH; reflexivity]). apply zeros_const. rewrite B3. unfold pks_rust. now rewrite !map_length, seq_length.
  - rewrite EZ. apply Forall_forall. intros x Hx. apply repeat_spec in Hx. subst x. apply stable32_zero.
  - unfold pks_c. rewrite Nat.sub_diag. cbn [seq map concat fold_left]. apply zeros_const. rewrite B8. apply pks_c_length.
Qed.
Local Open Scope R_scope.
Lemma both_near sc pk tp peaks past k M c x y : both sc pk tp peaks past k -> sin_accurate E -> cos_accurate E -> csin_accurate L -> ccos_accurate L -> 0 <= M <= 2 ^ 100 ->
  Forall (fun fr => length fr = C /\ Forall (moderate M) fr) past -> nth_error pk c = Some x -> nth_error peaks c = Some y ->
  is_finite x = true /\ is_finite y = true /\ Rabs (real x - real y) <= fir_noise M + fir_noise_c M.
Proof.
  intros [B1 B2 B3 B4 B5 B6 B7 B8] HS HC HSc HCc HM HX Hx Hy.
  assert (c < C)%nat as Hc. { apply nth_error_Some_lt in Hx. rewrite B3 in Hx. unfold pks_rust in Hx. now rewrite !map_length, seq_length in Hx. }
  rewrite B3 in Hx. unfold pks_rust in Hx. rewrite map_map, nth_error_map, nth_error_nth' with (d := 0%nat) in Hx by (now rewrite seq_length). rewrite seq_nth in Hx by auto. cbn [option_map Nat.add] in Hx. injection Hx as <-.
  set (xs := channel_of c past).
  assert (Forall (moderate M) xs) as HXc. { unfold xs, channel_of. apply Forall_map. revert HX. apply Forall_impl. intros fr (Hl & Hm). rewrite Forall_forall in Hm. apply Hm, nth_In. lia. }
  assert (forall n f, (f < factor)%nat -> near32 (interpolated P E taps factor xs n f) (interpolatedR taps factor xs n f) (fir_noise M)) as N.
  { intros n f Hf. exact (proj1 (interpolated_near P E taps factor M xs n f HS HC (taps_cases _ _ _ HO) Hf HM HXc)). }
  rewrite B8 in Hy. unfold pks_c in Hy. rewrite (retain_fold c _ _ f64_zero) in Hy.
  2:{ apply nth_error_repeat. exact Hc. }
  2:{ apply Forall_forall. intros row Hr. apply in_concat in Hr. destruct Hr as (rows & Hrs & Hr). apply in_map_iff in Hrs. destruct Hrs as (n & <- & _). unfold rows_c in Hr. apply in_map_iff in Hr. destruct Hr as (f & <- & _). now rewrite map_length, seq_length. }
  injection Hy as Ey.
  destruct (peaks_real P L taps factor C (taps_cases _ _ _ HO) past k (length past - k)%nat M f64_zero c HSc HCc HM Hc HXc eq_refl (Rle_refl 0)) as (Fy & Y1 & Y2 & Y3).
  rewrite Ey in Fy, Y1, Y2, Y3. fold xs in Y2, Y3. change (real f64_zero) with 0 in Y1.
  pose proof (fun y => proj1 (oversampled_in P E rate taps factor xs k y HO)) as O1. pose proof (fun y => proj2 (oversampled_in P E rate taps factor xs k y HO)) as O2.
  assert (oversampled P E rate xs k = outs P E taps factor xs k) as EO by (unfold oversampled; rewrite HO; reflexivity). rewrite EO in O1, O2.
  pose proof (proj1 (top32_spec (outs P E taps factor xs k))) as Lg. set (x := f64_of_f32 (top32 _)) in *.
  assert (Forall (fun y => is_finite y = true) (magnitudes (outs P E taps factor xs k))) as FF.
  { unfold magnitudes. rewrite Forall_map. apply Forall_forall. intros z Hz. destruct (O1 z Hz) as (n & f & _ & Hf & ->). apply magnitude_real. apply N; auto. }
  destruct (largest_real _ _ Lg FF) as (Fx & X0 & XA & XI). split; [exact Fx|]. split; [exact Fy|].
  assert (0 <= fir_noise M /\ 0 <= fir_noise_c M) as (N1 & N2).
  { assert (forall k, 0 < / 2 ^ k) as I by (intros j; apply Rinv_0_lt_compat, pow_lt; lra). unfold fir_noise, fir_noise_c. pose proof (I 16%nat). pose proof (I 118%nat). pose proof (I 22%nat). pose proof (I 124%nat).
    split; apply Rplus_le_le_0_compat; try (apply Rmult_le_pos); lra. }
  assert (length xs = length past) as Hl by apply channel_len.
  apply Rabs_le. split.
  - destruct Y3 as [Y3|(n & f & Hn & Hf & Y3)]; [rewrite Y3; change (real f64_zero) with 0; lra|]. destruct (N n f Hf) as (F & NN). unfold magnitudes in XA. rewrite Forall_map, Forall_forall in XA.
    assert (k <= n < length xs)%nat as Hn' by lia. specialize (XA _ (O2 _ (ex_intro _ n (ex_intro _ f (conj Hn' (conj Hf eq_refl)))))). rewrite (proj2 (magnitude_real _ F)) in XA.
    pose proof (Rabs_triang_inv (interpolatedR taps factor xs n f) (real32 (interpolated P E taps factor xs n f))) as T. rewrite Rabs_minus_sym in T. apply Rabs_le_inv in Y3. lra.
  - destruct XI as [XI|XI]; [lra|]. unfold magnitudes in XI. apply in_map_iff in XI. destruct XI as (z & Ez & Hz).
    destruct (O1 z Hz) as (n & f & Hn & Hf & ->). destruct (N n f Hf) as (F & NN). rewrite <- Ez, (proj2 (magnitude_real _ F)). specialize (Y2 n f ltac:(lia) Hf).
    pose proof (Rabs_triang_inv (real32 (interpolated P E taps factor xs n f)) (interpolatedR taps factor xs n f)) as T. lra.
Qed.
End meters.

(** * The whole filter *)
Section filters.
Context {T : Type} (P : platform) (E : ext) (L : libc) (S : sample T) (t : ctype T) (rate : N) (C ring : nat) (M : R) (cmap : list channel) (codes : list N) (tpk : bool).
Inductive meters (f : filter) (m : cmeter) (past : list (list f32)) : Prop :=
| meters_on taps factor sc tp k : tpk = true -> oversampling rate = Some (taps, factor) -> f_tp f = Some sc -> cm_tp m = Some tp ->
    both P E L rate taps factor C sc (f_true_peak f) tp (cm_true_peak m) past k -> meters f m past
| meters_off : f_tp f = None -> cm_tp m = None -> f_true_peak f = repeat f64_zero C -> cm_true_peak m = repeat f64_zero C -> meters f m past.
Record twins (f : filter) (m : cmeter) (past : list (list f32)) : Prop := {
  tw_filter : twin_filters (apart_from_true_peaks f) (cm_filter m);
  tw_channels : f_channels f = C;
  tw_past : tpk = true -> Forall (fun fr => length fr = C /\ Forall (moderate M) fr) past;
  tw_meters : meters f m past;
}.
Lemma meters_length f m past : meters f m past -> length (f_true_peak f) = C /\ length (cm_true_peak m) = C.
Proof.
  intros [taps factor sc tp k _ _ _ _ [_ _ B3 _ _ _ _ B8]|_ _ E1 E2].
  - rewrite B3, B8. split; [unfold pks_rust; now rewrite !map_length, seq_length|apply pks_c_length].
  - rewrite E1, E2. split; apply repeat_length.
Qed.
Lemma twins_create sp : same_pow E L -> same_tan E L -> (0 < rate)%N -> 0 < C ->
  exists f, filter_new E rate C sp tpk = Ret f /\ twins f (meter_create_c L rate C sp tpk) [].
Proof.
  intros HP HT Hr HC. destruct (create_twins E L rate C sp HP HT Hr HC) as (f & Hn & HF & Hch).
  unfold filter_new in Hn. unfold filter_new, assert_ in *. destruct (0 <? rate)%N; [|discriminate Hn]. destruct (0 <? C); [|discriminate Hn].
  destruct (filter_coefficients E (f64_of_N rate)) as (b, a). cbn [obind] in Hn.
  destruct (scanner_new_ok E rate C tpk) as (tp & -> & HT'). cbn [obind]. eexists. split; [reflexivity|]. apply (f_equal (fun o => match o with Ret x => x | _ => f end)) in Hn. cbn beta iota in Hn. subst f. constructor; cbn [f_channels]; auto.
  unfold tp_ok, tp_hists0 in HT'. destruct tpk eqn:Et; cbn [negb] in HT'.
  - destruct (tp_params rate) as [(taps, factor)|] eqn:Ho.
    + destruct tp as [sc|]; [|contradiction]. destruct HT' as (Hsc & _). destruct (true_peak_create_c L rate C) as [ct|] eqn:Ec; [|apply create_none in Ec; rewrite oversampling_params in Ec; congruence].
      destruct (create_some L rate C ct Ec) as (taps' & factor' & Ho' & E1 & E2 & E3). assert (taps' = taps /\ factor' = factor) as (-> & ->) by (rewrite oversampling_params, Ho in Ho'; split; congruence).
      apply (meters_on _ _ _ taps factor sc ct 0); [exact Et|exact Ho|reflexivity|exact Ec|]. constructor; cbn [f_true_peak meter_create_c cm_true_peak length]; auto.
      * assert (map (fun c => hist_of taps (channel_of c [])) (seq 0 C) = repeat (repeat f32_zero taps) C) as ->; [|exact Hsc]. transitivity (map (fun _ => repeat f32_zero taps) (seq 0 C)); [reflexivity|]. rewrite map_const_repeat, seq_length. reflexivity.
      * unfold pks_rust. rewrite map_map. transitivity (map (fun _ => f64_zero) (seq 0 C)); [rewrite map_const_repeat, seq_length; reflexivity|]. apply map_ext. reflexivity.
      * apply Forall_map, Forall_forall. intros c _. apply stable32_zero.
      * rewrite E1. eapply create_ok, taps_cases; eauto.
    + destruct tp; [contradiction|]. apply meters_off; auto. cbn [meter_create_c cm_tp]. now apply create_none.
  - destruct tp; [contradiction|]. apply meters_off; auto.
Qed.
Context (HP : p_ftz P = true) (HS : same_scale S t) (HC : 0 < C) (Hmap : length cmap = C) (Hcodes : Forall2 code_of cmap codes) (HL : 0 < ring).
Lemma event_same ev f m past planes data : twins f m past -> same_audio C ring data planes -> suitable P S t rate C ring M tpk ev ->
  exists f' m' past' planes' data', rust_event P S C cmap (f, concat planes) ev = Ret (f', concat planes') /\ c_event P t C codes (m, data) ev = Ret (m', data') /\
    twins f' m' past' /\ same_audio C ring data' planes'.
Proof.
  intros [W1 W2 W3 W4] HA HE. destruct ev as [frames i|]; cbn [rust_event c_event suitable fst snd] in *.
  - destruct HE as (H1 & H3 & H4). set (new := map (map (resampled_c P t)) frames).
    assert (Forall (fun fr => length fr = C) frames) as F1 by (revert H3; apply Forall_impl; intros fr (X & _); exact X).
    assert (Forall (reads_same P S t) (concat frames)) as F3 by (apply Forall_concat; revert H3; apply Forall_impl; intros fr (_ & X); exact X).
    assert (tpk = true -> Forall (fun fr => length fr = C /\ Forall (moderate M) fr) (past ++ new)) as F4.
    { intros Et. destruct (H4 Et) as (_ & H5). apply Forall_app. split; auto. unfold new. apply Forall_map. rewrite Forall_forall in *. intros fr Hfr. rewrite map_length. split; [apply F1, Hfr|]. specialize (H5 _ Hfr). rewrite Forall_forall in *.
      intros y Hy. apply in_map_iff in Hy. destruct Hy as (x & <- & Hx). destruct (H5 _ Hx) as (E1 & E2). now rewrite E1. }
    assert (f_channels (apart_from_true_peaks f) = C) as Hch by exact W2.
    destruct (filter_same P S t (apart_from_true_peaks f) (cm_filter m) (concat frames) (length frames) planes data ring i cmap codes HP W1 HS) as (f1 & g1 & planes1 & data1 & R1 & R2 & R3 & R4 & R5); rewrite ?Hch; auto.
    { rewrite (concat_length_const C) by auto. apply Nat.mul_comm. }
    rewrite Hch in R1, R2, R4, R5. destruct W4 as [taps factor sc tp k Et HO Hsc Htp HB|Hsc Htp Z1 Z2].
    + destruct (H4 Et) as (H2 & H5). assert (Forall (Forall (fun x => resampled_c P t x = s_f32 S P x)) frames) as F2 by (revert H5; apply Forall_impl; intros fr; apply Forall_impl; intros x (Y & _); exact Y).
      destruct (both_step P E L rate taps factor C HO S t sc (f_true_peak f) tp (cm_true_peak m) past k frames HB HC F1 F2 H2) as (sc' & pk' & tp' & peaks' & K1 & K2 & K3).
      assert (length (f_true_peak f) = f_channels f) as Hl by (rewrite W2; apply (meters_length f m past); eapply meters_on; eauto).
      exists (with_tp f1 (Some sc') pk'), {| cm_filter := g1; cm_tp := Some tp'; cm_true_peak := peaks' |}, (past ++ new), planes1, data1.
      split; [exact (process_splits P S f _ _ i cmap sc f1 _ sc' pk' Hsc Hl R1 K1)|]. split; [unfold meter_process_c; rewrite Htp, K2; cbn [obind]; rewrite R2; reflexivity|]. split; auto.
      constructor; auto; [now apply apart_with|]. eapply meters_on; eauto; reflexivity.
    + rewrite (process_same P S f _ _ i cmap Hsc) in R1.
      assert (f_tp f1 = None) as N1 by (apply R3).
      assert (f_true_peak f1 = f_true_peak f) as N2.
      { revert R1. unfold filter_process. rewrite Hsc. unfold assert_. repeat match goal with |- (if ?b then _ else _) = _ -> _ => destruct b; [|discriminate] end.
        destruct (if f_calc_sample_peak f then _ else _) as [spk| | |]; cbn [obind]; try discriminate. destruct (_ <=? _); [|discriminate].
        destruct (chunks_exact _ _) as [pls| | |]; cbn [obind]; try discriminate. destruct (process_loop _ _ _ _ _ _ _ _ _ _) as [(pl, st)| | |]; cbn [obind]; try discriminate.
        intros X. apply (f_equal (fun o => match o with Ret (a, _) => f_true_peak a | _ => [] end)) in X. symmetry. exact X. }
      exists f1, {| cm_filter := g1; cm_tp := None; cm_true_peak := cm_true_peak m |}, (past ++ new), planes1, data1. split; [exact R1|]. split; [unfold meter_process_c; rewrite Htp; cbn [obind]; rewrite R2; reflexivity|]. split; auto.
      constructor; auto; [now apply apart_id|]. apply meters_off; auto. congruence.
  - exists (filter_reset_peaks f), (meter_reset_peaks_c m), past, planes, data. split; [reflexivity|]. split; [reflexivity|]. split; auto. constructor; auto.
    + exact (reset_twins _ _ W1).
    + destruct W4 as [taps factor sc tp k Et HO Hsc Htp HB|Hsc Htp Z1 Z2].
      * eapply meters_on; eauto. cbn [filter_reset_peaks f_true_peak meter_reset_peaks_c cm_true_peak]. eapply both_reset; eauto.
      * apply meters_off; auto; cbn [filter_reset_peaks f_true_peak meter_reset_peaks_c cm_true_peak]; apply zeros_const; rewrite ?Z1, ?Z2; apply repeat_length.
Qed.
Lemma events_same : forall evs f m past planes data, twins f m past -> same_audio C ring data planes -> Forall (suitable P S t rate C ring M tpk) evs ->
  exists f' m' past' planes' data', ofold (rust_event P S C cmap) (f, concat planes) evs = Ret (f', concat planes') /\ ofold (c_event P t C codes) (m, data) evs = Ret (m', data') /\
    twins f' m' past' /\ same_audio C ring data' planes'.
Proof.
  induction evs as [|ev evs IH]; intros f m past planes data HW HA HF; [exists f, m, past, planes, data; auto|]. apply Forall_cons_iff in HF. destruct HF as (HE & HF).
  destruct (event_same ev f m past planes data HW HA HE) as (f1 & m1 & past1 & planes1 & data1 & R1 & R2 & R3 & R4). cbn [ofold]. rewrite R1, R2. cbn [obind]. eapply IH; eauto.
Qed.
Local Open Scope R_scope.
Lemma meter_same sp planes data evs : same_pow E L -> same_tan E L -> sin_accurate E -> cos_accurate E -> csin_accurate L -> ccos_accurate L -> 0 <= M <= 2 ^ 100 -> (0 < rate)%N ->
  same_audio C ring data planes -> Forall (suitable P S t rate C ring M tpk) evs ->
  exists f0 f m planes' data', filter_new E rate C sp tpk = Ret f0 /\
    ofold (rust_event P S C cmap) (f0, concat planes) evs = Ret (f, concat planes') /\
    ofold (c_event P t C codes) (meter_create_c L rate C sp tpk, data) evs = Ret (m, data') /\
    twin_filters (apart_from_true_peaks f) (cm_filter m) /\ same_audio C ring data' planes' /\
    length (f_true_peak f) = C /\ length (cm_true_peak m) = C /\
    forall c x y, nth_error (f_true_peak f) c = Some x -> nth_error (cm_true_peak m) c = Some y ->
      is_finite x = true /\ is_finite y = true /\ Rabs (real x - real y) <= fir_noise M + fir_noise_c M.
Proof.
  intros Hpow Htan HS1 HC1 HS2 HC2 HM Hr HA HF. destruct (twins_create sp Hpow Htan Hr HC) as (f0 & Hn & HW).
  destruct (events_same evs f0 _ [] planes data HW HA HF) as (f & m & past & planes' & data' & R1 & R2 & [W1 W2 W3 W4] & R4).
  exists f0, f, m, planes', data'. split; auto. split; auto. split; auto. split; auto. split; auto. destruct (meters_length f m past W4) as (L1 & L2). split; auto. split; auto.
  intros c x y Hx Hy. destruct W4 as [taps factor sc tp k Et HO Hsc Htp HB|Hsc Htp Z1 Z2].
  - eapply both_near; eauto.
  - rewrite Z1 in Hx. rewrite Z2 in Hy. apply nth_error_In, repeat_spec in Hx, Hy. subst x y. split; [reflexivity|]. split; [reflexivity|]. rewrite Rminus_diag_eq, Rabs_R0 by reflexivity.
    assert (forall k, 0 < / 2 ^ k) as I by (intros j; apply Rinv_0_lt_compat, pow_lt; lra). unfold fir_noise, fir_noise_c. pose proof (I 16%nat). pose proof (I 118%nat). pose proof (I 22%nat). pose proof (I 124%nat).
    apply Rplus_le_le_0_compat; apply Rplus_le_le_0_compat; try (apply Rmult_le_pos); lra.
Qed.
Local Open Scope nat_scope.
Lemma stages_same : forall gs f m past planes data xs, twins f m past -> same_audio C ring data planes -> Forall (stage_suitable P S t rate C ring M tpk) gs ->
  exists f' m' past' planes' data' xs', ofold (rust_stage P S C cmap) (f, concat planes, xs) gs = Ret (f', concat planes', xs') /\ ofold (c_stage P t C ring codes) (m, data, xs) gs = Ret (m', data', xs') /\
    twins f' m' past' /\ same_audio C ring data' planes'.
Proof.
  induction gs as [|g gs IH]; intros f m past planes data xs HW HA HF; [exists f, m, past, planes, data, xs; auto|]. apply Forall_cons_iff in HF. destruct HF as (HE & HF). destruct g as [ev|w i].
  - destruct (event_same ev f m past planes data HW HA HE) as (f1 & m1 & past1 & planes1 & data1 & R1 & R2 & R3 & R4). cbn [ofold rust_stage c_stage fst snd]. rewrite R1, R2. cbn [obind]. eapply IH; eauto.
  - destruct HE as (H1 & H2). assert (same_audio (length cmap) ring data planes) as HA' by (rewrite Hmap; exact HA).
    destruct (gating_same w data planes ring cmap codes i ltac:(lia) HA' Hcodes HL H1 H2) as (v & V1 & V2). rewrite Hmap in V2. cbn [ofold rust_stage c_stage fst snd]. rewrite V1, V2. cbn [obind]. eapply IH; eauto.
Qed.
Lemma chain_same sp us max planes data gs : is_64bit P -> powf_contract E -> sort_contract E -> bsearch_contract E -> qsort_contract L -> same_pow E L -> same_tan E L -> regenerates E -> log10_accurate E -> log_accurate L ->
  (0 < rate)%N -> (1 <= max)%N -> same_audio C ring data planes -> Forall (stage_suitable P S t rate C ring M tpk) gs ->
  exists f0 f m planes' data' xs, filter_new E rate C sp tpk = Ret f0 /\
    ofold (rust_stage P S C cmap) (f0, concat planes, []) gs = Ret (f, concat planes', xs) /\
    ofold (c_stage P t C ring codes) (meter_create_c L rate C sp tpk, data, []) gs = Ret (m, data', xs) /\
    (no_nan xs -> (N.of_nat (length (List.filter measurable xs)) <= small_count)%N ->
     exists h hc g gc th thc r rc, record_all (history_new us max) xs = Ret h /\ recorded_c L us max xs = Ret hc /\
      gated_loudness P E h = Ret g /\ history_gated_loudness_c L (history_init_c L) hc = Ret gc /\ same_reading g gc /\
      history_relative_threshold P E h = th /\ history_relative_threshold_c L (history_init_c L) hc = Ret thc /\ same_reading th thc /\
      history_loudness_range P E h = Ret r /\ history_loudness_range_c P L (history_init_c L) hc = Ret rc /\ same_reading r rc).
Proof.
  intros H64 E1 E2 E3 E4 Hpow Htan E5 E6 E7 Hr Hmax HA HF. destruct (twins_create sp Hpow Htan Hr HC) as (f0 & Hn & HW).
  destruct (stages_same gs f0 _ [] planes data [] HW HA HF) as (f & m & past & planes' & data' & xs & R1 & R2 & _ & _).
  exists f0, f, m, planes', data', xs. split; auto. split; auto. split; auto. intros N1 N2. apply close_histories; auto.
Qed.
End filters.
