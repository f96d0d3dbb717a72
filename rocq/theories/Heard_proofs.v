(** The weighting filter at work in an analyzer: rounding as noise. *)
From Coq Require Import List Arith NArith ZArith Bool Lia Reals Lra.
From Flocq Require Import IEEE754.BinarySingleNaN.
From Verif Require Import Prelude Float Env Utils Filter Ebur128 Spec Filter_proofs Ebur128_proofs Ops_proofs Input_proofs Stream_proofs Loud_proofs Reach_proofs Trace_proofs Parallel_proofs Capi_proofs
  Spec_real Spec_filter Spec_coeff Coeff_proofs Noise_proofs.
Import ListNotations.
Local Open Scope R_scope.

(** * Coefficients of an analyzer *)
Lemma reachable_coefficients P E e : is_64bit P -> reachable P E e -> (f_b (e_filter e), f_a (e_filter e)) = filter_coefficients E (f64_of_N (e_rate e)).
Proof.
  intros HP HR. destruct (reachable_ok P E e HP HR) as (g & L & (H & _)). apply (i_filter _ _ _ _ _ H).
Qed.

(** * Pieces *)
Fixpoint through (P : platform) (E : ext) (rate : N) (ks : list nat) (memory : arr5 f64) (xs : list reading) : arr5 f64 * list f64 :=
  match ks with
  | [] => (memory, [])
  | k :: ks => let '(m1, ys) := weigh P E rate memory (firstn k xs) in
               let '(m2, zs) := through P E rate ks m1 (skipn k xs) in (m2, ys ++ zs)
  end.
Lemma pieces_through P E e c ch : nth_error (e_cmap e) c = Some ch -> unused ch = false -> forall ks t cols tr xs,
  nth_error t c = Some tr -> nth_error cols c = Some xs ->
  nth_error (tape_pieces P E e ks t cols) c = Some (fst (through P E (e_rate e) ks (fst tr) xs), snd tr ++ snd (through P E (e_rate e) ks (fst tr) xs)).
Proof.
  intros Hc Hu. induction ks as [|k ks IH]; intros t cols tr xs Ht Hx; cbn [tape_pieces through fst snd].
  - rewrite app_nil_r. rewrite Ht. now destruct tr.
  - rewrite (IH _ _ (track_after P E e ch tr (firstn k xs)) (skipn k xs)).
    + unfold track_after. rewrite Hu. destruct (weigh P E (e_rate e) (fst tr) (firstn k xs)) as (m1, ys). cbn [fst snd].
      destruct (through P E (e_rate e) ks m1 (skipn k xs)) as (m2, zs). cbn [fst snd]. now rewrite app_assoc.
    + apply per_channel_nth; auto. now apply map_nth_error.
    + now apply map_nth_error.
Qed.
Lemma pieces_sum s : (1 <= s)%nat -> forall fuel n m, (m <= fuel)%nat -> list_sum (pieces fuel s n m) = m.
Proof.
  intros Hs. induction fuel as [|fuel IH]; intros n m Hm; cbn [pieces]; [cbn; lia|].
  destruct (Nat.eqb_spec m 0) as [->|]; [reflexivity|]. pose proof (next_block_gt s n Hs). set (k := (next_block s n - n)%nat) in *.
  destruct (Nat.leb_spec k m); cbn [list_sum fold_right]; [|lia]. change (k + list_sum (pieces fuel s (n + k) (m - k)) = m)%nat. rewrite IH by lia. lia.
Qed.
Lemma through_length P E rate : forall ks m xs, list_sum ks = length xs -> length (snd (through P E rate ks m xs)) = length xs.
Proof.
  induction ks as [|k ks IH]; intros m xs HL; cbn [through].
  - destruct xs; [reflexivity|discriminate HL].
  - change (k + list_sum ks = length xs)%nat in HL. unfold weigh. destruct (filter_coefficients E (f64_of_N rate)) as (b, a).
    pose proof (filter_run_length (ar64_ftz P) b a (map r_64 (firstn k xs)) m) as RL.
    destruct (filter_run (ar64_ftz P) b a m (map r_64 (firstn k xs))) as (st1, ys). cbn [snd] in RL.
    specialize (IH (flush_state P st1) (skipn k xs)). destruct (through P E rate ks (flush_state P st1) (skipn k xs)) as (st2, zs). cbn [snd] in *.
    rewrite app_length, RL, map_length, firstn_length, IH by (rewrite skipn_length; lia). rewrite skipn_length. lia.
Qed.
Lemma through_noise P E rate b a B A W : filter_coefficients E (f64_of_N rate) = (b, a) -> close5 b B -> close5 a A -> forall ks st S xs,
  list_sum ks = length xs -> cells P st S -> largest st <= W ->
  Forall (fun y => is_finite y = true) (snd (through P E rate ks st xs)) -> bounded W (map r_64 xs) -> bounded W (kept_pieces P E rate ks st xs) ->
  run_ok P B A W S (map r_64 xs) (snd (through P E rate ks st xs)) (fst (through P E rate ks st xs)) /\ largest (fst (through P E rate ks st xs)) <= W.
Proof.
  intros Hba HB HA. induction ks as [|k ks IH]; intros st S xs HL HC HM F HX HK.
  - destruct xs; [|discriminate HL]. split; auto. exists [], []. cbn. auto 7.
  - cbn [kept_pieces] in HK. rewrite Hba in HK. unfold bounded in HK. apply Forall_app in HK. destruct HK as (K1 & K2).
    rewrite <- (firstn_skipn k xs) in HX at 1. rewrite map_app in HX. apply Forall_app in HX. destruct HX as (X1 & X2).
    cbn [through] in *. unfold weigh in *. rewrite Hba in *.
    pose proof (run_noise P b a B A W HB HA (map r_64 (firstn k xs)) st S HC HM) as R.
    pose proof (filter_run_length (ar64_ftz P) b a (map r_64 (firstn k xs)) st) as RL.
    destruct (filter_run (ar64_ftz P) b a st (map r_64 (firstn k xs))) as (st1, ys). cbn [fst snd] in *.
    specialize (fun S' => IH (flush_state P st1) S' (skipn k xs)).
    destruct (through P E rate ks (flush_state P st1) (skipn k xs)) as (st2, zs). cbn [fst snd] in *.
    apply Forall_app in F. destruct F as (F1 & F2). destruct (R F1 X1 K1) as (R1 & L1).
    assert (list_sum ks = length (skipn k xs)) as HL2 by (rewrite skipn_length; cbn [list_sum fold_right] in HL; change (k + list_sum ks = length xs)%nat in HL; lia).
    assert (largest (flush_state P st1) <= W) as L2 by (eapply Rle_trans; [apply largest_flush|exact L1]).
    rewrite <- (firstn_skipn k xs) at 1. rewrite map_app. split.
    + apply (run_ok_app P B A W S _ _ (flush_state P st1)); auto using run_ok_flush. intros S' C'. apply (IH S'); auto.
    + destruct R1 as (ds & es & _ & _ & _ & _ & C1 & _). apply (IH _ HL2 (cells_flush _ _ _ C1) L2 F2 X2 K2).
Qed.

(** * Calls *)
Lemma heard_taped P E c e t xs ws : is_64bit P -> heard P E c e t xs ws -> taped P E e t.
Proof.
  intros HP. induction 1 as [channels rate m e Hn Hs Hc|e t xs ws r e' H IH Hs|e t xs ws a r e' cols H IH Ha Hs Hi Hu|e t xs ws o r e' H IH Ha Hs N1 N2 N3 N4 N5].
  - econstructor; eauto.
  - apply (taped_step P E e OpReset r e' t); auto. exact I.
  - apply (taped_step P E e (OpAdd a) r e' t); auto.
  - replace t with (tape_after P E e o t); [apply (taped_step P E e o r e' t); auto|].
    destruct o; cbn [tape_after]; auto; try congruence.
Qed.
Lemma taped_sizes P E e t : is_64bit P -> taped P E e t -> length t = e_channels e /\ length (e_cmap e) = e_channels e /\ (1 <= hop e)%nat.
Proof.
  intros HP HT. destruct (taped_ok P E e t HP HT) as (g & L & (H & _ & _) & (Y & _)). pose proof (inv_s_pos _ _ _ _ _ H) as Hs. rewrite <- (hop_s _ _ _ _ _ H) in Hs.
  split; [apply Y|]. split; [apply (i_cmap _ _ _ _ _ H)|lia].
Qed.
Section Noise.
Variables (P : platform) (E : ext) (c : nat).
Hypothesis HP : is_64bit P.
Definition track_ok (e : ebur128) (t : list track) (xs ws : list f64) : Prop := exists memory ys,
  nth_error t c = Some (memory, ys) /\ length ys = length xs /\ forall b a B A W, filter_coefficients E (f64_of_N (e_rate e)) = (b, a) -> close5 b B -> close5 a A -> 0 <= W ->
    Forall (fun y => is_finite y = true) ys -> bounded W xs -> bounded W ws -> run_ok P B A W rest xs ys memory /\ largest memory <= W.
Lemma blank_ok e n : (c < n)%nat -> track_ok e (blank n) [] [].
Proof.
  intros Hc. exists zero5, []. split; [apply nth_error_repeat; auto|]. split; auto. intros b a B A W _ _ _ HW _ _ _. split.
  - exists [], []. cbn. do 4 (split; [auto|]). split; auto. unfold cells, cell, zero5. cbn. auto 9.
  - unfold largest, zero5. cbn [v1 v2 v3 v4]. change (real f64_zero) with 0. rewrite Rabs_R0. repeat apply Rmax_lub; exact HW.
Qed.
Lemma heard_ok e t xs ws : heard P E c e t xs ws -> track_ok e t xs ws.
Proof.
  intros H. pose proof (heard_taped P E c e t xs ws HP H) as HT. revert HT.
  induction H as [channels rate m e Hn Hs Hc|e t xs ws r e' H IH Hs|e t xs ws a r e' cols H IH Ha Hs Hi Hu|e t xs ws o r e' H IH Ha Hs N1 N2 N3 N4 N5]; intros HT.
  - now apply blank_ok.
  - pose proof (heard_taped P E c e t xs ws HP H) as HT0. destruct (taped_sizes P E e t HP HT0) as (Z1 & Z2 & Z3). apply blank_ok. rewrite <- Z1.
    destruct (IH HT0) as (m & ys & Hm & _). apply nth_error_Some. congruence.
  - pose proof (heard_taped P E c e t xs ws HP H) as HT0. destruct (taped_sizes P E e t HP HT0) as (Z1 & Z2 & Z3).
    destruct (IH HT0) as (m & ys & Hm & HL & HF). assert (c < e_channels e)%nat as Hc by (rewrite <- Z1; apply nth_error_Some; congruence).
    destruct (nth_error (e_cmap e) c) as [ch|] eqn:Ec; [|apply nth_error_None in Ec; lia]. rewrite (nth_of_error _ _ _ Unused Ec) in Hu.
    assert (unused ch = false) as Hu' by (destruct ch; auto; congruence).
    destruct (taped_ok P E e t HP HT0) as (g & L & HG & HO). pose proof (input_cases_ok P E e g L a HG (admissible_op_ok _ _ Ha)) as Hic. rewrite Hi in Hic. destruct Hic as ((Hc1 & Hc2) & _).
    destruct (nth_error cols c) as [col|] eqn:Ecol; [|apply nth_error_None in Ecol; lia].
    rewrite (nth_of_error _ _ _ [] Ecol). rewrite (nth_of_error t c (m, ys) _ Hm). cbn [fst].
    assert (length col = frames_of cols) as Hlen by (rewrite Forall_forall in Hc2; apply Hc2; eapply nth_error_In; eauto).
    set (ks := pieces (frames_of cols) (hop e) (frames_of (signals t)) (frames_of cols)) in *.
    pose proof (pieces_through P E e c ch Ec Hu' ks t cols (m, ys) col Hm Ecol) as HN. cbn [fst snd] in HN.
    assert (list_sum ks = length col) as Hks by (rewrite Hlen; apply pieces_sum; auto).
    destruct (kept_config P E e _ r e' HP (taped_reachable _ _ _ _ HT0) Ha Hs ltac:(discriminate)) as (_ & ER).
    exists (fst (through P E (e_rate e) ks m col)), (ys ++ snd (through P E (e_rate e) ks m col)). split; [|split].
    + cbn [tape_after]. rewrite Hi. exact HN.
    + rewrite !app_length, HL, map_length. f_equal. now apply through_length.
    + rewrite ER. intros b a0 B A W Hba HB HA HW F HX HK. apply Forall_app in F. destruct F as (F1 & F2).
      apply Forall_app in HX. destruct HX as (X1 & X2). apply Forall_app in HK. destruct HK as (K1 & K2).
      destruct (HF b a0 B A W Hba HB HA HW F1 X1 K1) as (R1 & L1). split.
      * apply (run_ok_app P B A W rest _ _ m); auto. intros S' C'. apply (through_noise P E (e_rate e) b a0 B A W Hba HB HA); auto.
      * destruct R1 as (ds & es & _ & _ & _ & _ & C1 & _). apply (through_noise P E (e_rate e) b a0 B A W Hba HB HA ks m _ col Hks C1 L1 F2 X2 K2).
  - pose proof (heard_taped P E c e t xs ws HP H) as HT0. destruct (kept_config P E e _ r e' HP (taped_reachable _ _ _ _ HT0) Ha Hs N5) as (_ & ER).
    unfold track_ok. rewrite ER. apply IH, HT0.
Qed.
End Noise.

Lemma filter_sum b a : forall xs ds s t, length ds = length xs ->
  filter_run arR b a {| v0 := v0 s + v0 t; v1 := v1 s + v1 t; v2 := v2 s + v2 t; v3 := v3 s + v3 t; v4 := v4 s + v4 t |} (map2 Rplus xs ds) =
  let S := fst (filter_run arR b a s xs) in let T := fst (filter_run arR b a t ds) in
  ({| v0 := v0 S + v0 T; v1 := v1 S + v1 T; v2 := v2 S + v2 T; v3 := v3 S + v3 T; v4 := v4 S + v4 T |},
   map2 Rplus (snd (filter_run arR b a s xs)) (snd (filter_run arR b a t ds))).
Proof.
  induction xs as [|x xs IH]; intros [|d ds] s t HL; try discriminate HL; [reflexivity|]. cbn [map2 filter_run].
  assert (filter_step arR b a {| v0 := v0 s + v0 t; v1 := v1 s + v1 t; v2 := v2 s + v2 t; v3 := v3 s + v3 t; v4 := v4 s + v4 t |} (x + d) =
    let S := fst (filter_step arR b a s x) in let T := fst (filter_step arR b a t d) in
    ({| v0 := v0 S + v0 T; v1 := v1 S + v1 T; v2 := v2 S + v2 T; v3 := v3 S + v3 T; v4 := v4 S + v4 T |}, snd (filter_step arR b a s x) + snd (filter_step arR b a t d))) as ->.
  { unfold filter_step. cbn [fst snd v0 v1 v2 v3 v4 ar_add ar_mul ar_sub arR]. f_equal; [f_equal|]; ring. }
  destruct (filter_step arR b a s x) as (s1, y). destruct (filter_step arR b a t d) as (t1, z). cbn [fst snd]. cbv zeta. rewrite IH by (cbn in HL; congruence). cbv zeta.
  destruct (filter_run arR b a s1 xs) as (s2, ys). destruct (filter_run arR b a t1 ds) as (t2, zs). reflexivity.
Qed.
Lemma outputs_sum b a xs ds : length ds = length xs -> outputsR b a (map2 Rplus xs ds) = map2 Rplus (outputsR b a xs) (outputsR b a ds).
Proof.
  intros HL. unfold outputsR. pose proof (filter_sum b a xs ds rest rest HL) as H. cbn [v0 v1 v2 v3 v4 rest] in H. rewrite !Rplus_0_l in H. change (filter_run arR b a {| v0 := 0; v1 := 0; v2 := 0; v3 := 0; v4 := 0 |}) with (filter_run arR b a rest) in H.
  cbv zeta in H. rewrite H. reflexivity.
Qed.
Lemma heard_noise P E c e t xs ws W : is_64bit P -> tan_accurate E -> powf_accurate E -> heard P E c e t xs ws -> (6728 <= e_rate e)%N -> 0 <= W ->
  Forall (fun y => is_finite y = true) (nth c (signals t) []) -> Forall (fun x => Rabs (real x) <= W) xs -> Forall (fun w => Rabs (real w) <= W) ws ->
  let (b, a) := coefficientsR (coeff_inputsR (IZR (Z.of_N (e_rate e)))) in
  exists ds es, length ds = length xs /\ length es = length xs /\ length (nth c (signals t) []) = length xs /\
    Forall (fun d => Rabs d <= noise P W) ds /\ Forall (fun d => Rabs d <= noise P W) es /\
    outputsR b a (map2 Rplus (map real xs) ds) = map2 Rminus (map real (nth c (signals t) [])) es.
Proof.
  intros HP HT HW' H Hr HW F HX HK. destruct (coefficientsR (coeff_inputsR (IZR (Z.of_N (e_rate e))))) as (B, A) eqn:ER.
  destruct (filter_coefficients E (f64_of_N (e_rate e))) as (b, a) eqn:EF.
  assert (fair_rate (e_rate e)) as FR.
  { split; auto. destruct (taped_ok P E e t HP (heard_taped P E c e t xs ws HP H)) as (g & L & (I & _) & _). apply (i_rate _ _ _ _ _ I). }
  destruct (coefficients_off E (e_rate e) HT HW' FR) as (CB & CA). rewrite EF, ER in *. cbn [fst snd] in *.
  destruct (heard_ok P E c HP e t xs ws H) as (m & ys & Hm & HL & HR).
  assert (nth c (signals t) [] = ys) as EY. { unfold signals. apply (map_nth_error snd) in Hm. exact (nth_of_error _ _ _ [] Hm). }
  rewrite EY in *. destruct (HR b a B A W EF CB CA HW F HX HK) as ((ds & es & L1 & L2 & ND & NE & _ & EQ) & _). exists ds, es. auto 8.
Qed.
Lemma nth_map2 (f : R -> R -> R) l m n : length l = length m -> (n < length l)%nat -> nth n (map2 f l m) 0 = f (nth n l 0) (nth n m 0).
Proof. revert m n. induction l as [|x l IH]; intros [|y m] [|n] H1 H2; cbn in *; try lia; auto. apply IH; lia. Qed.
Lemma noise_nonneg P W : 0 <= W -> 0 <= noise P W.
Proof.
  intros HW. unfold noise. assert (0 <= / 2 ^ 34 * W) by (apply Rmult_le_pos; lra). assert (0 < / 2 ^ 1000) by (apply Rinv_0_lt_compat, pow_lt; lra).
  assert (0 < / 2 ^ 43) by (apply Rinv_0_lt_compat, pow_lt; lra). destruct (p_ftz P); lra.
Qed.
Lemma heard_error rate : (6728 <= rate)%N -> exists G, forall P E c e t xs ws W, is_64bit P -> tan_accurate E -> powf_accurate E -> heard P E c e t xs ws -> e_rate e = rate -> 0 <= W ->
  Forall (fun y => is_finite y = true) (nth c (signals t) []) -> Forall (fun x => Rabs (real x) <= W) xs -> Forall (fun w => Rabs (real w) <= W) ws ->
  let (b, a) := coefficientsR (coeff_inputsR (IZR (Z.of_N rate))) in
  forall n, (n < length xs)%nat -> Rabs (real (nth n (nth c (signals t) []) f64_zero) - nth n (outputsR b a (map real xs)) 0) <= G * noise P W.
Proof.
  intros Hr. assert (3364 <= IZR (Z.of_N rate)) as H3 by (apply IZR_le; lia). pose proof (Kweight_proofs.stable_from_3364 _ H3) as HS.
  destruct (coefficientsR (coeff_inputsR (IZR (Z.of_N rate)))) as (b, a) eqn:ER. destruct HS as (G & HG). exists (G + 1).
  intros P E c e t xs ws W HP HT HW' H <- HW F HX HK n Hn. pose proof (heard_noise P E c e t xs ws W HP HT HW' H Hr HW F HX HK) as HN. rewrite ER in HN.
  destruct HN as (ds & es & L1 & L2 & L3 & ND & NE & EQ). rewrite outputs_sum in EQ by (rewrite map_length; congruence). set (ys := nth c (signals t) []) in *.
  assert (length (outputsR b a (map real xs)) = length xs) as LX by (unfold outputsR; rewrite filter_run_length, map_length; reflexivity).
  assert (length (outputsR b a ds) = length xs) as LD by (unfold outputsR; rewrite filter_run_length; congruence).
  apply (f_equal (fun l => nth n l 0)) in EQ. rewrite !nth_map2 in EQ by (rewrite ?map_length; lia).
  rewrite (nth_indep (map real ys) 0 (real f64_zero)) in EQ by (rewrite map_length; lia). rewrite (map_nth real) in EQ.
  assert (Rabs (nth n es 0) <= noise P W) as NE' by (rewrite Forall_forall in NE; apply NE, nth_In; lia).
  assert (Rabs (nth n (outputsR b a ds) 0) <= G * noise P W) as ND'.
  { apply (HG ds (noise P W)); [now apply noise_nonneg|now apply Forall_forall|apply nth_In; lia]. }
  replace (real (nth n ys f64_zero) - nth n (outputsR b a (map real xs)) 0) with (nth n (outputsR b a ds) 0 + nth n es 0) by lra.
  eapply Rle_trans; [apply Rabs_triang|]. lra.
Qed.
(** * C61 *)
Lemma analyzer_coefficients P E e : is_64bit P -> tan_accurate E -> powf_accurate E -> reachable P E e -> (6728 <= e_rate e)%N ->
  let (b, a) := coefficientsR (coeff_inputsR (IZR (Z.of_N (e_rate e)))) in
  all_finite (f_b (e_filter e)) /\ all_finite (f_a (e_filter e)) /\ all_close (/ 2 ^ 37) (f_b (e_filter e)) b /\ all_close (/ 2 ^ 37) (f_a (e_filter e)) a.
Proof.
  intros HP HT HW' H Hr. pose proof (reachable_coefficients P E e HP H) as EF. destruct (coefficientsR (coeff_inputsR (IZR (Z.of_N (e_rate e))))) as (B, A) eqn:ER.
  assert (fair_rate (e_rate e)) as FR. { split; auto. destruct (reachable_ok P E e HP H) as (g & L & (I & _)). apply (i_rate _ _ _ _ _ I). }
  destruct (coefficients_off E (e_rate e) HT HW' FR) as (CB & CA). rewrite <- EF, ER in *. cbn [fst snd] in *.
  assert (65536 * roundoff = / 2 ^ 37) as EU by (unfold roundoff; lra).
  assert (forall c C, close5 c C -> all_finite c /\ all_close (/ 2 ^ 37) c C) as HC.
  { intros c C ((F0 & D0 & _) & (F1 & D1 & _) & (F2 & D2 & _) & (F3 & D3 & _) & (F4 & D4 & _)). rewrite EU in *. unfold all_finite, all_close. auto 12. }
  destruct (HC _ _ CB), (HC _ _ CA). auto.
Qed.
(** * Linear and time-invariant *)
Lemma filter_scale b a k : forall xs s, filter_run arR b a {| v0 := k * v0 s; v1 := k * v1 s; v2 := k * v2 s; v3 := k * v3 s; v4 := k * v4 s |} (map (Rmult k) xs) =
  let S := fst (filter_run arR b a s xs) in
  ({| v0 := k * v0 S; v1 := k * v1 S; v2 := k * v2 S; v3 := k * v3 S; v4 := k * v4 S |}, map (Rmult k) (snd (filter_run arR b a s xs))).
Proof.
  induction xs as [|x xs IH]; intros s; [reflexivity|]. cbn [map filter_run].
  assert (filter_step arR b a {| v0 := k * v0 s; v1 := k * v1 s; v2 := k * v2 s; v3 := k * v3 s; v4 := k * v4 s |} (k * x) =
    let S := fst (filter_step arR b a s x) in
    ({| v0 := k * v0 S; v1 := k * v1 S; v2 := k * v2 S; v3 := k * v3 S; v4 := k * v4 S |}, k * snd (filter_step arR b a s x))) as ->.
  { unfold filter_step. cbn [fst snd v0 v1 v2 v3 v4 ar_add ar_mul ar_sub arR]. f_equal; [f_equal|]; ring. }
  destruct (filter_step arR b a s x) as (s1, y). cbn [fst snd]. cbv zeta. rewrite IH. cbv zeta. destruct (filter_run arR b a s1 xs) as (s2, ys). reflexivity.
Qed.
Lemma outputs_scale b a k xs : outputsR b a (map (Rmult k) xs) = map (Rmult k) (outputsR b a xs).
Proof.
  unfold outputsR. pose proof (filter_scale b a k xs rest) as H. cbn [v0 v1 v2 v3 v4 rest] in H. rewrite !Rmult_0_r in H. change (filter_run arR b a {| v0 := 0; v1 := 0; v2 := 0; v3 := 0; v4 := 0 |}) with (filter_run arR b a rest) in H.
  cbv zeta in H. rewrite H. reflexivity.
Qed.
Lemma outputs_delay b a k xs : outputsR b a (repeat 0 k ++ xs) = repeat 0 k ++ outputsR b a xs.
Proof.
  assert (filter_step arR b a rest 0 = (rest, 0)) as E0.
  { unfold filter_step, rest. cbn [v0 v1 v2 v3 v4 ar_add ar_mul ar_sub arR]. f_equal; [f_equal|]; ring. }
  unfold outputsR. induction k as [|k IH]; [reflexivity|]. cbn [repeat app filter_run]. rewrite E0. destruct (filter_run arR b a rest (repeat 0 k ++ xs)) as (st, ys). cbn [snd] in *. now rewrite IH.
Qed.
Lemma outputs_causal b a xs ys : firstn (length xs) (outputsR b a (xs ++ ys)) = outputsR b a xs.
Proof.
  rewrite Kweight_proofs.outputs_app. assert (length (outputsR b a xs) = length xs) as <- by (unfold outputsR; apply filter_run_length). now rewrite firstn_app, firstn_all, Nat.sub_diag, firstn_O, app_nil_r.
Qed.
