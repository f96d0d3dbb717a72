(** Readings against the exact measurement of the input. *)
From Coq Require Import List Arith NArith ZArith Bool Lia Reals Lra Psatz.
From Flocq Require Import Core IEEE754.BinarySingleNaN.
From Verif Require Import Prelude Float Env Utils Filter Ebur128 Spec Float_proofs Filter_proofs Ebur128_proofs Ops_proofs Input_proofs Stream_proofs Loud_proofs Feed_proofs Reach_proofs Trace_proofs Parallel_proofs Capi_proofs
  Spec_real Spec_filter Spec_coeff Spec_accuracy Spec_history Spec_exact Accuracy_proofs Lufs_proofs Programme_proofs Kweight_proofs Coeff_proofs Noise_proofs Heard_proofs Tight_proofs Bound_proofs Follow_proofs Rms_proofs Value_proofs Energy_proofs.
Import ListNotations.
Import Spec_history.
Local Open Scope R_scope.

(** * Signals of an analyzer *)
Section Signals.
Variables (P : platform) (E : ext) (c : nat).
Hypothesis HP : is_64bit P.
Hypothesis HT : tan_precise E.
Hypothesis HW : powf_accurate E.
Lemma through_good rate M W b a : audio_rate rate -> filter_coefficients E (f64_of_N rate) = (b, a) -> 0 <= M -> W <= 2 ^ 900 -> (M + noise_a P W) * swell rate <= W -> forall ks st xs ys zs,
  list_sum ks = length zs -> good P rate M W xs ys st -> samples_below M (map r_64 zs) ->
  good P rate M W (xs ++ map r_64 zs) (ys ++ snd (through P E rate ks st zs)) (fst (through P E rate ks st zs)).
Proof.
  intros HR Hba HM HW1 HW2. destruct (coefficients_sharp E rate HT HW HR) as (SB & SA). rewrite Hba in SB, SA. cbn [fst snd] in SB, SA.
  induction ks as [|k ks IH]; intros st xs ys zs HL G HX.
  - destruct zs; [|discriminate HL]. cbn [through fst snd map]. now rewrite !app_nil_r.
  - rewrite <- (firstn_skipn k zs) in HX at 1. rewrite map_app in HX. apply Forall_app in HX. destruct HX as (X1 & X2).
    cbn [through]. unfold weigh. rewrite Hba.
    pose proof (good_run P b a rate M W HR SB SA HM HW1 HW2 (map r_64 (firstn k zs)) xs ys st G X1) as G1.
    destruct (filter_run (ar64_ftz P) b a st (map r_64 (firstn k zs))) as (st1, ys1). cbn [fst snd] in G1. apply good_flush in G1.
    assert (list_sum ks = length (skipn k zs)) as HL2 by (rewrite skipn_length; change (k + list_sum ks = length zs)%nat in HL; lia).
    specialize (IH (flush_state P st1) _ _ (skipn k zs) HL2 G1 X2). destruct (through P E rate ks (flush_state P st1) (skipn k zs)) as (st2, ys2). cbn [fst snd] in *.
    rewrite <- (firstn_skipn k zs) at 1. rewrite map_app, !app_assoc. exact IH.
Qed.
Lemma heard_good e t xs ws : heard P E c e t xs ws -> audio_rate (e_rate e) -> exists memory ys, nth_error t c = Some (memory, ys) /\
  forall M W, 0 <= M -> W <= 2 ^ 900 -> (M + noise_a P W) * swell (e_rate e) <= W -> samples_below M xs -> good P (e_rate e) M W xs ys memory.
Proof.
  intros H. pose proof (heard_taped P E c e t xs ws HP H) as HTa. revert HTa.
  assert (forall e n, (c < n)%nat -> exists memory ys, nth_error (blank n) c = Some (memory, ys) /\
    forall M W, 0 <= M -> W <= 2 ^ 900 -> (M + noise_a P W) * swell (e_rate e) <= W -> samples_below M [] -> good P (e_rate e) M W [] ys memory) as Blank.
  { intros e0 n Hc. exists zero5, []. split; [apply nth_error_repeat; auto|]. intros. apply good_start. }
  induction H as [channels rate m e Hn Hs Hc|e t xs ws r e' H IH Hs|e t xs ws a r e' cols H IH Ha Hs Hi Hu|e t xs ws o r e' H IH Ha Hs N1 N2 N3 N4 N5]; intros HTa HR.
  - now apply Blank.
  - pose proof (heard_taped P E c e t xs ws HP H) as HT0. destruct (taped_sizes P E e t HP HT0) as (Z1 & Z2 & Z3). apply Blank. rewrite <- Z1.
    destruct (heard_ok P E c HP e t xs ws H) as (m & ys & Hm & _). apply nth_error_Some. congruence.
  - pose proof (heard_taped P E c e t xs ws HP H) as HT0. destruct (taped_sizes P E e t HP HT0) as (Z1 & Z2 & Z3).
    destruct (kept_config P E e _ r e' HP (taped_reachable _ _ _ _ HT0) Ha Hs ltac:(discriminate)) as (_ & ER). rewrite ER in *.
    destruct (IH HT0 HR) as (m & ys & Hm & HF). assert (c < e_channels e)%nat as Hc by (rewrite <- Z1; apply nth_error_Some; congruence).
    destruct (nth_error (e_cmap e) c) as [ch|] eqn:Ec; [|apply nth_error_None in Ec; lia]. rewrite (nth_of_error _ _ _ Unused Ec) in Hu.
    assert (unused ch = false) as Hu' by (destruct ch; auto; congruence).
    destruct (taped_ok P E e t HP HT0) as (g & L & HG & HO). pose proof (input_cases_ok P E e g L a HG (admissible_op_ok _ _ Ha)) as Hic. rewrite Hi in Hic. destruct Hic as ((Hc1 & Hc2) & _).
    destruct (nth_error cols c) as [col|] eqn:Ecol; [|apply nth_error_None in Ecol; lia].
    rewrite (nth_of_error _ _ _ [] Ecol).
    assert (length col = frames_of cols) as Hlen by (rewrite Forall_forall in Hc2; apply Hc2; eapply nth_error_In; eauto).
    set (ks := pieces (frames_of cols) (hop e) (frames_of (signals t)) (frames_of cols)) in *.
    pose proof (pieces_through P E e c ch Ec Hu' ks t cols (m, ys) col Hm Ecol) as HN. cbn [fst snd] in HN.
    assert (list_sum ks = length col) as Hks by (rewrite Hlen; apply pieces_sum; auto).
    exists (fst (through P E (e_rate e) ks m col)), (ys ++ snd (through P E (e_rate e) ks m col)). split.
    + cbn [tape_after]. rewrite Hi. exact HN.
    + intros M W HM HW1 HW2 HX. apply Forall_app in HX. destruct HX as (X1 & X2).
      destruct (filter_coefficients E (f64_of_N (e_rate e))) as (b, a0) eqn:EF. apply (through_good (e_rate e) M W b a0); auto.
  - pose proof (heard_taped P E c e t xs ws HP H) as HT0. destruct (kept_config P E e _ r e' HP (taped_reachable _ _ _ _ HT0) Ha Hs N5) as (_ & ER).
    rewrite ER in *. apply IH; auto.
Qed.
Lemma heard_exact e t xs ws M : heard P E c e t xs ws -> audio_rate (e_rate e) -> 0 <= M <= 2 ^ 400 -> samples_below M xs ->
  let ys := nth c (signals t) [] in
  Forall2 (fun y Y => is_finite y = true /\ Rabs (real y - Y) <= filter_error P (e_rate e) M /\ Rabs Y <= 19.5 * M) ys (weighted (e_rate e) xs).
Proof.
  intros H HR HM HX ys. destruct (heard_good e t xs ws H HR) as (m & ys' & Hm & HG).
  assert (ys = ys') as EY. { unfold ys, signals. apply (map_nth_error snd) in Hm. exact (nth_of_error _ _ _ [] Hm). }
  destruct (room_ok P (e_rate e) M HR HM) as (R1 & R2 & R3). set (W := room P (e_rate e) M) in *.
  pose proof (HG M W ltac:(lra) R1 R2 HX) as G. rewrite <- EY in G. pose proof (follows_near P (e_rate e) M W HR ltac:(lra) R2 xs ys m G) as HN. destruct G as (GL & _ & GF & _).
  unfold weighted. pose proof (output_19 (e_rate e) HR (map real xs) M ltac:(lra)) as HO.
  destruct (coefficientsR (coeff_inputsR (IZR (Z.of_N (e_rate e))))) as (B, A). cbn [fst snd] in *.
  assert (length (outputsR B A (map real xs)) = length ys) as LX by (unfold outputsR; rewrite filter_run_length, map_length; congruence).
  assert (forall x, In x (map real xs) -> Rabs x <= M) as HXR.
  { intros x Hx. apply in_map_iff in Hx. destruct Hx as (z & <- & Hz). unfold samples_below in HX. rewrite Forall_forall in HX. now apply HX. }
  specialize (HO HXR). rewrite <- GL in HN. revert HN GF HO LX. generalize (outputsR B A (map real xs)). clear - R3. clearbody ys. generalize ys. clear ys.
  induction ys as [|y ys IH]; intros [|Y l] HN GF HO LX; try discriminate LX; constructor.
  - split; [now inversion GF|]. split; [|apply HO; now left]. specialize (HN 0%nat ltac:(cbn; lia)). cbn [nth] in HN. lra.
  - apply IH; [|now inversion GF|intros z Hz; apply HO; now right|cbn in LX; congruence]. intros n Hn. specialize (HN (S n) ltac:(cbn; lia)). exact HN.
Qed.
End Signals.

(** * Energies *)
Definition near_channel (P : platform) (rate : N) (M : R) (y : f64) (Y : R) : Prop :=
  is_finite y = true /\ Rabs (real y - Y) <= filter_error P rate M /\ Rabs Y <= 19.5 * M.
Lemma recentR_map w ys : map real (recent w ys) = recentR w (map real ys).
Proof.
  unfold recent, recentR. rewrite map_length, <- skipn_map, map_app. f_equal. f_equal. induction w; cbn; auto. now f_equal.
Qed.
Lemma recentR_length w ys : length (recentR w ys) = w.
Proof. unfold recentR. rewrite skipn_length, app_length, repeat_length. lia. Qed.
Lemma Forall2_skipn {A B} (Q : A -> B -> Prop) n : forall l m, Forall2 Q l m -> Forall2 Q (skipn n l) (skipn n m).
Proof. induction n as [|n IH]; intros l m H; [exact H|]. destruct H; [constructor|]. now apply IH. Qed.
Lemma Forall2_length {A B} (Q : A -> B -> Prop) l m : Forall2 Q l m -> length l = length m.
Proof. induction 1; cbn; auto. Qed.
Lemma recentR_near eps w As Bs : 0 <= eps -> Forall2 (fun a b => Rabs (a - b) <= eps) As Bs -> Forall2 (fun a b => Rabs (a - b) <= eps) (recentR w As) (recentR w Bs).
Proof.
  intros He H. unfold recentR. rewrite (Forall2_length _ _ _ H). apply Forall2_skipn, Forall2_app; auto. clear H.
  induction w as [|w IH]; cbn [repeat]; constructor; auto. rewrite Rminus_0_r, Rabs_R0. exact He.
Qed.
Lemma filter_error_pos P rate M : 0 <= M -> 0 <= filter_error P rate M.
Proof.
  intros HM. unfold filter_error. assert (0 <= IZR (Z.of_N rate) / 48000) by (apply Rmult_le_pos; [apply IZR_le; lia|lra]).
  assert (0 <= (IZR (Z.of_N rate) / 48000) ^ 4) by now apply pow_le. assert (0 <= (if p_ftz P then / 2 ^ 1000 else / 2 ^ 43)) by (destruct (p_ftz P); left; apply Rinv_0_lt_compat, pow_lt; lra).
  assert (0 <= 4.2 / 10 ^ 6) by lra. assert (0 <= 4.2 / 10 ^ 6 * (IZR (Z.of_N rate) / 48000) ^ 4 * M) by (apply Rmult_le_pos; auto; now apply Rmult_le_pos). lra.
Qed.
Lemma filter_error_less P rate M : audio_rate rate -> 0 <= M -> filter_error P rate M <= M + 1.
Proof.
  intros (_ & HR) HM. unfold filter_error. assert (0 <= IZR (Z.of_N rate) / 48000 <= 16) as Hq. { assert (0 <= IZR (Z.of_N rate) <= 768000) by (split; apply IZR_le; lia). lra. }
  assert (0 <= (IZR (Z.of_N rate) / 48000) ^ 4 <= 16 ^ 4) as Hp by (split; [apply pow_le; lra|apply pow_incr; lra]). replace (16 ^ 4) with 65536 in Hp by (cbn; lra).
  assert ((if p_ftz P then / 2 ^ 1000 else / 2 ^ 43) <= 1) as Ht. { rewrite <- Rinv_1. destruct (p_ftz P); apply Rinv_le_contravar; try lra; apply pow_R1_Rle; lra. }
  set (p := _ ^ 4) in *. set (t := if p_ftz P then _ else _) in *. clearbody p t. assert (0 <= p * M <= 65536 * M) by (split; [apply Rmult_le_pos; lra|apply Rmult_le_compat_r; lra]). replace (4.2 / 10 ^ 6 * p * M) with (4.2 / 10 ^ 6 * (p * M)) by ring. lra.
Qed.
Lemma shape_recent k w roles ss : total (map (shape k) (combine roles (map (recentR w) ss))) = total (map (fun '(ch, ys) => weight ch * total (map (fun y => y * y) (recentR w ys))) (combine roles ss)) * k.
Proof.
  rewrite <- total_scale, map_map. f_equal. revert ss. induction roles as [|ch roles IH]; intros [|ys ss]; cbn [map combine]; auto. f_equal; auto.
Qed.
Lemma mean_real w roles ss : mean_square w roles ss = total (map (shape (/ INR w)) (combine roles (map (recentR w) (map (map real) ss)))).
Proof.
  rewrite shape_recent. unfold mean_square, Rdiv. f_equal. f_equal. revert ss. induction roles as [|ch roles IH]; intros [|ys ss]; cbn [map combine]; auto. f_equal; auto.
  f_equal. f_equal. rewrite <- recentR_map, map_map. reflexivity.
Qed.
(** the mean square of the last [w] values of some lists of numbers *)
Definition mean_of (w : nat) (roles : list Filter.channel) (Yss : list (list R)) : R :=
  total (map (fun '(ch, ys) => weight ch * total (map (fun y => y * y) (recentR w ys))) (combine roles Yss)) / INR w.
Lemma mean_shape w roles Yss : mean_of w roles Yss = total (map (shape (/ INR w)) (combine roles (map (recentR w) Yss))).
Proof. rewrite shape_recent. reflexivity. Qed.
Lemma exact_mean_of rate w roles xss : exact_mean_square rate w roles xss = mean_of w roles (map (weighted rate) xss).
Proof.
  unfold exact_mean_square, mean_of, Rdiv. f_equal. f_equal. revert xss. induction roles as [|ch roles IH]; intros [|ys ss]; cbn [map combine]; auto. f_equal; auto.
Qed.
Lemma exact_real rate w roles xss : exact_mean_square rate w roles xss = total (map (shape (/ INR w)) (combine roles (map (recentR w) (map (weighted rate) xss)))).
Proof. rewrite exact_mean_of. apply mean_shape. Qed.
Lemma nth_map_nil {A B} (f : list A -> list B) (l : list (list A)) c : f [] = [] -> nth c (map f l) [] = f (nth c l []).
Proof. intros H. rewrite <- H at 1. apply map_nth. Qed.
Lemma weighted_nil rate : weighted rate [] = [].
Proof. unfold weighted. now destruct (coefficientsR _). Qed.
Lemma roots_near_of P rate M w roles ss Yss : 0 <= M -> (1 <= w)%nat -> length ss = length roles -> length Yss = length roles ->
  (forall c, (c < length roles)%nat -> nth c roles Unused <> Unused -> Forall2 (near_channel P rate M) (nth c ss []) (nth c Yss [])) ->
  Rabs (sqrt (mean_square w roles ss) - sqrt (mean_of w roles Yss)) <= rms_error P rate M roles.
Proof.
  intros HM Hw LS LX H. pose proof (filter_error_pos P rate M HM) as He. assert (1 <= INR w) as HW by (replace 1 with (INR 1) by reflexivity; now apply le_INR).
  assert (0 < / INR w) as HI by (apply Rinv_0_lt_compat; lra).
  destruct (all_channels (/ INR w) (filter_error P rate M) w ltac:(lra) roles (map (recentR w) (map (map real) ss)) (map (recentR w) Yss)) as (T & N & EA & EB & EC).
  - now rewrite !map_length.
  - now rewrite !map_length.
  - intros c Hc Hu. specialize (H c Hc Hu).
    rewrite (nth_indep (map (recentR w) (map (map real) ss)) [] (recentR w [])) by (rewrite !map_length; lia). rewrite (map_nth (recentR w)), (nth_map_nil (map real)) by auto.
    rewrite (nth_indep (map (recentR w) Yss) [] (recentR w [])) by (rewrite !map_length; lia). rewrite (map_nth (recentR w)).
    split; [apply recentR_length|]. apply recentR_near; auto. revert H. generalize (nth c ss []) (nth c Yss []). clear. induction 1 as [|y Y l m (_ & B & _) _ IH]; cbn [map]; constructor; auto.
  - rewrite mean_real, mean_shape, <- EA, <- EB. eapply Rle_trans; [now apply minkowski|]. unfold rms_error.
    assert (0 <= total (map weight roles)) as TW. { apply total_nonneg. rewrite Forall_map. apply Forall_forall. intros ch _. apply weight_pos. }
    replace (filter_error P rate M) with (sqrt (filter_error P rate M * filter_error P rate M)) by (apply sqrt_square; auto). rewrite <- sqrt_mult by (auto; apply Rle_0_sqr). apply sqrt_le_1_alt.
    eapply Rle_trans; [exact EC|]. right. field. lra.
Qed.
Lemma roots_near P rate M w roles ss xss : 0 <= M -> (1 <= w)%nat -> length ss = length roles -> length xss = length roles ->
  (forall c, (c < length roles)%nat -> nth c roles Unused <> Unused -> Forall2 (near_channel P rate M) (nth c ss []) (weighted rate (nth c xss []))) ->
  Rabs (sqrt (mean_square w roles ss) - sqrt (exact_mean_square rate w roles xss)) <= rms_error P rate M roles.
Proof.
  intros HM Hw LS LX H. rewrite exact_mean_of. apply roots_near_of; auto; [now rewrite map_length|].
  intros c Hc Hu. rewrite (nth_map_nil (weighted rate)) by apply weighted_nil. auto.
Qed.
Lemma energy_good_of P rate M L w roles ss Yss : audio_rate rate -> 0 <= M <= 2 ^ 400 -> (1 <= w)%nat -> INR w <= 2 ^ 50 - 100 -> (length roles <= 64)%nat -> length ss = length roles ->
  (forall c, (c < length roles)%nat -> nth c roles Unused <> Unused -> Forall2 (near_channel P rate M) (nth c ss []) (nth c Yss [])) ->
  is_finite (energy L w roles ss) = true.
Proof.
  intros HR HM Hw HW HL LS H. pose proof (filter_error_less P rate M HR ltac:(lra)) as HE. assert (1 <= 2 ^ 400) as H1 by (apply pow_R1_Rle; lra).
  assert (2 ^ 820 = 2 ^ 20 * (2 ^ 400 * 2 ^ 400)) as E820 by (rewrite <- !pow_add; reflexivity). set (p := 2 ^ 400) in *. clearbody p.
  apply energy_fine with (X := 2 ^ 820); auto; [rewrite E820; nra|]. intros ch ys Hin Hu. apply In_nth with (d := (Unused, [])) in Hin. destruct Hin as (c & Hc & Hn).
  rewrite combine_length in Hc. rewrite combine_nth in Hn by auto. injection Hn as E1 E2. specialize (H c ltac:(lia)). rewrite E1, E2 in H. specialize (H Hu).
  revert H. generalize (nth c Yss []). clear - HE H1 E820 HM. intros Ys. induction 1 as [|y Y l m (F & B & K) _ IH]; constructor; auto. split; auto. rewrite E820.
  assert (Rabs (real y) <= 22 * p) as HY. { replace (real y) with ((real y - Y) + Y) by ring. eapply Rle_trans; [apply Rabs_triang|]. lra. }
  apply Rabs_le_inv in HY. nra.
Qed.
Lemma energy_good P rate M L w roles ss xss : audio_rate rate -> 0 <= M <= 2 ^ 400 -> (1 <= w)%nat -> INR w <= 2 ^ 50 - 100 -> (length roles <= 64)%nat -> length ss = length roles ->
  (forall c, (c < length roles)%nat -> nth c roles Unused <> Unused -> Forall2 (near_channel P rate M) (nth c ss []) (weighted rate (nth c xss []))) ->
  is_finite (energy L w roles ss) = true.
Proof.
  intros HR HM Hw HW HL LS H. apply (energy_good_of P rate M L w roles ss (map (weighted rate) xss)); auto.
  intros c Hc Hu. rewrite (nth_map_nil (weighted rate)) by apply weighted_nil. auto.
Qed.

(** * Readings *)
Lemma heard_near P E M e t xss : is_64bit P -> tan_precise E -> powf_accurate E -> audio_rate (e_rate e) -> 0 <= M <= 2 ^ 400 -> heard_all P E M e t xss ->
  length (e_cmap e) = e_channels e /\ length (signals t) = length (e_cmap e) /\ length xss = length (e_cmap e) /\
  forall c, (c < length (e_cmap e))%nat -> nth c (e_cmap e) Unused <> Unused -> Forall2 (near_channel P (e_rate e) M) (nth c (signals t) []) (weighted (e_rate e) (nth c xss [])).
Proof.
  intros HP HT HW HR HM (HL & HTa & HH). destruct (taped_sizes P E e t HP HTa) as (Z1 & Z2 & Z3). destruct (reachable_inv P E e HP (taped_reachable P E e t HTa)) as (g & L & HI & _).
  pose proof (i_cmap _ _ _ _ _ HI) as HC. rewrite HC. split; auto. split; [unfold signals; rewrite map_length; auto|]. split; auto. intros c Hc Hu. destruct (HH c Hc Hu) as ((ws & Hw) & HS).
  exact (heard_exact P E c HP HT HW e t _ ws M Hw HR HM HS).
Qed.
Lemma mean_nonneg w roles ss : (1 <= w)%nat -> 0 <= mean_square w roles ss.
Proof.
  intros Hw. unfold mean_square. apply Rmult_le_pos; [|left; apply Rinv_0_lt_compat, lt_0_INR; lia].
  apply total_nonneg. rewrite Forall_map. apply Forall_forall. intros (ch, ys) _. apply Rmult_le_pos; [apply weight_pos|apply sq_nonneg].
Qed.
Lemma rms_error_pos P rate M roles : 0 <= M -> 0 <= rms_error P rate M roles.
Proof. intros HM. unfold rms_error. apply Rmult_le_pos; [apply sqrt_pos|now apply filter_error_pos]. Qed.
(** the energy of [w] frames, from the samples *)
Lemma energy_exact_of P E rate M L w roles ss Yss n d : log10_accurate E -> audio_rate rate -> 0 <= M <= 2 ^ 400 -> (1 <= w)%nat -> INR w <= 2 ^ 50 - 100 -> (length roles <= 64)%nat -> length ss = length roles -> length Yss = length roles ->
  (forall c, (c < length roles)%nat -> nth c roles Unused <> Unused -> Forall2 (near_channel P rate M) (nth c ss []) (nth c Yss [])) ->
  few n -> n = (w + length roles + 4)%nat -> d = rms_error P rate M roles ->
  let Z := mean_of w roles Yss in / 10 ^ 30 <= Z -> 4 * d <= sqrt Z ->
  positive (energy L w roles ss) /\ is_finite (loudness E (energy L w roles ss)) = true /\
  Rabs (lufs (real (energy L w roles ss)) - lufs Z) <= 12 * (d / sqrt Z) + (10 * INR n * u + / 2 ^ 90) /\
  Rabs (real (loudness E (energy L w roles ss)) - lufs Z) <= 12 * (d / sqrt Z) + tolerance n.
Proof.
  intros HL HR HM Hw1 Hw Hl LS LX H Hn En Ed Z HZ H4.
  pose proof (energy_good_of P rate M L w roles ss Yss HR HM Hw1 Hw Hl LS H) as F. set (x := energy L w roles ss) in *.
  pose proof (roots_near_of P rate M w roles ss Yss ltac:(lra) Hw1 LS LX H) as HRt. fold Z in HRt. rewrite <- Ed in HRt.
  assert (0 < / 10 ^ 30) as P30 by (apply Rinv_0_lt_compat, pow_lt; lra).
  assert (0 <= d) as D0 by (rewrite Ed; apply rms_error_pos; lra).
  destruct (lufs_roots (mean_square w roles ss) Z d (mean_nonneg _ _ _ Hw1) ltac:(lra) D0 H4 HRt) as (LB & LN).
  assert (Z.of_nat w <= 2 ^ 53)%Z as HZw. { apply le_IZR. rewrite <- INR_IZR_INZ. change (IZR (2 ^ 53)) with (IZR 9007199254740992). assert (2 ^ 50 - 100 <= 9007199254740992) by (cbn; lra). lra. }
  pose proof (energy_near L w roles ss Hw1 HZw F) as HN. fold x in HN. rewrite <- En in HN.
  assert (0 <= 3 * INR (length roles) + 1 <= 2 ^ 60) as HD.
  { apply le_INR in Hl. replace (INR 64) with 64 in Hl by (cbn; lra). pose proof (pos_INR (length roles)). split; [lra|]. apply Rle_trans with 1000; [lra|]. cbn. lra. }
  assert (faint <= mean_square w roles ss) as HF.
  { apply Rle_trans with (9 / 16 * / 10 ^ 30); [|lra]. unfold faint. apply Rle_trans with (/ 2 ^ 120).
    - apply Rinv_le_contravar; [apply pow_lt; lra|apply Rle_pow; [lra|lia]].
    - cbn. lra. }
  destruct (nearly_lufs n _ (real x) _ Hn HD (mean_nonneg _ _ _ Hw1) HN (or_intror HF)) as (X0 & _ & B).
  assert (positive x) as Hx by (split; auto). split; auto.
  destruct (loudness_near E n _ x _ HL Hn HD (mean_nonneg _ _ _ Hw1) Hx HN (or_intror HF)) as (_ & (F2 & B2)).
  split; auto. split.
  - replace (lufs (real x) - lufs Z) with ((lufs (mean_square w roles ss) - lufs Z) + (lufs (real x) - lufs (mean_square w roles ss))) by ring. eapply Rle_trans; [apply Rabs_triang|]. apply Rplus_le_compat; auto.
  - replace (real (loudness E x) - lufs Z) with ((lufs (mean_square w roles ss) - lufs Z) + (real (loudness E x) - lufs (mean_square w roles ss))) by ring. eapply Rle_trans; [apply Rabs_triang|]. apply Rplus_le_compat; auto.
Qed.
Lemma energy_exact P E rate M L w roles ss xss n d : log10_accurate E -> audio_rate rate -> 0 <= M <= 2 ^ 400 -> (1 <= w)%nat -> INR w <= 2 ^ 50 - 100 -> (length roles <= 64)%nat -> length ss = length roles -> length xss = length roles ->
  (forall c, (c < length roles)%nat -> nth c roles Unused <> Unused -> Forall2 (near_channel P rate M) (nth c ss []) (weighted rate (nth c xss []))) ->
  few n -> n = (w + length roles + 4)%nat -> d = rms_error P rate M roles ->
  let Z := exact_mean_square rate w roles xss in / 10 ^ 30 <= Z -> 4 * d <= sqrt Z ->
  positive (energy L w roles ss) /\ is_finite (loudness E (energy L w roles ss)) = true /\
  Rabs (lufs (real (energy L w roles ss)) - lufs Z) <= 12 * (d / sqrt Z) + (10 * INR n * u + / 2 ^ 90) /\
  Rabs (real (loudness E (energy L w roles ss)) - lufs Z) <= 12 * (d / sqrt Z) + tolerance n.
Proof.
  intros HL HR HM Hw1 Hw Hl LS LX H Hn En Ed. rewrite exact_mean_of. apply (energy_exact_of P E rate M); auto; [now rewrite map_length|].
  intros c Hc Hu. rewrite (nth_map_nil (weighted rate)) by apply weighted_nil. auto.
Qed.
Lemma window_exact P E M e t xss w v : is_64bit P -> log10_accurate E -> tan_precise E -> powf_accurate E -> audio_rate (e_rate e) -> 0 <= M <= 2 ^ 400 -> heard_all P E M e t xss ->
  (1 <= w)%nat -> recent_loudness E e t w = Ok v ->
  let Z := exact_mean_square (e_rate e) w (e_cmap e) xss in let d := rms_error P (e_rate e) M (e_cmap e) in
  / 10 ^ 30 <= Z -> 4 * d <= sqrt Z -> is_finite v = true /\ Rabs (real v - lufs Z) <= 12 * (d / sqrt Z) + tolerance (w + e_channels e + 4).
Proof.
  intros HP HL HT HW HR HM HH Hw1. destruct (heard_near P E M e t xss HP HT HW HR HM HH) as (LC & LS & LX & HN). destruct HH as (_ & HTa & _).
  unfold recent_loudness. destruct (Nat.ltb_spec (capacity e) w) as [|Hc]; [discriminate|]. unfold reported.
  destruct (capacity_few P E e HP (taped_reachable P E e t HTa)) as (HK & H64). intros [= <-] HZ H4. set (Z := exact_mean_square _ _ _ _) in *. set (d := rms_error _ _ _ _) in *.
  assert (INR w <= 2 ^ 50 - 100) as HwR. { rewrite pow_IZR, INR_IZR_INZ. change (Z.of_nat 50) with 50%Z. rewrite <- minus_IZR. apply IZR_le. change (2 ^ 50)%N with 1125899906842624%N in HK. change (2 ^ 50)%Z with 1125899906842624%Z. lia. }
  assert (few (w + e_channels e + 4)) as Hf by (apply few_N; lia).
  destruct (energy_exact P E (e_rate e) M (capacity e) w (e_cmap e) (signals t) xss (w + e_channels e + 4) d HL HR HM Hw1 HwR ltac:(lia) LS LX HN Hf ltac:(lia) eq_refl HZ H4) as (HX & F & _ & B).
  assert (f64_le (energy (capacity e) w (e_cmap e) (signals t)) f64_zero = false) as ->; [|split; auto].
  destruct HX as (Fx & Px). unfold f64_le. rewrite (Bleb_correct _ _ _ f64_zero Fx eq_refl). apply Rle_bool_false. exact Px.
Qed.
Section Ask.
Variables (P : platform) (E : ext) (M : R) (e : ebur128) (t : list track) (xss : list (list f64)) (v : f64).
Hypotheses (HP : is_64bit P) (HL : log10_accurate E) (HT : tan_precise E) (HW : powf_accurate E) (HR : audio_rate (e_rate e)) (HM : 0 <= M <= 2 ^ 400) (HH : heard_all P E M e t xss).
Lemma momentary_exact : ask P E e QMomentary = Ret (AValue (Ok v)) -> measured_over P M e xss v (4 * hop e).
Proof.
  intros HA. pose proof (proj1 (proj2 HH)) as HTa. destruct (four_hops P E e t HP HTa) as (H1 & H4). refine (window_exact P E M e t xss (4 * hop e) v HP HL HT HW HR HM HH _ _); [lia|].
  rewrite (ask_momentary P E e t HP HTa) in HA. injection HA as <-. unfold recent_loudness. destruct (Nat.ltb_spec (capacity e) (4 * hop e)); [lia|reflexivity].
Qed.
Lemma shortterm_exact : ask P E e QShortterm = Ret (AValue (Ok v)) -> measured_over P M e xss v (30 * hop e).
Proof.
  intros HA. pose proof (proj1 (proj2 HH)) as HTa. destruct (four_hops P E e t HP HTa) as (H1 & H4). refine (window_exact P E M e t xss (30 * hop e) v HP HL HT HW HR HM HH _ _); [lia|].
  rewrite (ask_shortterm P E e t HP HTa) in HA. now injection HA.
Qed.
Lemma any_window_exact ms : (ms <= 4294967295)%N -> ask P E e (QWindow ms) = Ret (AValue (Ok v)) -> (1 <= N.to_nat (e_rate e * ms / 1000))%nat -> measured_over P M e xss v (N.to_nat (e_rate e * ms / 1000)).
Proof.
  intros Hms HA H1. pose proof (proj1 (proj2 HH)) as HTa. refine (window_exact P E M e t xss _ v HP HL HT HW HR HM HH H1 _). rewrite (ask_window P E e t ms HP HTa Hms) in HA. now injection HA.
Qed.
End Ask.
