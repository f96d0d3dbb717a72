(** Gains and normalisation (C76). *)
From Coq Require Import List Arith NArith ZArith Bool Lia Reals Lra Psatz.
From Flocq Require Import Core IEEE754.BinarySingleNaN.
From Verif Require Import Prelude Float Env Utils History Filter Ebur128 Spec Float_proofs Filter_proofs Ebur128_proofs Ops_proofs Input_proofs Stream_proofs Loud_proofs Feed_proofs Reach_proofs Trace_proofs Parallel_proofs Capi_proofs Blocks_proofs Gating_proofs Answers_proofs Range_proofs
  Spec_real Spec_filter Spec_coeff Spec_accuracy Spec_history Spec_exact Spec_programme Spec_normal Accuracy_proofs Lufs_proofs Programme_proofs Kweight_proofs Coeff_proofs Noise_proofs Heard_proofs Tight_proofs Bound_proofs Follow_proofs Rms_proofs Value_proofs Energy_proofs Exact_proofs Pass_proofs Report_proofs Played_proofs.
Import ListNotations.
Import Spec_history. Import Spec_exact.
Local Open Scope R_scope.

(** * Gains over the real numbers *)
Lemma total_times k l : total (map (Rmult k) l) = k * total l.
Proof. induction l as [|x l IH]; cbn [map]; [cbn; ring|]. change (total (?a :: ?l)) with (a + total l). rewrite IH. ring. Qed.
Lemma average_times k l : average (map (Rmult k) l) = k * average l.
Proof. unfold average. rewrite total_times, map_length. unfold Rdiv. ring. Qed.
Lemma not_below_times k g l : 0 < k -> not_below (k * g) (map (Rmult k) l) = map (Rmult k) (not_below g l).
Proof.
  intros Hk. unfold not_below. induction l as [|z l IH]; [reflexivity|]. cbn [map List.filter]. rewrite IH.
  destruct (Rle_dec (k * g) (k * z)) as [H|H], (Rle_dec g z) as [H'|H']; try reflexivity.
  - destruct H'. apply Rmult_le_reg_l with k; auto.
  - destruct H. apply Rmult_le_compat_l; lra.
Qed.
Lemma loud_louder g l : 0 < g -> not_below (minus_70 / (g * g)) l = loud l -> loud (louder g l) = louder g (loud l).
Proof.
  intros Hg H. assert (0 < g * g) as H2 by nra. unfold loud at 1. unfold louder. replace minus_70 with ((g * g) * (minus_70 / (g * g))) by (field; lra). rewrite not_below_times by auto. now rewrite H.
Qed.
Lemma gated_louder g l : 0 < g -> not_below (minus_70 / (g * g)) l = loud l -> gated_blocks 10 (louder g l) = louder g (gated_blocks 10 l).
Proof.
  intros Hg H. assert (0 < g * g) as H2 by nra. unfold gated_blocks, relative_gate. rewrite loud_louder by auto. unfold louder. rewrite average_times.
  replace (g * g * average (loud l) / 10) with ((g * g) * (average (loud l) / 10)) by (unfold Rdiv; ring). now apply not_below_times.
Qed.
Lemma lufs_gain g z : 0 < g -> 0 < z -> lufs (g * g * z) = lufs z + 20 * (ln g / ln 10).
Proof.
  intros Hg Hz. unfold lufs. assert (0 < g * g) by nra. rewrite !ln_mult by auto. assert (0 < ln 10) by (rewrite <- ln_1; apply ln_increasing; lra). field. lra.
Qed.
Lemma not_below_all g l : Forall (fun z => g <= z) (not_below g l).
Proof. apply Forall_forall. intros z Hz. apply filter_In in Hz. destruct Hz as (_ & Hz). now destruct (Rle_dec g z). Qed.
Lemma not_below_sub g l z : In z (not_below g l) -> In z l.
Proof. intros Hz. now apply filter_In in Hz. Qed.
Lemma gated_nonempty l : loud l <> [] -> gated_blocks 10 l <> [].
Proof.
  intros HL. pose proof minus_70_bounds as (M0 & _). assert (0 < / 10 ^ 7) as M1 by (apply Rinv_0_lt_compat, pow_lt; lra).
  pose proof (average_pos minus_70 (loud l) ltac:(lra) HL (not_below_all _ _)) as HA.
  unfold gated_blocks, relative_gate. set (ys := loud l) in *. intros E0.
  assert (forall z, In z ys -> z < average ys / 10) as Hlt.
  { intros z Hz. destruct (Rlt_le_dec z (average ys / 10)) as [|Hc]; auto. assert (In z (not_below (average ys / 10) ys)) as X by (apply filter_In; split; auto; destruct (Rle_dec (average ys / 10) z); auto; lra). rewrite E0 in X. contradiction. }
  assert (total ys <= INR (length ys) * (average ys / 10)) as HT.
  { clear - Hlt. revert Hlt. generalize (average ys / 10). intros m. induction ys as [|z ys IH]; intros Hlt; [cbn; lra|]. change (total (z :: ys)) with (z + total ys). cbn [length]. rewrite S_INR. pose proof (Hlt z ltac:(now left)). specialize (IH ltac:(intros; apply Hlt; now right)). lra. }
  assert (0 < INR (length ys)) as HN by (apply lt_0_INR; destruct ys; [congruence|cbn; lia]).
  assert (total ys = INR (length ys) * average ys) as HS by (unfold average; field; lra). nra.
Qed.
Lemma gated_average l : loud l <> [] -> 0 < average (gated_blocks 10 l).
Proof.
  intros HL. pose proof minus_70_bounds as (M0 & _). assert (0 < / 10 ^ 7) as M1 by (apply Rinv_0_lt_compat, pow_lt; lra).
  apply Rlt_le_trans with minus_70; [lra|]. apply average_pos; [lra|now apply gated_nonempty|]. apply Forall_forall. intros z Hz. apply not_below_sub in Hz. pose proof (not_below_all minus_70 l) as F. rewrite Forall_forall in F. now apply F.
Qed.
Lemma integrated_louder g l : 0 < g -> loud l <> [] -> not_below (minus_70 / (g * g)) l = loud l -> integrated (louder g l) = integrated l + 20 * (ln g / ln 10).
Proof.
  intros Hg HL H. unfold integrated. rewrite gated_louder by auto. unfold louder. rewrite average_times. apply lufs_gain; auto. now apply gated_average.
Qed.

(** * The signal of a programme with a gain *)
Definition wider_by (rate : N) (M delta : R) : R := M + 19.5 * delta / (4.2 / 10 ^ 6 * (IZR (Z.of_N rate) / 48000) ^ 4).
Lemma wider_by_facts P rate M delta : audio_rate rate -> 0 <= delta -> filter_error P rate (wider_by rate M delta) = filter_error P rate M + 19.5 * delta /\ M + delta <= wider_by rate M delta <= M + 2 ^ 28 * delta.
Proof.
  intros (HR1 & HR2) HD. assert (22050 / 48000 <= IZR (Z.of_N rate) / 48000 <= 16) as Hq. { assert (22050 <= IZR (Z.of_N rate) <= 768000) by (split; apply IZR_le; lia). lra. }
  assert (1 / 28 <= (IZR (Z.of_N rate) / 48000) ^ 4 <= 16 ^ 4) as Hp. { split; [|apply pow_incr; lra]. apply Rle_trans with ((22050 / 48000) ^ 4); [cbn; lra|]. apply pow_incr. lra. }
  unfold filter_error, wider_by. set (p := _ ^ 4) in *. clearbody p. set (z := if p_ftz P then _ else _). clearbody z.
  assert (0 < 4.2 / 10 ^ 6 * p) as H0 by (cbn in *; nra). set (k := 4.2 / 10 ^ 6 * p) in *. split.
  - replace (k * (M + 19.5 * delta / k)) with (k * M + 19.5 * delta) by (field; lra). lra.
  - assert (1 / 10 ^ 8 * 14 <= k <= 0.28) as HK by (unfold k; cbn in *; lra). clearbody k. assert (3.5 <= / k). { replace 3.5 with (/ (/ 3.5)) by (field; lra). apply Rinv_le_contravar; lra. }
    assert (/ k <= 10 ^ 8 / 14). { replace (10 ^ 8 / 14) with (/ (1 / 10 ^ 8 * 14)) by (field; cbn; lra). apply Rinv_le_contravar; [cbn; lra|lra]. }
    unfold Rdiv at 1 2. replace (19.5 * delta * / k) with (delta * (19.5 * / k)) by ring. set (i := / k) in *. clearbody i. cbn in *. split; apply Rplus_le_compat_l; nra.
Qed.
Lemma amplified_signal P rate M g delta s xs ys : audio_rate rate -> 0 <= delta -> samples_below M ys -> Forall2 (near_channel P rate M) s (weighted rate ys) ->
  Forall2 (fun x y => Rabs (real y - g * real x) <= delta) xs ys -> Forall2 (near_channel P rate (wider_by rate M delta)) s (map (Rmult g) (weighted rate xs)).
Proof.
  intros HR HD HX HN HA. destruct (wider_by_facts P rate M delta HR HD) as (WE & WL & _).
  set (ds := map2 (fun x y => real y - g * real x) xs ys).
  assert (length ds = length xs /\ length ys = length xs) as (Ld & Ly). { unfold ds. split; [|symmetry; eapply Forall2_length; eauto]. clear - HA. induction HA; cbn [map2 length]; auto. }
  assert (forall d, In d ds -> Rabs d <= delta) as Hd. { unfold ds. clear - HA. induction HA as [|x y xs ys H _ IH]; cbn [map2]; [contradiction|]. intros d [<-|Hd]; auto. }
  assert (map real ys = map2 Rplus (map (Rmult g) (map real xs)) ds) as EY. { unfold ds. clear - HA. induction HA as [|x y xs ys H _ IH]; cbn [map map2]; auto. f_equal; auto. ring. }
  unfold weighted in *. pose proof (output_19 rate HR ds delta HD Hd) as HO. destruct (coefficientsR (coeff_inputsR (IZR (Z.of_N rate)))) as (B, A). cbn [fst snd] in HO.
  rewrite EY, Heard_proofs.outputs_sum, outputs_scale in HN by (rewrite !map_length; auto).
  assert (length (outputsR B A ds) = length (map (Rmult g) (outputsR B A (map real xs)))) as LO by (unfold outputsR; rewrite map_length, !filter_run_length, map_length; auto).
  revert HN HO LO. generalize (map (Rmult g) (outputsR B A (map real xs))), (outputsR B A ds). clear - WE WL HD.
  intros l m HN. revert l m HN. induction s as [|y s IH]; intros [|Y l] [|D m] HN HO LO; try discriminate LO; cbn [map2] in HN; inversion_clear HN as [|? ? ? ? (F & H1 & H2) HN']; constructor.
  - pose proof (HO D ltac:(now left)) as HDD. split; auto. rewrite WE. split.
    + replace (real y - Y) with ((real y - (Y + D)) + D) by ring. eapply Rle_trans; [apply Rabs_triang|]. lra.
    + replace Y with ((Y + D) + - D) by ring. eapply Rle_trans; [apply Rabs_triang|]. rewrite Rabs_Ropp. lra.
  - apply (IH l m); auto. intros; apply HO; now right.
Qed.
Lemma recentR_times w g Y : recentR w (map (Rmult g) Y) = map (Rmult g) (recentR w Y).
Proof. unfold recentR. rewrite map_length, <- skipn_map, map_app. do 2 f_equal. induction w; cbn; auto. f_equal; auto. ring. Qed.
Lemma mean_of_times g w roles : forall Yss, mean_of w roles (map (map (Rmult g)) Yss) = g * g * mean_of w roles Yss.
Proof.
  intros Yss. unfold mean_of, Rdiv. rewrite <- Rmult_assoc. f_equal. rewrite <- total_times, map_map. f_equal. revert Yss.
  induction roles as [|ch roles IH]; intros [|Y Yss]; cbn [map combine]; auto. f_equal; [|apply IH].
  rewrite recentR_times, map_map. rewrite (map_ext _ (fun y => g * g * (y * y))) by (intros; ring). rewrite <- (map_map (fun y => y * y) (Rmult (g * g))), total_times. ring.
Qed.
(** the blocks of [w] frames *)
Lemma energies_amplified P E M g delta e t xss yss w ends : is_64bit P -> tan_precise E -> powf_accurate E -> audio_rate (e_rate e) -> 0 <= M <= 2 ^ 370 -> 0 <= delta <= M -> heard_all P E M e t yss -> amplified g delta (e_cmap e) xss yss -> (1 <= w)%nat -> INR w <= 2400000 ->
  Forall2 (measured_near (gain_error P (e_rate e) M delta (e_cmap e))) (map (energy_at (capacity e) w (e_cmap e) (signals t)) ends) (louder g (exact_energies (e_rate e) w (e_cmap e) xss ends)).
Proof.
  intros HP HT HW HR HM HD HH (LXX & HA) Hw1 Hw.
  assert (0 <= M <= 2 ^ 400) as HM4 by (split; [lra|]; apply Rle_trans with (2 ^ 370); [lra|apply Rle_pow; [lra|lia]]).
  destruct (heard_near P E M e t yss HP HT HW HR HM4 HH) as (LC & LS & LX & HN). pose proof HH as (_ & HTa & HHs).
  destruct (capacity_few P E e HP (taped_reachable P E e t HTa)) as (_ & H64). destruct (wider_by_facts P (e_rate e) M delta HR ltac:(lra)) as (WE & WL & WU).
  assert (0 <= wider_by (e_rate e) M delta <= 2 ^ 400) as HW4.
  { split; [lra|]. eapply Rle_trans; [exact WU|]. replace (2 ^ 400) with (2 ^ 30 * 2 ^ 370) by (rewrite <- pow_add; reflexivity). set (z := 2 ^ 370) in *. clearbody z. assert (2 ^ 28 * delta <= 2 ^ 28 * z) by (apply Rmult_le_compat_l; [cbn; lra|lra]). cbn in *. lra. }
  assert (gain_error P (e_rate e) M delta (e_cmap e) = rms_error P (e_rate e) (wider_by (e_rate e) M delta) (e_cmap e)) as -> by (unfold gain_error, rms_error; now rewrite WE).
  unfold louder, exact_energies. rewrite map_map. induction ends as [|k ends IH]; cbn [map]; constructor; auto.
  set (Yss := map (map (Rmult g)) (map (weighted (e_rate e)) (map (firstn k) xss))).
  assert (g * g * exact_mean_square (e_rate e) w (e_cmap e) (map (firstn k) xss) = mean_of w (e_cmap e) Yss) as -> by (rewrite exact_mean_of; symmetry; apply mean_of_times).
  refine (block_root_of P (e_rate e) (wider_by (e_rate e) M delta) (capacity e) w (e_cmap e) (map (firstn k) (signals t)) Yss HR HW4 Hw1 Hw _ _ _ _); try (rewrite ?map_length; lia).
  { unfold Yss. rewrite !map_length. auto. }
  intros c Hc Hu. unfold Yss. rewrite !map_map. rewrite (nth_map_nil (firstn k)) by apply firstn_nil. rewrite (nth_map_nil (fun x => map (Rmult g) (weighted (e_rate e) (firstn k x)))) by (rewrite firstn_nil; unfold weighted; now destruct (coefficientsR _)).
  rewrite weighted_firstn, <- firstn_map. apply Forall2_firstn. destruct (HHs c ltac:(lia) Hu) as (_ & HSB). apply (amplified_signal P (e_rate e) M g delta _ _ (nth c yss [])); auto. lra.
Qed.
(** the readings *)
Lemma reads_recent P E e t q w v : is_64bit P -> taped P E e t -> reads_last e q w -> ask P E e q = Ret (AValue (Ok v)) -> (1 <= w)%nat /\ recent_loudness E e t w = Ok v.
Proof.
  intros HP HTa [(-> & ->)|[(-> & ->)|(ms & Hms & -> & -> & H1)]] HA; destruct (four_hops P E e t HP HTa) as (H1' & H4).
  - split; [lia|]. rewrite (ask_momentary P E e t HP HTa) in HA. injection HA as <-. unfold recent_loudness. destruct (Nat.ltb_spec (capacity e) (4 * hop e)); [lia|reflexivity].
  - split; [lia|]. rewrite (ask_shortterm P E e t HP HTa) in HA. now injection HA.
  - split; [auto|]. rewrite (ask_window P E e t ms HP HTa Hms) in HA. now injection HA.
Qed.
Lemma reading_amplified P E M g delta e t xss yss q w v : is_64bit P -> log10_accurate E -> tan_precise E -> powf_accurate E -> audio_rate (e_rate e) -> 0 <= M <= 2 ^ 370 -> 0 <= delta <= M -> heard_all P E M e t yss -> 0 < g -> amplified g delta (e_cmap e) xss yss ->
  reads_last e q w -> ask P E e q = Ret (AValue (Ok v)) ->
  let Z := exact_mean_square (e_rate e) w (e_cmap e) xss in let d := gain_error P (e_rate e) M delta (e_cmap e) in
  / 10 ^ 30 <= g * g * Z -> 4 * d <= g * sqrt Z ->
  is_finite v = true /\ Rabs (real v - (lufs Z + 20 * (ln g / ln 10))) <= 12 * (d / (g * sqrt Z)) + tolerance (w + e_channels e + 4).
Proof.
  intros HP HL HT HW HR HM HD HH Hg (LXX & HA) Hq HAsk. pose proof HH as (_ & HTa & HHs). destruct (reads_recent P E e t q w v HP HTa Hq HAsk) as (Hw1 & HRec).
  assert (0 <= M <= 2 ^ 400) as HM4 by (split; [lra|]; apply Rle_trans with (2 ^ 370); [lra|apply Rle_pow; [lra|lia]]).
  destruct (heard_near P E M e t yss HP HT HW HR HM4 HH) as (LC & LS & LX & HN).
  destruct (capacity_few P E e HP (taped_reachable P E e t HTa)) as (HK & H64). destruct (wider_by_facts P (e_rate e) M delta HR ltac:(lra)) as (WE & WL & WU).
  assert (0 <= wider_by (e_rate e) M delta <= 2 ^ 400) as HW4.
  { split; [lra|]. eapply Rle_trans; [exact WU|]. replace (2 ^ 400) with (2 ^ 30 * 2 ^ 370) by (rewrite <- pow_add; reflexivity). set (z := 2 ^ 370) in *. clearbody z. assert (2 ^ 28 * delta <= 2 ^ 28 * z) by (apply Rmult_le_compat_l; [cbn; lra|lra]). cbn in *. lra. }
  intros Z d. assert (d = rms_error P (e_rate e) (wider_by (e_rate e) M delta) (e_cmap e)) as Ed by (unfold d, gain_error, rms_error; now rewrite WE).
  set (Yss := map (map (Rmult g)) (map (weighted (e_rate e)) xss)).
  assert (g * g * Z = mean_of w (e_cmap e) Yss) as EZ by (unfold Z; rewrite exact_mean_of; symmetry; apply mean_of_times).
  unfold recent_loudness in HRec. destruct (Nat.ltb_spec (capacity e) w) as [|Hc]; [discriminate|]. unfold reported in HRec. injection HRec as <-. intros HZ H4.
  assert (0 < g * g) as Hgg by nra. assert (0 < / 10 ^ 30) as P30 by (apply Rinv_0_lt_compat, pow_lt; lra). assert (0 < Z) as Z0 by nra.
  assert (sqrt (g * g * Z) = g * sqrt Z) as ES by (rewrite sqrt_mult by lra; rewrite sqrt_square by lra; reflexivity).
  assert (INR w <= 2 ^ 50 - 100) as HwR. { rewrite pow_IZR, INR_IZR_INZ. change (Z.of_nat 50) with 50%Z. rewrite <- minus_IZR. apply IZR_le. change (2 ^ 50)%N with 1125899906842624%N in HK. change (2 ^ 50)%Z with 1125899906842624%Z. lia. }
  assert (few (w + e_channels e + 4)) as Hf by (apply few_N; lia).
  refine (_ (energy_exact_of P E (e_rate e) (wider_by (e_rate e) M delta) (capacity e) w (e_cmap e) (signals t) Yss (w + e_channels e + 4) d HL HR HW4 Hw1 HwR ltac:(lia) LS ltac:(unfold Yss; rewrite !map_length; auto) _ Hf ltac:(lia) Ed _ _)).
  - rewrite <- EZ, lufs_gain, ES by auto. intros (HX & F & _ & B).
    assert (f64_le (energy (capacity e) w (e_cmap e) (signals t)) f64_zero = false) as ->; [|split; auto].
    destruct HX as (Fx & Px). unfold f64_le. rewrite (Bleb_correct _ _ _ f64_zero Fx eq_refl). apply Rle_bool_false. exact Px.
  - intros c Hcc Hu. unfold Yss. rewrite map_map. rewrite (nth_map_nil (fun x => map (Rmult g) (weighted (e_rate e) x))) by (unfold weighted; now destruct (coefficientsR _)).
    destruct (HHs c ltac:(lia) Hu) as (_ & HSB). apply (amplified_signal P (e_rate e) M g delta _ _ (nth c yss [])); auto. lra.
  - now rewrite <- EZ.
  - now rewrite <- EZ, ES.
Qed.
(** integrated loudness *)
Lemma integrated_amplified P E M g delta e t xss yss : is_64bit P -> powf_contract E -> log10_accurate E -> tan_precise E -> powf_accurate E -> played P E e t -> heard_all P E M e t yss -> amplified g delta (e_cmap e) xss yss -> audio_rate (e_rate e) -> 0 <= M <= 2 ^ 370 -> 0 <= delta <= M ->
  has_I (e_mode e) -> ~ has_HISTOGRAM (e_mode e) ->
  let l := louder g (momentary_blocks e t xss) in let d := gain_error P (e_rate e) M delta (e_cmap e) in let n := (length l + 105)%nat in
  (N.of_nat n <= 2 ^ 50)%N -> decided 10 (2 * d) (tolerance n / 6) l -> loud l <> [] -> 5 * d <= sqrt (average (gated_blocks 10 l)) ->
  exists v, ask P E e QGlobal = Ret (AValue (Ok v)) /\ is_finite v = true /\ Rabs (real v - integrated l) <= 14 * (d / sqrt (average (gated_blocks 10 l))) + tolerance n.
Proof.
  intros HP HE HL HT HW HPl HH HA HR HM HD HI Hh l d n Hn HDe HLo H5. destruct (played_blocks P E e t HP HPl) as (HTa & _).
  pose proof (taped_reachable P E e t HTa) as Hr. destruct (hop_large e HR) as (Hh1 & _ & Hh4).
  pose proof (energies_amplified P E M g delta e t xss yss (4 * hop e) (block_ends (hop e) 0 (frames_of (signals t))) HP HT HW HR HM HD HH HA ltac:(lia) Hh4) as HN. fold d in HN. change (louder g _) with l in HN.
  destruct (capacity_few P E e HP Hr) as (_ & H64). destruct (taped_sizes P E e t HP HTa) as (_ & LC & _).
  destruct (wider_by_facts P (e_rate e) M delta HR ltac:(lra)) as (WE & WL & WU).
  assert (0 <= wider_by (e_rate e) M delta <= 2 ^ 400) as HW4.
  { split; [lra|]. eapply Rle_trans; [exact WU|]. replace (2 ^ 400) with (2 ^ 30 * 2 ^ 370) by (rewrite <- pow_add; reflexivity). set (z := 2 ^ 370) in *. clearbody z. assert (2 ^ 28 * delta <= 2 ^ 28 * z) by (apply Rmult_le_compat_l; [cbn; lra|lra]). cbn in *. lra. }
  assert (d = rms_error P (e_rate e) (wider_by (e_rate e) M delta) (e_cmap e)) as Ed by (unfold d, gain_error, rms_error; now rewrite WE).
  pose proof (recorded_blocks P E e t HP HPl HI Hh) as EB. cbv zeta in EB.
  set (xs := map (energy_at (capacity e) (4 * hop e) (e_cmap e) (signals t)) (block_ends (hop e) 0 (frames_of (signals t)))) in *. pose proof (Forall2_length _ _ _ HN) as Len.
  specialize (EB ltac:(unfold n in Hn; lia)).
  assert (n = (length l + 3 * length [e] + 102)%nat) as En by (unfold n; cbn [length]; lia).
  refine (_ (several_exact P E (e_rate e) (wider_by (e_rate e) M delta) (e_cmap e) [e] [xs] l HP HE HL HR HW4 ltac:(lia) ltac:(auto) ltac:(auto) ltac:(cbn [map]; now rewrite EB))).
  rewrite <- Ed, <- En. intros S. destruct S as (v & HV & F & B); auto.
  - cbn [concat]. now rewrite app_nil_r.
  - exists v. rewrite global_multiple_one in HV. cbn [ask]. rewrite HV. cbn [obind]. auto.
Qed.
(** normalisation *)
Lemma gain_of_pos x : 0 < gain_of x. Proof. apply exp_pos. Qed.
Lemma gain_of_log x : 20 * (ln (gain_of x) / ln 10) = x.
Proof. unfold gain_of, Rpower. rewrite ln_exp. assert (0 < ln 10) by (rewrite <- ln_1; apply ln_increasing; lra). field. lra. Qed.
Lemma normalised P E M M2 delta e t xss f t2 yss T v : is_64bit P -> powf_contract E -> log10_accurate E -> tan_precise E -> powf_accurate E ->
  played P E e t -> heard_all P E M e t xss -> played P E f t2 -> heard_all P E M2 f t2 yss ->
  e_rate f = e_rate e -> e_cmap f = e_cmap e -> frames_of (signals t2) = frames_of (signals t) -> audio_rate (e_rate e) -> 0 <= M <= 2 ^ 400 -> 0 <= M2 <= 2 ^ 370 -> 0 <= delta <= M2 ->
  has_I (e_mode e) -> ~ has_HISTOGRAM (e_mode e) -> has_I (e_mode f) -> ~ has_HISTOGRAM (e_mode f) ->
  ask P E e QGlobal = Ret (AValue (Ok v)) -> let g := gain_of (T - real v) in amplified g delta (e_cmap e) xss yss ->
  let l := momentary_blocks e t xss in let d := rms_error P (e_rate e) M (e_cmap e) in let d2 := gain_error P (e_rate e) M2 delta (e_cmap e) in let n := (length l + 105)%nat in
  (N.of_nat n <= 2 ^ 50)%N -> decided 10 (2 * d) (tolerance n / 6) l -> decided 10 (2 * d2) (tolerance n / 6) (louder g l) -> loud l <> [] -> not_below (minus_70 / (g * g)) l = loud l ->
  let r := sqrt (average (gated_blocks 10 l)) in 5 * d <= r -> 5 * d2 <= g * r ->
  exists w, ask P E f QGlobal = Ret (AValue (Ok w)) /\ is_finite w = true /\ Rabs (real w - T) <= 14 * (d / r + d2 / (g * r)) + 2 * tolerance n.
Proof.
  intros HP HE HL HT HW HPl HH HPl2 HH2 ER EC EF HR HM HM2 HD HI Hh HI2 Hh2 HAsk g HA l d d2 n Hn HD1 HD2 HLo HNB r H5 H52.
  assert (0 < g) as Hg by apply gain_of_pos.
  destruct (integrated_exact P E M e t xss HP HE HL HT HW HPl HH HR HM HI Hh Hn HD1 HLo H5) as (v' & HV & FV & BV).
  rewrite HV in HAsk. injection HAsk as ->.
  assert (momentary_blocks f t2 xss = l) as EL by (unfold l, momentary_blocks, hop; rewrite ER, EC, EF; reflexivity).
  pose proof (integrated_amplified P E M2 g delta f t2 xss yss HP HE HL HT HW HPl2 HH2 ltac:(rewrite EC; exact HA) ltac:(rewrite ER; exact HR) HM2 HD HI2 Hh2) as HB. cbv zeta in HB. rewrite EL, ER, EC in HB. fold d2 in HB.
  assert (length (louder g l) = length l) as LL by apply map_length. rewrite LL in HB. fold n in HB.
  assert (sqrt (average (gated_blocks 10 (louder g l))) = g * r) as ER2.
  { rewrite gated_louder by auto. unfold louder. rewrite average_times, sqrt_mult; [|nra|left; now apply gated_average]. rewrite sqrt_square by lra. reflexivity. }
  rewrite ER2 in HB. destruct (HB Hn HD2 ltac:(rewrite loud_louder by auto; unfold louder; destruct (loud l); [congruence|discriminate]) H52) as (w & HAw & Fw & Bw).
  exists w. split; auto. split; auto. rewrite integrated_louder in Bw by auto. unfold g in Bw at 1. rewrite gain_of_log in Bw. change (sqrt (average (gated_blocks 10 (momentary_blocks e t xss)))) with r in BV. change (momentary_blocks e t xss) with l in BV.
  replace (real w - T) with ((real w - (integrated l + (T - real v))) - (real v - integrated l)) by ring. fold d n in BV.
  eapply Rle_trans; [apply Rabs_triang|]. rewrite Rabs_Ropp. lra.
Qed.
