(** Integrated loudness and loudness range of an analyzer that keeps histograms, against the exact measurement (C77). *)
From Coq Require Import List Arith NArith ZArith Bool Lia Reals Lra Psatz Sorting.Sorted Sorting.Permutation.
From Flocq Require Import Core IEEE754.BinarySingleNaN.
From Verif Require Import Prelude Float Env Tables Utils History Filter Ebur128 Spec Float_proofs Ebur128_proofs Stream_proofs Loud_proofs Reach_proofs Blocks_proofs Gating_proofs History_proofs Gate_proofs Answers_proofs Table_proofs
  Spec_real Spec_filter Spec_coeff Spec_accuracy Spec_history Spec_exact Spec_programme Spec_modes Accuracy_proofs Lufs_proofs Programme_proofs Value_proofs Order_proofs Rms_proofs Exact_proofs Report_proofs Twin_proofs Played_proofs Span_proofs.
Import ListNotations.
Import Spec_history. Import Spec_exact.
Local Open Scope R_scope.

Lemma recorded_bins P E e t : is_64bit P -> played P E e t -> has_HISTOGRAM (e_mode e) ->
  (has_I (e_mode e) -> blocks e = bins (List.filter measurable (map (energy_at (capacity e) (4 * hop e) (e_cmap e) (signals t)) (block_ends (hop e) 0 (frames_of (signals t)))))) /\
  (has_LRA (e_mode e) -> short_blocks e = bins (List.filter measurable (map (energy_at (capacity e) (30 * hop e) (e_cmap e) (signals t)) (short_ends (hop e) 0 (frames_of (signals t)))))).
Proof.
  intros HP HPl Hh. destruct (played_blocks P E e t HP HPl) as (HTa & HB & HS). pose proof (taped_reachable P E e t HTa) as Hr.
  destruct (is_histogram P E e HP Hr Hh) as (b & s & Eb & Es & _). unfold blocks, short_blocks. rewrite Eb, Es in *. split; intros Hm; [specialize (HB Hm)|specialize (HS Hm)]; eapply holds_bins; eauto.
Qed.
(** ** usual blocks *)
Lemma bound_top : is_finite (bnd 1000) = true /\ 1100 <= real (bnd 1000).
Proof.
  destruct (table_finite 1000 ltac:(lia)) as (F & _). split; auto. destruct (bin_real 4837851162214400 (-42) ltac:(lia) ltac:(lia)) as (F2 & E2).
  assert (f64_le (f64_bin 4837851162214400 (-42)) (bnd 1000) = true) as L by (vm_cast_no_check (eq_refl true)). apply le_iff in L; auto. rewrite E2 in L. eapply Rle_trans; [|exact L]. cbn. lra.
Qed.
Lemma near_usual d y z : 0 <= d <= 1 -> near_block d y z -> z <= 900 -> measurable y = true -> usual y.
Proof.
  intros Hd (F & (Y0 & Z0 & B) & _) Hz Hm. apply usual_of; auto. change (bound 1000) with (bnd 1000). destruct bound_top as (FB & HB). apply le_iff; auto. change (B2R ?x) with (real x). eapply Rle_trans; [|exact HB].
  assert (sqrt z <= 30) as S. { replace 30 with (sqrt (30 * 30)) by (apply sqrt_square; lra). apply sqrt_le_1_alt. lra. }
  apply Rabs_le_inv in B. assert (0 <= sqrt (real y) <= 32) as S2 by (split; [apply sqrt_pos|lra]). rewrite <- (sqrt_sqrt (real y)) by auto. nra.
Qed.
(** ** the relative gate *)
Section Relative.
Variables (d : R) (k : R) (xs : list f64) (Zs : list R).
Hypothesis HN : Forall2 (measured_near d) xs Zs.
Hypothesis HD : decided k (2 * d) (1 / 50) Zs.
Hypothesis HL : loud Zs <> [].
Hypothesis Hk : 10 <= k.
Let ys := List.filter measurable xs.
Lemma ys_nonempty : ys <> [].
Proof. pose proof (loud_blocks d k _ xs Zs HN HD HL) as NB. fold ys in NB. intros X. rewrite X in NB. inversion NB. congruence. Qed.
Lemma gates_near : 0 < average (map real ys) / k /\ 0 < relative_gate k Zs /\ Rabs (sqrt (average (map real ys) / k) - sqrt (relative_gate k Zs)) <= 0.37 * d.
Proof.
  pose proof (error_visible d xs Zs HN HL) as V. assert (0 < / 10 ^ 12) as V0 by (apply Rinv_0_lt_compat, pow_lt; lra). pose proof (loud_blocks d k _ xs Zs HN HD HL) as NB. fold ys in NB. pose proof minus_70_bounds as (M0 & _). assert (0 < / 10 ^ 7) by (apply Rinv_0_lt_compat, pow_lt; lra).
  unfold relative_gate. set (Ys := loud Zs) in *.
  assert (Forall (fun z => minus_70 <= z) Ys) as LY. { apply Forall_forall. intros z Hz. unfold Ys, loud, not_below in Hz. apply filter_In in Hz. now destruct (Rle_dec minus_70 z). }
  assert (Forall2 (Played_proofs.paired (1.1 * d)) (map real ys) Ys) as NP. { clear - NB. induction NB as [|x Z l m (_ & H & _) _ IH]; cbn [map]; constructor; auto. }
  pose proof (average_near (1.1 * d) _ _ ltac:(lra) NP) as AN. pose proof (average_pos minus_70 Ys ltac:(lra) HL LY) as AP.
  assert (forall y, In y ys -> real (bound 0) <= real y) as YB. { intros y Hy. apply filter_In in Hy. destruct Hy as (Hy & Hm). unfold measurable in Hm. apply negb_true_iff in Hm. assert (is_finite y = true) as Fy. { destruct (Forall2_left _ _ _ y HN Hy) as (z & _ & H'). apply H'. }
    unfold f64_lt in Hm. rewrite Bltb_correct in Hm; [|auto|apply bound_root]. unfold real. destruct (Rlt_bool_spec (B2R y) (B2R (bound 0))); [discriminate|auto]. }
  pose proof ys_nonempty as Y0.
  assert (real (bound 0) <= average (map real ys)) as AY. { apply average_pos; [apply bound_root|now destruct ys|]. apply Forall_map, Forall_forall. auto. }
  pose proof (proj1 bound_root) as B0. set (a := average (map real ys)) in *. set (A := average Ys) in *.
  split; [apply Rdiv_lt_0_compat; lra|]. split; [apply Rdiv_lt_0_compat; lra|].
  rewrite !sqrt_div by lra. unfold Rdiv. rewrite <- Rmult_minus_distr_r, Rabs_mult. pose proof (sqrt_lt_R0 k ltac:(lra)) as sk. assert (3 <= sqrt k) as k3. { rewrite <- (sqrt_square 3) by lra. apply sqrt_le_1_alt. lra. }
  rewrite (Rabs_pos_eq (/ sqrt k)) by (left; now apply Rinv_0_lt_compat). assert (/ sqrt k <= / 3) by (apply Rinv_le_contravar; lra). apply Rle_trans with (1.1 * d * / 3); [|lra]. apply Rmult_le_compat; auto; [apply Rabs_pos|left; now apply Rinv_0_lt_compat].
Qed.
Lemma left_near : Forall2 (near_block d) (left_over ys k) (gated_blocks k Zs).
Proof.
  destruct gates_near as (ak & Ak & GN). pose proof (error_visible d xs Zs HN HL) as V. assert (0 < / 10 ^ 12) as V0 by (apply Rinv_0_lt_compat, pow_lt; lra). pose proof (loud_blocks d k _ xs Zs HN HD HL) as NB. fold ys in NB. destruct HD as (_ & HB).
  unfold left_over, passes, gated_blocks, not_below. rewrite exact_mean_singly. set (g := average (map real ys) / k) in *. set (G := relative_gate k Zs) in *. clearbody g G. fold (loud Zs) in *. pose proof (sqrt_pos G) as G0. clear HN HD HL. revert HB.
  induction NB as [|x Z l m Hx _ IH]; intros HB; [constructor|]. apply Forall_cons_iff in HB. destruct HB as (A1 & A2). cbn [List.filter].
  assert ((if Rle_dec g (real x) then true else false) = if Rle_dec G Z then true else false) as ->; [|destruct (Rle_dec G Z); auto].
  destruct Hx as (F & (X0 & Z0 & B) & _). assert (g <= real x <-> G <= Z) as EQ by (apply (same_side (1.1 * d) (real x) Z _ _ (0.37 * d)); auto; lra).
  destruct (Rle_dec g (real x)), (Rle_dec G Z); tauto.
Qed.
Lemma near_clear c : (forall X, 0 < X -> lufs (X / k) = lufs X - c) -> clear_of_gate c (11 / 100) (singly ys).
Proof.
  intros Hc n x Hin _ Hx. unfold singly in Hin. apply in_map_iff in Hin. destruct Hin as (y & [= <- <-] & Hy). rewrite exact_mean_singly.
  destruct gates_near as (ak & Ak & GN). assert (0 < average (map real ys)) as a0. { replace (average (map real ys)) with (average (map real ys) / k * k) by (field; lra). apply Rmult_lt_0_compat; lra. }
  rewrite <- (Hc _ a0). apply Rnot_le_lt. intros HB. pose proof (lufs_inj_bound (real y) _ (11 / 100) Hx ak ltac:(lra) HB) as HI.
  pose proof (error_visible d xs Zs HN HL) as V. assert (0 < / 10 ^ 12) as V0 by (apply Rinv_0_lt_compat, pow_lt; lra). pose proof (loud_blocks d k _ xs Zs HN HD HL) as NB. fold ys in NB. destruct (Forall2_left _ _ _ y NB Hy) as (z & Hz & _ & (_ & Z0 & B) & _).
  destruct HD as (_ & HF). rewrite Forall_forall in HF. specialize (HF z Hz). set (G := sqrt (relative_gate k Zs)) in *. set (g := sqrt (average (map real ys) / k)) in *. set (s := sqrt z) in *. set (w := sqrt (real y)) in *.
  assert (0 <= G) by apply sqrt_pos. clearbody G g s w. apply Rabs_le_inv in HI, B, GN. unfold Rabs in HF. destruct (Rcase_abs (s - G)); lra.
Qed.
End Relative.
(** ** integrated loudness *)
Lemma integrated_binned P E M e t xss : is_64bit P -> powf_contract E -> sort_contract E -> bsearch_contract E -> log10_contract E -> log10_accurate E -> tan_precise E -> powf_accurate E -> played P E e t -> heard_all P E M e t xss -> audio_rate (e_rate e) -> 0 <= M <= 2 ^ 400 ->
  has_I (e_mode e) -> has_HISTOGRAM (e_mode e) ->
  let l := momentary_blocks e t xss in let d := rms_error P (e_rate e) M (e_cmap e) in
  (N.of_nat (length l) <= small_count)%N -> decided 10 (2 * d) (1 / 50) l -> loud l <> [] -> Forall (fun z => z <= 900) l -> d <= 1 -> 5 * d <= sqrt (average (gated_blocks 10 l)) ->
  exists v, ask P E e QGlobal = Ret (AValue (Ok v)) /\ is_finite v = true /\ Rabs (real v - integrated l) <= 5 / 100 + 14 * (d / sqrt (average (gated_blocks 10 l))) + / 10 ^ 8.
Proof.
  intros HP HE HSo HBs HLc HL HT HW HPl HH HR HM HI Hh l d Hn HD HLo H9 Hd1 H5. destruct (played_blocks P E e t HP HPl) as (HTa & _).
  pose proof (taped_reachable P E e t HTa) as Hr. destruct (hop_large e HR) as (Hh1 & _ & Hh4).
  pose proof (energies_near P E M e t xss (4 * hop e) (block_ends (hop e) 0 (frames_of (signals t))) HP HT HW HR HM HH ltac:(lia) Hh4) as HN. fold d in HN. change (exact_energies _ _ _ _ _) with l in HN.
  pose proof (proj1 (recorded_bins P E e t HP HPl Hh) HI) as EB.
  set (xs := map (energy_at (capacity e) (4 * hop e) (e_cmap e) (signals t)) (block_ends (hop e) 0 (frames_of (signals t)))) in *. pose proof (Forall2_length _ _ _ HN) as Len.
  pose proof (ys_nonempty d 10 xs l HN HD HLo) as Y0. pose proof (loud_blocks d 10 _ xs l HN HD HLo) as NB. pose proof (left_near d 10 xs l HN HD HLo ltac:(lra)) as GB. pose proof (near_clear d 10 xs l HN HD HLo ltac:(lra) 10 lufs_tenth) as HC.
  set (ys := List.filter measurable xs) in *. assert (length ys <= length xs)%nat as LY by apply filter_short. unfold small_count in Hn.
  pose proof (error_visible d xs l HN HLo) as V. assert (0 < / 10 ^ 12) as V0 by (apply Rinv_0_lt_compat, pow_lt; lra).
  assert (forall y, In y ys -> usual y) as Hu.
  { intros y Hy. destruct (Forall2_left _ _ _ y NB Hy) as (z & Hz & X). apply (near_usual d y z); auto; [lra| |now apply filter_In in Hy]. rewrite Forall_forall in H9. apply H9. unfold loud, not_below in Hz. now apply filter_In in Hz. }
  assert (countable (blocks e)) as Hc by (unfold countable; rewrite EB, bins_population; lia).
  assert (population (blocks e) <> 0%N) as H0 by (rewrite EB, bins_population; destruct ys; [congruence|cbn; lia]).
  destruct (histogram_numbers P E e HP HE HSo HBs HLc Hr Hh) as (N1 & _). destruct (N1 HI Hc H0) as ((v & HA & Fv) & _). exists v. split; auto. split; auto.
  pose proof few_bins as (HF & _). assert (0 < tolerance 1105) as TP by apply tolerance_positive.
  assert (clear_of_gate 10 (tolerance 1105) (bins ys)) as HC'. { eapply clear_less; [|apply (bins_clear ys Hu Y0 10 (11 / 100) ltac:(unfold half_bin; cbn [pow]; lra) HC)]. unfold half_bin. cbn [pow] in *. lra. }
  pose proof (global_textbook P E e v HP HE HL Hr HI Hc) as X. cbv zeta in X. rewrite EB, effort_bins in X. destruct X as (_ & C); auto; [vm_compute; discriminate|]. unfold textbook_programme in C.
  pose proof (passing_near ys Hu Y0 10 10 (11 / 100) ltac:(lra) lufs_tenth ltac:(unfold half_bin; cbn [pow]; lra) HC (some_pass ys 10 Hu Y0 ltac:(lra))) as HP2. rewrite passing_list in HP2 by auto.
  set (W := gated_blocks 10 l) in *. set (zs := left_over ys 10) in *. assert (total (map real zs) / INR (length zs) = average (map real zs)) as EA by (unfold average; now rewrite map_length). rewrite EA in HP2.
  assert (Forall2 (Played_proofs.paired (1.1 * d)) (map real zs) W) as NP. { clear - GB. induction GB as [|? ? ? ? (_ & H & _) _ IH]; cbn [map]; constructor; auto. }
  pose proof (average_near (1.1 * d) _ _ ltac:(lra) NP) as AN. assert (0 < average W) as AW.
  { destruct (Rle_lt_dec (average W) 0) as [X|X]; auto. exfalso. rewrite (sqrt_neg_0 _ X) in H5. lra. }
  assert (0 <= average (map real zs)) as AZ. { destruct (Rle_lt_dec 0 (average (map real zs))) as [X|X]; auto. exfalso. rewrite (sqrt_neg_0 (average (map real zs))) in AN by lra. apply Rabs_le_inv in AN. lra. }
  destruct (lufs_roots (average (map real zs)) (average W) (1.1 * d) AZ AW ltac:(lra) ltac:(lra) AN) as (_ & LR).
  unfold integrated. fold W. pose proof (sqrt_lt_R0 _ AW) as S0. assert (0 <= d / sqrt (average W)) as Q0 by (apply Rmult_le_pos; [lra|left; now apply Rinv_0_lt_compat]).
  replace (1.1 * d / sqrt (average W)) with (1.1 * (d / sqrt (average W))) in LR by (unfold Rdiv; ring). set (q := d / sqrt (average W)) in *. clearbody q. unfold half_bin in HP2.
  set (b := lufs (exact_mean (textbook_passing 10 (bins ys)))) in *. set (c := lufs (average (map real zs))) in *. clearbody b c. set (tt := tolerance 1105) in *. clearbody tt.
  apply Rabs_le_inv in C, HP2, LR. apply Rabs_le. cbn [pow] in *. lra.
Qed.
(** ** loudness range *)
Lemma left_perm k l m : Permutation l m -> Permutation (left_over l k) (left_over m k).
Proof.
  intros H. unfold left_over. rewrite (Span_proofs.filter_perm _ l m H). assert (passes k (singly l) = passes k (singly m)) as ->; [|reflexivity]. unfold passes. rewrite (exact_mean_perm (singly l) (singly m)); auto. unfold singly. now apply Permutation_map.
Qed.
Lemma range_binned P E M e t xss : is_64bit P -> powf_contract E -> sort_contract E -> bsearch_contract E -> log10_contract E -> log10_accurate E -> tan_precise E -> powf_accurate E -> played P E e t -> heard_all P E M e t xss -> audio_rate (e_rate e) -> 0 <= M <= 2 ^ 400 ->
  has_LRA (e_mode e) -> has_HISTOGRAM (e_mode e) ->
  let l := shortterm_blocks e t xss in let d := rms_error P (e_rate e) M (e_cmap e) in
  (N.of_nat (length l) <= small_count)%N -> decided 100 (2 * d) (1 / 50) l -> loud l <> [] -> Forall (fun z => z <= 900) l -> d <= 1 ->
  forall r, Permutation r (gated_blocks 100 l) -> StronglySorted Rle r -> 5 * d <= sqrt (low_of r) ->
  exists v, ask P E e QRange = Ret (AValue (Ok v)) /\ is_finite v = true /\ Rabs (real v - (lufs (high_of r) - lufs (low_of r))) <= 1 / 10 + 28 * (d / sqrt (low_of r)) + / 10 ^ 8.
Proof.
  intros HP HE HSo HBs HLc HL HT HW HPl HH HR HM HI Hh l d Hn HD HLo H9 Hd1 r PR SR H5. destruct (played_blocks P E e t HP HPl) as (HTa & _).
  pose proof (taped_reachable P E e t HTa) as Hr. destruct (hop_large e HR) as (Hh1 & Hh4 & _).
  pose proof (energies_near P E M e t xss (30 * hop e) (short_ends (hop e) 0 (frames_of (signals t))) HP HT HW HR HM HH ltac:(lia) Hh4) as HN. fold d in HN. change (exact_energies _ _ _ _ _) with l in HN.
  pose proof (proj2 (recorded_bins P E e t HP HPl Hh) HI) as EB.
  set (xs := map (energy_at (capacity e) (30 * hop e) (e_cmap e) (signals t)) (short_ends (hop e) 0 (frames_of (signals t)))) in *. pose proof (Forall2_length _ _ _ HN) as Len.
  pose proof (ys_nonempty d 100 xs l HN HD HLo) as Y0. pose proof (loud_blocks d 100 _ xs l HN HD HLo) as NB. pose proof (left_near d 100 xs l HN HD HLo ltac:(lra)) as GB. pose proof (near_clear d 100 xs l HN HD HLo ltac:(lra) 20 lufs_hundredth) as HC.
  set (ys := List.filter measurable xs) in *. assert (length ys <= length xs)%nat as LY by apply filter_short. unfold small_count in Hn.
  pose proof (error_visible d xs l HN HLo) as V. assert (0 < / 10 ^ 12) as V0 by (apply Rinv_0_lt_compat, pow_lt; lra).
  assert (forall y, In y ys -> usual y) as Hu.
  { intros y Hy. destruct (Forall2_left _ _ _ y NB Hy) as (z & Hz & X). apply (near_usual d y z); auto; [lra| |now apply filter_In in Hy]. rewrite Forall_forall in H9. apply H9. unfold loud, not_below in Hz. now apply filter_In in Hz. }
  destruct (HSo ys) as (PM & SM & _). set (m := fst (e_sort E ys)) in *.
  assert (forall x, In x m -> usual x) as Hum by (intros x Hx; apply Hu; eapply Permutation_in; [symmetry; exact PM|auto]).
  assert (ascending m) as AM by (apply cmp_ascending; auto; apply Forall_forall; intros y Hy; apply Gate_proofs.finite_not_nan; apply (Hum y Hy)).
  pose proof (Permutation_length PM) as LM. assert (m <> []) as M0 by (intros X; rewrite X in LM; destruct ys; [congruence|discriminate LM]).
  rewrite (bins_same ys m PM) in EB. pose proof (clear_perm _ _ _ _ (Permutation_map (fun x => (1%N, x)) PM : Permutation (singly ys) (singly m)) HC) as HCm.
  assert (population (short_blocks e) <> 0%N) as H0 by (rewrite EB, bins_population; destruct m; [congruence|cbn; lia]).
  assert (population (short_blocks e) <= small_count)%N as Hsm by (rewrite EB, bins_population; unfold small_count; lia).
  destruct (histogram_numbers P E e HP HE HSo HBs HLc Hr Hh) as (_ & N1). destruct (N1 HI Hsm) as (v & HA & Fv & _). exists v. split; auto. split; auto.
  pose proof few_bins as (_ & HF). assert (0 < tolerance 2000) as TP by apply tolerance_positive.
  assert (2 * half_bin <= 11 / 100) as Ht by (unfold half_bin; cbn [pow]; lra).
  assert (clear_of_gate 20 (tolerance 2000) (bins m)) as HC'. { eapply clear_less; [|apply (bins_clear m Hum M0 20 (11 / 100) Ht HCm)]. unfold half_bin. cbn [pow] in *. lra. }
  pose proof (histogram_range_close P E e v HP HE HBs HL Hr HI Hh Hsm H0 HA Fv) as X. cbv zeta in X. rewrite EB, range_effort_bins in X. destruct X as (_ & C). specialize (C HC').
  unfold textbook_range in C. cbv zeta in C. rewrite textbook_kept, expand_kept, expand_bins, filter_map in C by auto. rewrite (choices m Hum M0 100 20 (11 / 100) ltac:(lra) lufs_hundredth Ht HCm) in C.
  pose proof (some_pass m 100 Hum M0 ltac:(lra)) as Hsome. destruct (percentiles_map to_centre _ Hsome) as (P1 & P2). rewrite P1, P2 in C.
  destruct (percentiles_in _ Hsome) as (J1 & J2). apply filter_In in J1, J2.
  pose proof (centre_near _ (Hum _ (proj1 J1))) as C1. pose proof (centre_near _ (Hum _ (proj1 J2))) as C2. pose proof (usual_positive _ (Hum _ (proj1 J1))) as A4. pose proof (usual_positive _ (Hum _ (proj1 J2))) as A5. unfold half_bin in C1, C2.
  pose proof (left_perm 100 ys m PM) as PZ. set (ws := left_over ys 100) in *. set (zs := left_over m 100) in *.
  assert (Forall2 (fun x y => Rabs (x - y) <= 1.1 * d) (map sqrt (map real ws)) (map sqrt (gated_blocks 100 l))) as NP.
  { clear - GB. induction GB as [|x Z a b (_ & (_ & _ & B) & _) _ IH]; cbn [map]; constructor; auto. }
  assert (forall y, In y zs -> In y m) as ZI by (intros y Hy; apply filter_In in Hy; apply Hy).
  assert (StronglySorted Rle (map sqrt (map real zs))) as S1. { apply sorted_map; [intros; now apply sqrt_le_1_alt|]. apply ascending_real; [now apply filter_sorted|]. apply Forall_forall. intros y Hy. apply (Hum y (ZI y Hy)). }
  assert (StronglySorted Rle (map sqrt r)) as S2 by (apply sorted_map; auto; intros; now apply sqrt_le_1_alt).
  assert (Permutation (map sqrt (map real ws)) (map sqrt (map real zs))) as Pa by now apply Permutation_map, Permutation_map.
  assert (Permutation (map sqrt (gated_blocks 100 l)) (map sqrt r)) as Pb by now apply Permutation_map; symmetry.
  assert (length zs = length r) as LZ. { rewrite <- (Permutation_length PZ), (Permutation_length PR). pose proof (Forall2_length _ _ _ NP) as X. rewrite !map_length in X. exact X. }
  assert (forall i, (i < length r)%nat -> Rabs (sqrt (real (nth i zs f64_zero)) - sqrt (nth i r 0)) <= 1.1 * d) as NI.
  { intros i Hi. pose proof (ranks_near _ _ _ _ _ NP Pa Pb S1 S2 i ltac:(now rewrite map_length)) as X.
    rewrite map_map in X. rewrite (nth_indep _ 0 (sqrt (real f64_zero))) in X by (rewrite map_length; lia). rewrite (map_nth (fun x => sqrt (real x))) in X.
    rewrite (nth_indep (map sqrt r) 0 (sqrt 0)) in X by (rewrite map_length; lia). rewrite (map_nth sqrt) in X. exact X. }
  assert (1 <= length r)%nat as R1. { destruct r as [|z r]; [|cbn; lia]. exfalso. unfold low_of in H5. cbn in H5. rewrite sqrt_0 in H5. lra. }
  pose proof (NI _ (high_index _ R1)) as NHi. pose proof (NI _ (low_index _ R1)) as NLo. fold (high_of r) in NHi. fold (low_of r) in NLo.
  assert (low_of r <= high_of r) as LH.
  { pose proof (low_high _ R1) as X. unfold low_of, high_of. pose proof (high_index _ R1) as X2. revert X X2. generalize ((length r - 1 + 5) / 10)%nat ((19 * (length r - 1) + 10) / 20)%nat. clear - SR. induction SR as [|z r Hs IH Hf]; intros i j Hij Hj; [cbn in Hj; lia|].
    destruct j as [|j]; [replace i with 0%nat by lia; lra|]. cbn [nth length] in *. destruct i as [|i]; [rewrite Forall_forall in Hf; apply Hf, nth_In; lia|apply IH; lia]. }
  assert (0 < low_of r) as L0. { destruct (Rle_lt_dec (low_of r) 0) as [X|X]; auto. exfalso. rewrite (sqrt_neg_0 _ X) in H5. lra. }
  pose proof (sqrt_lt_R0 _ L0) as q0. assert (sqrt (low_of r) <= sqrt (high_of r)) as QQ by now apply sqrt_le_1_alt.
  unfold high_percentile, low_percentile in C, C1, C2, A4, A5. fold zs in C, C1, C2, A4, A5. rewrite LZ in C, C1, C2, A4, A5.
  destruct (lufs_roots _ (high_of r) (1.1 * d) ltac:(left; exact A4) ltac:(lra) ltac:(lra) ltac:(lra) NHi) as (_ & LRh). destruct (lufs_roots _ (low_of r) (1.1 * d) ltac:(left; exact A5) ltac:(lra) ltac:(lra) ltac:(lra) NLo) as (_ & LRl).
  assert (1.1 * d / sqrt (high_of r) <= 1.1 * d / sqrt (low_of r)) as Q1 by (unfold Rdiv; apply Rmult_le_compat_l; [lra|apply Rinv_le_contravar; lra]).
  replace (1.1 * d / sqrt (low_of r)) with (1.1 * (d / sqrt (low_of r))) in * by (unfold Rdiv; ring). assert (0 <= d / sqrt (low_of r)) as Q0 by (apply Rmult_le_pos; [lra|left; now apply Rinv_0_lt_compat]). set (q := d / sqrt (low_of r)) in *. clearbody q.
  revert C C1 C2 LRh LRl Q0 Q1. generalize (1.1 * d / sqrt (high_of r)). generalize (nth ((19 * (length r - 1) + 10) / 20) zs f64_zero) (nth ((length r - 1 + 5) / 10) zs f64_zero). clear. intros hp lp q' C C1 C2 LRh LRl Q0 Q1.
  apply Rabs_le_inv in C, C1, C2, LRh, LRl. apply Rabs_le. cbn [pow] in *. lra.
Qed.
