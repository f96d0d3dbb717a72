(** Loudness range against the exact measurement of the input. *)
From Coq Require Import List Arith NArith ZArith Bool Lia Reals Lra Psatz Sorted Permutation.
From Flocq Require Import Core IEEE754.BinarySingleNaN.
From Verif Require Import Prelude Float Env Utils History Filter Ebur128 Spec Float_proofs Filter_proofs Ebur128_proofs Ops_proofs Stream_proofs Loud_proofs Feed_proofs Reach_proofs Trace_proofs Blocks_proofs Gating_proofs Answers_proofs Range_proofs Order_proofs
  Spec_real Spec_filter Spec_coeff Spec_accuracy Spec_history Spec_exact Spec_programme Accuracy_proofs Lufs_proofs Programme_proofs Rms_proofs Value_proofs Energy_proofs Exact_proofs Pass_proofs Report_proofs Played_proofs.
Import ListNotations.
Import Spec_history. Import Spec_exact.
Local Open Scope R_scope.

(** * Order statistics *)
Definition count (p : R -> bool) (l : list R) : nat := length (List.filter p l).
Definition upto (z : R) (x : R) : bool := if Rle_dec x z then true else false.
Definition under (z : R) (x : R) : bool := if Rlt_dec x z then true else false.
Lemma count_cons p x l : count p (x :: l) = ((if p x then 1 else 0) + count p l)%nat.
Proof. unfold count. cbn [List.filter]. now destruct (p x). Qed.
Lemma count_perm p l m : Permutation l m -> count p l = count p m.
Proof. induction 1; rewrite ?count_cons in *; try lia. Qed.
Lemma count_zero p l : Forall (fun x => p x = false) l -> count p l = 0%nat.
Proof. induction 1 as [|x l H _ IH]; [reflexivity|]. now rewrite count_cons, H, IH. Qed.
Lemma upto_many l : StronglySorted Rle l -> forall i, (i < length l)%nat -> (i + 1 <= count (upto (nth i l 0%R)) l)%nat.
Proof.
  induction 1 as [|x l Hs IH Hf]; intros i Hi; [cbn in Hi; lia|]. rewrite count_cons. assert (upto (nth i (x :: l) 0) x = true) as ->.
  { unfold upto. destruct (Rle_dec x (nth i (x :: l) 0)) as [|N]; auto. destruct N. destruct i; [cbn; lra|]. cbn [nth]. rewrite Forall_forall in Hf. apply Hf, nth_In. cbn in Hi. lia. }
  destruct i as [|i]; [lia|]. cbn [nth length] in *. specialize (IH i ltac:(lia)). lia.
Qed.
Lemma under_few l : StronglySorted Rle l -> forall i, (i < length l)%nat -> (count (under (nth i l 0%R)) l <= i)%nat.
Proof.
  induction 1 as [|x l Hs IH Hf]; intros i Hi; [cbn in Hi; lia|]. rewrite count_cons. destruct i as [|i].
  - cbn [nth]. rewrite count_zero. { unfold under. destruct (Rlt_dec x x); [lra|lia]. } eapply Forall_impl; [|exact Hf]. intros y Hy. unfold under. cbn in Hy. destruct (Rlt_dec y x); [lra|auto].
  - cbn [nth length] in *. specialize (IH i ltac:(lia)). destruct (under _ x); lia.
Qed.
Lemma count_shift D z a b : Forall2 (fun x y => x <= y + D) a b -> forall w, z + D < w -> (count (upto z) b <= count (under w) a)%nat.
Proof.
  induction 1 as [|x y a b H _ IH]; intros w Hw; [cbn; lia|]. rewrite !count_cons. specialize (IH w Hw). unfold upto at 1, under at 1. destruct (Rle_dec y z), (Rlt_dec x w); try lia; lra.
Qed.
(** the i-th smallest elements are as near as the elements *)
Lemma ranks_below D a b a' b' : Forall2 (fun x y => x <= y + D) a b -> Permutation a a' -> Permutation b b' -> StronglySorted Rle a' -> StronglySorted Rle b' ->
  forall i, (i < length b')%nat -> nth i a' 0 <= nth i b' 0 + D.
Proof.
  intros H PA PB SA SB i Hi. assert (length a' = length b') as L by (rewrite <- (Permutation_length PA), <- (Permutation_length PB); now apply (Forall2_length _ _ _ H)).
  apply Rnot_lt_le. intros N. pose proof (count_shift D _ a b H _ N) as C. rewrite (count_perm _ _ _ PA), (count_perm _ _ _ PB) in C.
  pose proof (upto_many b' SB i Hi). pose proof (under_few a' SA i ltac:(lia)). lia.
Qed.
Lemma Forall2_flip {A B} (Q : A -> B -> Prop) (R0 : B -> A -> Prop) l m : (forall x y, Q x y -> R0 y x) -> Forall2 Q l m -> Forall2 R0 m l.
Proof. intros H. induction 1; constructor; auto. Qed.
Lemma ranks_near D a b a' b' : Forall2 (fun x y => Rabs (x - y) <= D) a b -> Permutation a a' -> Permutation b b' -> StronglySorted Rle a' -> StronglySorted Rle b' ->
  forall i, (i < length b')%nat -> Rabs (nth i a' 0 - nth i b' 0) <= D.
Proof.
  intros H PA PB SA SB i Hi. assert (length a' = length b') as L by (rewrite <- (Permutation_length PA), <- (Permutation_length PB); now apply (Forall2_length _ _ _ H)).
  assert (Forall2 (fun x y => x <= y + D) a b) as H1 by (eapply Forall2_weaken; [|exact H]; intros x y B; cbn in B; apply Rabs_le_inv in B; lra).
  assert (Forall2 (fun x y => x <= y + D) b a) as H2 by (eapply Forall2_flip; [|exact H]; intros x y B; cbn in B; apply Rabs_le_inv in B; lra).
  pose proof (ranks_below D a b a' b' H1 PA PB SA SB i Hi). pose proof (ranks_below D b a b' a' H2 PB PA SB SA i ltac:(lia)). apply Rabs_le. lra.
Qed.
Lemma sorted_map (f : R -> R) l : (forall x y, x <= y -> f x <= f y) -> StronglySorted Rle l -> StronglySorted Rle (map f l).
Proof. intros M. induction 1 as [|x l Hs IH Hf]; cbn [map]; constructor; auto. apply Forall_map. eapply Forall_impl; [|exact Hf]. intros y Hy. now apply M. Qed.
Lemma ascending_real m : ascending m -> Forall (fun x => is_finite x = true) m -> StronglySorted Rle (map real m).
Proof.
  unfold ascending. induction 1 as [|x l Hs IH Hf]; intros F; cbn [map]; [constructor|]. inversion F as [|? ? F1 F2]; subst. constructor; auto. apply Forall_map. rewrite Forall_forall in *. intros y Hy. specialize (Hf y Hy). unfold f64_le in Hf.
  rewrite Bleb_correct in Hf by auto. unfold real. destruct (Rle_bool_spec (B2R x) (B2R y)); [auto|discriminate].
Qed.
Lemma filter_perm {A} (p : A -> bool) l m : Permutation l m -> Permutation (List.filter p l) (List.filter p m).
Proof. induction 1; cbn [List.filter]; try (destruct (p x); auto); auto. - destruct (p y); [destruct (p x); auto; constructor|destruct (p x); auto]. - eapply perm_trans; eauto. Qed.
Lemma filter_sorted {A} (Q : A -> A -> Prop) (p : A -> bool) l : StronglySorted Q l -> StronglySorted Q (List.filter p l).
Proof. induction 1 as [|x l Hs IH Hf]; cbn [List.filter]; [constructor|]. destruct (p x); auto. constructor; auto. apply Forall_forall. intros y Hy. apply filter_In in Hy. rewrite Forall_forall in Hf. now apply Hf. Qed.
Lemma total_perm l m : Permutation l m -> total l = total m.
Proof. induction 1; try reflexivity; try congruence; repeat change (total (?a :: ?l)) with (a + total l); [now rewrite IHPermutation|ring]. Qed.
Lemma high_index n : (1 <= n -> (19 * (n - 1) + 10) / 20 < n)%nat.
Proof. intros H. apply Nat.div_lt_upper_bound; lia. Qed.
Lemma low_index n : (1 <= n -> (n - 1 + 5) / 10 < n)%nat.
Proof. intros H. apply Nat.div_lt_upper_bound; lia. Qed.
Lemma low_high n : (1 <= n -> (n - 1 + 5) / 10 <= (19 * (n - 1) + 10) / 20)%nat.
Proof. intros H. apply Nat.div_le_lower_bound; [lia|]. pose proof (Nat.mul_div_le (n - 1 + 5) 10 ltac:(lia)). lia. Qed.

(** * Loudness range *)
Lemma range_exact P E M e t xss : is_64bit P -> powf_contract E -> sort_contract E -> log10_accurate E -> tan_precise E -> powf_accurate E -> played P E e t -> heard_all P E M e t xss -> audio_rate (e_rate e) -> 0 <= M <= 2 ^ 400 ->
  has_LRA (e_mode e) -> ~ has_HISTOGRAM (e_mode e) ->
  let l := shortterm_blocks e t xss in let d := rms_error P (e_rate e) M (e_cmap e) in
  (N.of_nat (length l) <= small_count)%N -> decided 100 (2 * d) (tolerance (length l + 1000) / 6) l -> loud l <> [] ->
  forall r, Permutation r (gated_blocks 100 l) -> StronglySorted Rle r -> 5 * d <= sqrt (low_of r) ->
  exists v, ask P E e QRange = Ret (AValue (Ok v)) /\ is_finite v = true /\ Rabs (real v - (lufs (high_of r) - lufs (low_of r))) <= 28 * (d / sqrt (low_of r)) + / 10 ^ 10.
Proof.
  intros HP HE HSo HL HT HW HPl HH HR HM HI Hh l d Hn HD HLo r PR SR H5. destruct (played_blocks P E e t HP HPl) as (HTa & _ & HB). specialize (HB HI).
  pose proof (taped_reachable P E e t HTa) as Hr. destruct (hop_large e HR) as (Hh1 & Hh4 & _).
  pose proof (energies_near P E M e t xss (30 * hop e) (short_ends (hop e) 0 (frames_of (signals t))) HP HT HW HR HM HH ltac:(lia) Hh4) as HN. fold d in HN. change (exact_energies _ _ _ _ _) with l in HN.
  set (xs := map (energy_at (capacity e) (30 * hop e) (e_cmap e) (signals t)) (short_ends (hop e) 0 (frames_of (signals t)))) in *. pose proof (Forall2_length _ _ _ HN) as Len.
  destruct (reachable_kind P E e HP Hr) as (_ & HK). assert (contains (e_mode e) MODE_HISTOGRAM = false) as CH by (apply not_true_is_false; rewrite contains_H; auto). rewrite CH in HK.
  set (ys := List.filter measurable xs) in *. assert (length ys <= length xs)%nat as LY by apply filter_short. unfold small_count in Hn.
  assert (short_blocks e = singly ys) as EB.
  { unfold short_blocks. unfold holds in HB. fold ys in HB. destruct (e_short e) as [q|c]; [|destruct HK; discriminate]. destruct HB as (_ & HQ). cbn [contents]. unfold latest in HQ. rewrite HQ. replace (length ys - N.to_nat (p_usize_max P / 3000))%nat with 0%nat; [reflexivity|].
    rewrite HP. assert (2 ^ 50 <= 18446744073709551615 / 3000)%N as X by (vm_compute; discriminate). change (2 ^ 50)%N with 1125899906842624%N in X. rewrite Len in LY. symmetry. apply Nat.sub_0_le. clear - X Hn LY. set (z := (18446744073709551615 / 3000)%N) in *. clearbody z. lia. }
  pose proof (loud_blocks d 100 (tolerance (length l + 1000) / 6) xs l HN HD HLo) as NB. fold ys in NB. assert (ys <> []) as Y0 by (intros X; rewrite X in NB; inversion NB; congruence).
  pose proof (error_visible d xs l HN HLo) as V. assert (0 < / 10 ^ 12) as V0 by (apply Rinv_0_lt_compat, pow_lt; lra).
  assert (forall y, In y ys -> exists Z, near_block d y Z) as NBI by (intros y Hy; destruct (Forall2_left _ _ _ y NB Hy) as (z & _ & X); now exists z).
  assert (forall y, In y ys -> is_finite y = true) as FY by (intros y Hy; destruct (NBI y Hy) as (Z & X); apply X).
  (* sorted *)
  destruct (HSo ys) as (PM & SM & _). set (m := fst (e_sort E ys)) in *.
  assert (forall y, In y m -> In y ys) as MI by (intros y Hy; eapply Permutation_in; [symmetry; exact PM|auto]).
  assert (Forall (fun x => f64_is_nan x = false) m) as MN by (apply Forall_forall; intros y Hy; apply Gate_proofs.finite_not_nan; auto).
  assert (ascending m) as AM by now apply cmp_ascending. pose proof (Permutation_length PM) as LM.
  assert (Permutation (short_blocks e) (singly m)) as PS by (rewrite EB; now apply Permutation_map).
  assert (m <> []) as M0 by (intros X; rewrite X in LM; destruct ys; [congruence|discriminate LM]).
  assert (N.of_nat (length m) <= small_count)%N as Hnm by (unfold small_count; lia).
  assert (countable (singly m)) as Hc by (apply small_countable; now rewrite population_singly).
  assert (Forall block_ok (singly m)) as Hbo. { eapply Permutation_Forall; [exact PS|]. eapply short_ok; eauto. unfold countable in *. rewrite (population_perm _ _ PS). exact Hc. }
  destruct (capacity_few P E e HP Hr) as (_ & H64). destruct (heard_near P E M e t xss HP HT HW HR HM HH) as (LC & _ & _ & _).
  assert (is_finite (energy_sum (singly m)) = true) as FS.
  { unfold energy_sum. apply sum_finite; auto; try reflexivity; [|cbn; lra|].
    - intros b Hb. apply in_map_iff in Hb. destruct Hb as (y & <- & Hy). apply FY. auto.
    - change (B2R f64_zero) with 0. rewrite Rplus_0_l. apply Rle_trans with (412 / 100 * Pass_proofs.weighted (singly m)); [apply Rmult_le_compat_r; [apply weighted_nonneg; auto; intros b Hb; apply in_map_iff in Hb; destruct Hb as (y & <- & Hy); apply FY; auto|lra]|]. refine (near_blocks_sum P (e_rate e) M (e_cmap e) m HR HM _ _ _); [lia|intros; apply NBI; auto|].
      rewrite pow_IZR, INR_IZR_INZ. apply IZR_le. change (2 ^ Z.of_nat 50)%Z with 1125899906842624%Z. lia. }
  assert (population (singly m) <> 0%N) as H0 by (rewrite population_singly; destruct m; [congruence|cbn; lia]).
  (* the reading *)
  pose proof (range_list P E e m HP HE HSo Hr HI Hh PS AM MN Hnm) as HA. exists (range_of E (singly m)). split; [exact HA|].
  assert (is_finite (range_of E (singly m)) = true) as Fv.
  { unfold range_of. destruct (N.eqb_spec (population (singly m)) 0) as [|_]; [congruence|]. cbv zeta. pose proof (range_passes E (singly m) HE Hbo Hc H0 FS) as Hp. set (p := expand (at_least _ _)) in *.
    destruct (Nat.eqb_spec (length p) 0) as [Z|_]; [now apply length_zero_iff_nil in Z|]. destruct (percentiles_in p Hp) as (I1 & I2).
    assert (forall y, In y p -> positive y) as PP.
    { intros y Hy. unfold p in Hy. rewrite at_least_singly, expand_singly in Hy. apply filter_In in Hy. destruct Hy as (Hy & _). apply MI in Hy. split; [now apply FY|]. apply filter_In in Hy. destruct Hy as (Hy & Hm). 
      unfold measurable in Hm. apply negb_true_iff in Hm. assert (is_finite y = true) as Fy. { apply FY. apply filter_In. split; auto. unfold measurable. now rewrite Hm. }
      destruct bound_root as (B0 & BF & _). unfold f64_lt in Hm. rewrite Bltb_correct in Hm by auto. unfold real in *. destruct (Rlt_bool_spec (B2R y) (B2R (bound 0))); [discriminate|lra]. }
    destruct (loudness_close E _ HL (PP _ I1)) as (F1 & _). destruct (loudness_close E _ HL (PP _ I2)) as (F2 & _). pose proof (loudness_size E _ HL (PP _ I1)) as Z1. pose proof (loudness_size E _ HL (PP _ I2)) as Z2.
    apply sub_small; auto. unfold real in *. eapply Rle_trans with 10000; [apply Rabs_le; apply Rabs_le_inv in Z1, Z2; lra|]. change (bpow radix2 1000) with (IZR (2 ^ 1000)). apply IZR_le. vm_compute. discriminate. }
  split; auto.
  destruct (range_close E (singly m) HL HE Hbo Hc ltac:(unfold singly; rewrite map_length; now apply small_few) H0 FS Fv) as (g & A1 & A2 & A3 & A4 & A5 & A6).
  rewrite at_least_singly, expand_singly in A4, A5, A6. set (zs := List.filter (fun x => f64_ge x g) m) in *. rewrite exact_mean_singly in A1, A3.
  assert (average (map real m) = average (map real ys)) as EA. { unfold average. rewrite !map_length, <- LM. f_equal. apply total_perm, Permutation_map. now symmetry. }
  rewrite EA in A1, A3. rewrite <- (lufs_hundredth _ A1) in A3.
  assert (tolerance (length (singly m) + 1000) <= tolerance (length l + 1000)) as TM by (apply tolerance_mono; unfold singly; rewrite map_length; lia).
  assert (few (length l + 1000)) as Hfn by (apply small_few; unfold small_count; lia). pose proof (few_u _ Hfn) as (U0 & U1).
  assert (0 <= tolerance (length l + 1000) <= 4 / 3) as HT1. { unfold tolerance. cbn [pow]. lra. }
  pose proof (gate_blocks d 100 _ xs l HN HD HLo ltac:(lra) g (tolerance (length l + 1000)) HT1 ltac:(lra) A2 ltac:(fold ys; lra)) as GB. fold ys in GB.
  set (ws := List.filter (fun x => f64_ge x g) ys) in *. assert (Permutation ws zs) as PZ by now apply filter_perm.
  assert (Forall2 (fun x y => Rabs (x - y) <= 1.1 * d) (map sqrt (map real ws)) (map sqrt (gated_blocks 100 l))) as NP.
  { clear - GB. induction GB as [|x Z a b (_ & (_ & _ & B) & _) _ IH]; cbn [map]; constructor; auto. }
  assert (forall y, In y zs -> In y m) as ZI by (intros y Hy; apply filter_In in Hy; apply Hy).
  assert (StronglySorted Rle (map sqrt (map real zs))) as S1. { apply sorted_map; [intros; now apply sqrt_le_1_alt|]. apply ascending_real; [now apply filter_sorted|]. apply Forall_forall. auto. }
  assert (StronglySorted Rle (map sqrt r)) as S2 by (apply sorted_map; auto; intros; now apply sqrt_le_1_alt).
  assert (Permutation (map sqrt (map real ws)) (map sqrt (map real zs))) as P1 by now apply Permutation_map, Permutation_map.
  assert (Permutation (map sqrt (gated_blocks 100 l)) (map sqrt r)) as P2 by now apply Permutation_map; symmetry.
  assert (length zs = length r) as LZ. { rewrite <- (Permutation_length PZ), (Permutation_length PR). pose proof (Forall2_length _ _ _ NP) as X. rewrite !map_length in X. exact X. }
  assert (forall i, (i < length r)%nat -> Rabs (sqrt (real (nth i zs f64_zero)) - sqrt (nth i r 0)) <= 1.1 * d) as NI.
  { intros i Hi. pose proof (ranks_near _ _ _ _ _ NP P1 P2 S1 S2 i ltac:(now rewrite map_length)) as X.
    rewrite map_map in X. rewrite (nth_indep _ 0 (sqrt (real f64_zero))) in X by (rewrite map_length; lia). rewrite (map_nth (fun x => sqrt (real x))) in X.
    rewrite (nth_indep (map sqrt r) 0 (sqrt 0)) in X by (rewrite map_length; lia). rewrite (map_nth sqrt) in X. exact X. }
  assert (1 <= length r)%nat as R1. { destruct r as [|z r]; [|cbn; lia]. exfalso. unfold low_of in H5. cbn in H5. rewrite sqrt_0 in H5. lra. }
  pose proof (NI _ (high_index _ R1)) as NHi. pose proof (NI _ (low_index _ R1)) as NLo. fold (high_of r) in NHi. fold (low_of r) in NLo.
  unfold high_percentile, low_percentile in A4, A5, A6. rewrite LZ in A4, A5, A6.
  assert (low_of r <= high_of r) as LH.
  { pose proof (low_high _ R1) as X. unfold low_of, high_of. pose proof (high_index _ R1) as X2. revert X X2. generalize ((length r - 1 + 5) / 10)%nat ((19 * (length r - 1) + 10) / 20)%nat. clear - SR. induction SR as [|z r Hs IH Hf]; intros i j Hij Hj; [cbn in Hj; lia|].
    destruct j as [|j]; [replace i with 0%nat by lia; lra|]. cbn [nth length] in *. destruct i as [|i]; [rewrite Forall_forall in Hf; apply Hf, nth_In; lia|apply IH; lia]. }
  assert (0 < low_of r) as L0. { destruct (Rle_lt_dec (low_of r) 0) as [X|X]; auto. exfalso. rewrite (sqrt_neg_0 _ X) in H5. lra. }
  pose proof (sqrt_lt_R0 _ L0) as q0. assert (sqrt (low_of r) <= sqrt (high_of r)) as QQ by now apply sqrt_le_1_alt.
  destruct A4 as (_ & A4), A5 as (_ & A5).
  destruct (lufs_roots _ (high_of r) (1.1 * d) ltac:(left; exact A4) ltac:(lra) ltac:(lra) ltac:(lra) NHi) as (_ & LRh). destruct (lufs_roots _ (low_of r) (1.1 * d) ltac:(left; exact A5) ltac:(lra) ltac:(lra) ltac:(lra) NLo) as (_ & LRl).
  assert (1.1 * d / sqrt (high_of r) <= 1.1 * d / sqrt (low_of r)) as Q1 by (unfold Rdiv; apply Rmult_le_compat_l; [lra|apply Rinv_le_contravar; lra]).
  replace (1.1 * d / sqrt (low_of r)) with (1.1 * (d / sqrt (low_of r))) in * by (unfold Rdiv; ring). assert (0 <= d / sqrt (low_of r)) as Q0 by (apply Rmult_le_pos; [lra|left; now apply Rinv_0_lt_compat]). set (q := d / sqrt (low_of r)) in *. clearbody q.
  set (v := range_of E (singly m)) in *. clearbody v. clear - A6 LRh LRl Q0 Q1. set (a := lufs (real (nth _ zs _))) in *. set (b := lufs (real (nth ((length r - 1 + 5) / 10) zs f64_zero))) in *. clearbody a b.
  apply Rabs_le_inv in A6. apply Rabs_le_inv in LRh. apply Rabs_le_inv in LRl. apply Rabs_le. cbn [pow] in *. lra.
Qed.
