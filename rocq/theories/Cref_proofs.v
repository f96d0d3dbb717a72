(** The histories of the C reference code against those of the Rust code. *)
From Coq Require Import List Arith NArith ZArith Bool Lia Reals Lra Psatz Sorted Permutation.
From Flocq Require Import Core IEEE754.BinarySingleNaN.
From Verif Require Import Prelude Float Env Tables Utils History Cref Spec Spec_real Spec_history Spec_accuracy Spec_cref
  Prelude_proofs Float_proofs Order_proofs History_proofs Table_proofs Gate_proofs Gating_proofs Pass_proofs Percent_proofs Range_proofs Lufs_proofs.
Import ListNotations.
Import Spec_history.
Local Open Scope nat_scope.

(** * The tables *)
Lemma first_bound L : c_pow L f64_ten (f64_div (f64_add (f64_of_Z (-70)) lit_0_691) f64_ten) = c_bound L 0.
Proof. unfold c_bound. f_equal. Qed.
Lemma init_tables E L : same_pow E L -> generate_histogram_bins E = (st_energies (history_init_c L), st_bounds (history_init_c L)).
Proof.
  intros H. unfold generate_histogram_bins, history_init_c. cbn [st_energies st_bounds]. rewrite first_bound.
  change (seq 0 1001) with (0 :: seq 1 1000). cbn [map]. f_equal; [|f_equal].
  - apply map_ext. intros i. apply H.
  - apply H.
  - apply map_ext. intros i. apply H.
Qed.

(** * Loops over the 1000 bins *)
Lemma cidx_idx {A} (l : list A) i a : idx l i = Ret a -> cidx l i = Ret a.
Proof. unfold idx, cidx. now destruct (nth_error l i). Qed.
Lemma cidx_nth {A} (l : list A) i d : i < length l -> cidx l i = Ret (nth i l d).
Proof. intros H. unfold cidx. now rewrite (List.nth_error_nth' l d H). Qed.
Lemma fold_bins {T} (g : T -> nat -> outcome T) (f : T -> N * f64 -> T) (c : list N) (es : list f64) : length c = length es ->
  (forall t i x e, cidx c i = Ret x -> cidx es i = Ret e -> g t i = Ret (f t (x, e))) -> forall n a t, a + n = length c ->
  ofold g t (seq a n) = Ret (fold_left f (skipn a (combine c es)) t).
Proof.
  intros Hl Hg. induction n as [|n IH]; intros a t Ha; cbn [seq ofold].
  - rewrite skipn_all2 by (rewrite combine_length; lia). reflexivity.
  - rewrite (Hg t a _ _ (cidx_nth c a 0%N ltac:(lia)) (cidx_nth es a f64_zero ltac:(lia))). cbn [obind]. rewrite IH by lia.
    assert (skipn a (combine c es) = (nth a c 0%N, nth a es f64_zero) :: skipn (S a) (combine c es)) as ->; [|reflexivity].
    clear IH Hg. assert (a < length c) as H by lia. clear Ha n t f g T. revert es Hl a H. induction c as [|x c IHc]; intros [|e es] Hl a H; cbn [length] in *; try lia.
    destruct a as [|a]; [reflexivity|]. cbn [combine skipn nth]. apply IHc; lia.
Qed.

(** * Positions of percentiles *)
Lemma position_c P p n : (p = lit_0_1 \/ p = lit_0_95) -> (n <= small_count)%N -> (n <= p_usize_max P)%N ->
  c_size_t P (f64_add (f64_mul (f64_of_N n) p) lit_0_5) = Ret (position (p_usize_max P) p n) /\ (position (p_usize_max P) p n <= n)%N.
Proof.
  intros Hp Hn HP. split; [|apply position_bound; auto; left; unfold small_count in Hn; lia].
  assert (is_finite p = true /\ (0 <= B2R p <= 1)%R) as (Fp & Bp).
  { destruct lit_95 as (F9 & B9), lit_10 as (F1 & B1). pose proof (bpow_gt_0 radix2 (-54)).
    assert (bpow radix2 (-54) = / 18014398509481984)%R as E54 by (cbn; lra). destruct Hp as [-> | ->]; split; auto; lra. }
  unfold small_count in Hn. destruct (of_N_real n ltac:(lia)) as (FN & EN & SN).
  assert (0 <= B2R (f64_of_N n))%R as P0 by (rewrite EN; apply rnd_nonneg, IZR_le; lia).
  destruct (mul_down _ p FN Fp P0 Bp) as (FM & EM).
  assert (B2R (f64_of_N n) = IZR (Z.of_N n)) as EX by (apply of_N_exact; unfold small_count; lia).
  assert (0 <= B2R (f64_mul (f64_of_N n) p) <= bpow radix2 65)%R as PM.
  { rewrite EM. split; [apply rnd_nonneg; nra|].
    assert (generic_format radix2 fexp64 (bpow radix2 65)) as G by (apply generic_format_bpow; vm_compute; discriminate).
    rewrite <- (rnd64_generic _ G). apply rnd_mono. assert (B2R (f64_of_N n) <= bpow radix2 65)%R; [|nra].
    rewrite EX. change (bpow radix2 65) with (IZR 36893488147419103232). apply IZR_le. lia. }
  destruct (add_half _ FM PM) as (FA & EA). pose proof (position_bound (Z.to_N (Btrunc (f64_add (f64_mul (f64_of_N n) p) lit_0_5))) p n Hp ltac:(left; lia)) as PB.
  set (x := f64_add (f64_mul (f64_of_N n) p) lit_0_5) in *.
  assert (0 <= B2R x)%R as P1 by (rewrite EA; apply rnd_nonneg; lra).
  assert (Btrunc x = Zfloor (B2R x)) as EB.
  { apply eq_IZR. rewrite Btrunc_correct by exact Hmax64. rewrite round_FIX_IZR. f_equal. now apply Ztrunc_floor. }
  assert (0 <= Zfloor (B2R x))%Z as Z0 by (apply Zfloor_lub; exact P1).
  unfold position in *. fold x in PB |- *. rewrite to_N_real in PB by auto. rewrite <- EB in PB. rewrite N.min_l in PB by lia.
  unfold c_size_t. rewrite FA, to_N_real by auto. rewrite <- EB in *. cbn [andb].
  destruct (Z.leb_spec 0 (Btrunc x)); [|lia]. destruct (Z.leb_spec (Btrunc x) (Z.of_N (p_usize_max P))); [|lia]. cbn [andb]. f_equal. lia.
Qed.
Lemma high_pos max n : (n <= small_count)%N -> (n <= max)%N -> N.to_nat (position max lit_0_95 n) = (19 * N.to_nat n + 10) / 20.
Proof.
  intros H1 H2. rewrite position_high by auto. pose proof (position_bound max lit_0_95 n ltac:(auto) ltac:(left; unfold small_count in H1; lia)) as B.
  rewrite position_high in B by auto. assert ((19 * n + 10) / 20 <= n)%N as B2.
  { pose proof (position_bound u64_max lit_0_95 n ltac:(auto) ltac:(left; unfold small_count in H1; lia)) as X. rewrite position_high in X by auto.
    unfold small_count, u64_max in *. lia. }
  rewrite N.min_l by lia. rewrite N2Nat.inj_div, N2Nat.inj_add, N2Nat.inj_mul. reflexivity.
Qed.
Lemma low_pos max n : (n <= small_count)%N -> (n <= max)%N -> N.to_nat (position max lit_0_1 n) = (N.to_nat n + 5) / 10.
Proof.
  intros H1 H2. rewrite position_low by auto. assert ((n + 5) / 10 <= n)%N as B2.
  { pose proof (position_bound u64_max lit_0_1 n ltac:(auto) ltac:(left; unfold small_count in H1; lia)) as X. rewrite position_low in X by auto.
    unfold small_count, u64_max in *. lia. }
  rewrite N.min_l by lia. rewrite N2Nat.inj_div, N2Nat.inj_add. reflexivity.
Qed.

(** * Counting up to a percentile *)
Lemma skip_below l g : skip_below_c l g = skipn (take_while_count (fun v => f64_lt v g) l) l.
Proof. induction l as [|x l IH]; [reflexivity|]. cbn [skip_below_c take_while_count]. destruct (f64_lt x g); auto. Qed.
Lemma firstn_next {A} (d : A) : forall l k, k < length l -> firstn (S k) l = firstn k l ++ [nth k l d].
Proof. induction l as [|x l IH]; intros k H; cbn [length] in H; [lia|]. destruct k as [|k]; [reflexivity|]. cbn [nth app]. rewrite (firstn_cons (S k)), IH by lia. reflexivity. Qed.
(** the loop started at bin [j] with the number of blocks in the bins from [s] to [j] *)
Lemma count_up c s pct : (pct < total_count (skipn s c))%N -> s <= length c ->
  forall fuel j size, size = total_count (firstn (j - s) (skipn s c)) -> s <= j <= length c -> length c - j < fuel ->
  exists J size', count_up_c fuel c size j pct = Ret (size', J) /\ j <= J <= length c /\ size' = total_count (firstn (J - s) (skipn s c)) /\ (pct < size')%N /\
    (J = j \/ exists k, J = S k /\ j <= k < length c /\ (total_count (firstn (k - s) (skipn s c)) <= pct)%N).
Proof.
  intros Hp Hs. induction fuel as [|fuel IH]; intros j size Hsz Hj Hf; [lia|]. cbn [count_up_c]. destruct (N.leb_spec size pct) as [Hle|Hgt].
  - assert (j < length c) as Hj'.
    { destruct (Nat.lt_ge_cases j (length c)); auto. rewrite firstn_all2 in Hsz by (rewrite skipn_length; lia). lia. }
    rewrite (cidx_nth c j 0%N) by auto. cbn [obind].
    assert (size + nth j c 0%N = total_count (firstn (j + 1 - s) (skipn s c)))%N as Hnext.
    { subst size. replace (j + 1 - s) with (S (j - s)) by lia. rewrite (firstn_next 0%N (skipn s c) (j - s)) by (rewrite skipn_length; lia).
      rewrite total_app. cbn [total_count fold_right]. rewrite nth_skipn'. replace (s + (j - s)) with j by lia. lia. }
    destruct (IH (j + 1) _ Hnext ltac:(lia) ltac:(lia)) as (J & size' & EJ & LJ & ES & PS & D). exists J, size'. split; auto. split; [lia|]. split; auto. split; auto.
    right. destruct D as [->|(k & -> & Hk & Hk2)]; [exists j; split; [lia|]; split; [lia|]; now rewrite <- Hsz|exists k; split; auto; split; auto; lia].
  - exists j, size. split; [reflexivity|]. split; [lia|]. auto.
Qed.

Section tables.
Context (L : libc).
Context (S0 : statics) (HS0 : S0 = history_init_c L).
Context (HB : st_bounds S0 = BOUNDARIES) (HE : st_energies S0 = ENERGIES).

Lemma find_loop_same x : forall fuel min max i, find_loop fuel x min max = Ret i -> find_loop_c S0 fuel x min max = Ret i.
Proof using HB.
  induction fuel as [|fuel IH]; intros min max i H; [discriminate H|]. cbn [find_loop find_loop_c] in *. rewrite HB.
  destruct (idx BOUNDARIES ((min + max) / 2)) as [b| | |] eqn:Eb; try discriminate H. rewrite (cidx_idx _ _ _ Eb). cbn [obind] in *.
  unfold sub_usize in H. destruct (Nat.leb _ _); cbn [obind] in H; [|discriminate H]. destruct (_ =? 1); auto.
Qed.
Lemma find_same x i : find_histogram_index x = Ret i -> find_histogram_index_c S0 x = Ret i.
Proof using HB. apply find_loop_same. Qed.
Lemma start_same x i : start_index x = Ret i -> start_index_c S0 x = Ret i.
Proof using HB HE.
  unfold start_index, start_index_c. rewrite HB, HE, (idx_bnd 0) by lia. rewrite (cidx_idx _ 0 _ (idx_bnd 0 ltac:(lia))). cbn [obind].
  destruct (f64_lt x (bnd 0)); auto. destruct (find_histogram_index x) as [k| | |] eqn:Ek; cbn [obind]; try discriminate. rewrite (find_same _ _ Ek). cbn [obind].
  destruct (idx ENERGIES k) as [e| | |] eqn:Ee; cbn [obind]; try discriminate. rewrite (cidx_idx _ _ _ Ee). cbn [obind]. auto.
Qed.

(** the same history in both languages *)
Definition mirrors (h : history) (hc : chistory) : Prop :=
  match h with
  | HQueue q => ch_use hc = false /\ ch_list hc = q_queue q /\ ch_max hc = q_max q /\ ch_size hc = N.of_nat (length (q_queue q)) /\
                (1 <= q_max q)%N
  | HHistogram c => ch_use hc = true /\ ch_hist hc = c /\ length c = 1000
  end.
Lemma mirrors_new us max : (1 <= max)%N -> mirrors (history_new us max) (history_create_c us max).
Proof. intros H. destruct us; [|cbn; auto]. cbn [history_new history_create_c mirrors ch_use ch_hist]. split; auto. Qed.
Lemma mirrors_add h hc x : f64_is_nan x = false -> mirrors h hc -> exists h' hc', history_add h x = Ret h' /\ history_add_c S0 hc x = Ret hc' /\ mirrors h' hc'.
Proof using HB.
  intros Hx HM. unfold history_add_c. rewrite HB, (cidx_idx _ 0 _ (idx_bnd 0 ltac:(lia))). cbn [obind].
  assert (f64_ge x (bnd 0) = measurable x) as ->.
  { rewrite measurable_eq. unfold f64_ge, f64_lt. rewrite Bltb_Bleb, negb_involutive; auto. }
  destruct h as [q|c].
  - rewrite add_queue. destruct HM as (HU & HL & HX & HS & H1). rewrite HU. destruct (measurable x); [|exists (HQueue q), hc; split; [reflexivity|]; split; [reflexivity|]; cbn [mirrors]; repeat split; assumption].
    rewrite HS, HX, HL. unfold queue_add. rewrite (N.eqb_sym (N.of_nat (length (q_queue q))) (q_max q)).
    destruct (q_max q =? N.of_nat (length (q_queue q)))%N eqn:E0; [apply N.eqb_eq in E0|apply N.eqb_neq in E0].
    + destruct (q_queue q) as [|y l] eqn:Eq; [cbn in E0; lia|]. cbn [tl]. eexists _, _. split; [reflexivity|]. split; [reflexivity|].
      cbn [mirrors ch_use ch_list ch_max ch_size q_queue q_max]. repeat split; auto. rewrite app_length. cbn [length]. lia.
    + eexists _, _. split; [reflexivity|]. split; [reflexivity|].
      cbn [mirrors ch_use ch_list ch_max ch_size q_queue q_max]. repeat split; auto. rewrite app_length. cbn [length]. lia.
  - destruct HM as (HU & HH & Hl). rewrite HU. unfold history_add. rewrite (idx_bnd 0) by lia. cbn [obind]. rewrite measurable_eq. destruct (f64_lt x (bnd 0)); cbn [negb].
    + exists (HHistogram c), hc. cbn [mirrors]. rewrite HH. auto.
    + destruct (histogram_add_ok c x Hl) as (i & n & E1 & Ei & Hi & Hn). rewrite E1. cbn [obind]. rewrite (find_same _ _ Ei). cbn [obind]. rewrite HH.
      unfold cidx. rewrite Hn. cbn [obind]. eexists _, _. split; [reflexivity|]. split; [reflexivity|]. cbn [mirrors ch_use ch_hist]. rewrite upd_length. auto.
Qed.
Lemma mirrors_record : forall xs h hc, no_nan xs -> mirrors h hc ->
  exists h' hc', record_all h xs = Ret h' /\ ofold (history_add_c S0) hc xs = Ret hc' /\ mirrors h' hc'.
Proof using HB.
  induction xs as [|x xs IH]; intros h hc Hn HM; cbn [record_all ofold]; [eauto|].
  destruct (mirrors_add h hc x (Forall_inv Hn) HM) as (h1 & hc1 & -> & -> & HM1). cbn [obind]. apply IH; auto. exact (Forall_inv_tail Hn).
Qed.

(** * The relative threshold *)
Lemma fold_list l : forall n t, fold_left (fun '(n, t) z => ((n + 1)%N, f64_add t z)) l (n, t) =
  ((n + N.of_nat (length l))%N, fold_left f64_add l t).
Proof. induction l as [|x l IH]; intros n t; cbn [fold_left length]; [f_equal; lia|]. rewrite IH. f_equal. lia. Qed.
Lemma fold_gated l g : forall n t, fold_left (fun '(n, t) z => if f64_ge z g then ((n + 1)%N, f64_add t z) else (n, t)) l (n, t) =
  ((n + N.of_nat (length (List.filter (fun z => f64_ge z g) l)))%N, fold_left f64_add (List.filter (fun z => f64_ge z g) l) t).
Proof.
  induction l as [|x l IH]; intros n t; cbn [fold_left List.filter length]; [f_equal; lia|].
  destruct (f64_ge x g); rewrite IH; cbn [fold_left length]; [f_equal; lia|reflexivity].
Qed.
Lemma calc_same h hc : mirrors h hc -> calc_relative_threshold_c S0 hc = Ret (population (contents h), energy_sum (contents h)).
Proof using HE.
  unfold calc_relative_threshold_c. destruct h as [q|c]; cbn [mirrors contents].
  - intros (-> & -> & _). rewrite fold_list, N.add_0_l. f_equal. f_equal; [now rewrite population_singly|now rewrite energy_sum_singly].
  - intros (-> & -> & Hl). rewrite HE.
    assert (length c = length ENERGIES) as Hll by (rewrite ENERGIES_length; auto).
    rewrite (fold_bins _ (fun '(n, t) '(x, e) => ((n + x)%N, f64_add t (f64_mul (f64_of_N x) e))) c ENERGIES Hll); [|intros (n, t) i x e -> ->; reflexivity|lia].
    cbn [skipn]. rewrite <- histogram_threshold. reflexivity.
Qed.

(** the library as the Rust code would see it *)
Context (E : ext) (HP : same_pow E L) (HLog : same_log E L).
Lemma gate_same : st_gate S0 = tenth E.
Proof using HP HS0. rewrite HS0, <- tenth_eq. unfold relative_gate_factor. rewrite HP. reflexivity. Qed.
Lemma twenty_same : st_twenty S0 = hundredth E.
Proof using HP HS0. rewrite HS0, <- hundredth_eq. unfold minus_twenty_decibels. rewrite HP. reflexivity. Qed.
Lemma loudness_same x : energy_to_loudness_c L x = loudness E x.
Proof using HLog. unfold energy_to_loudness_c, loudness. rewrite HLog. reflexivity. Qed.

Lemma sum_not_nan h : well_formed h -> no_nan (map snd (contents h)) -> countable (contents h) -> is_nan (energy_sum (contents h)) = false.
Proof using.
  intros Hw Hn Hc. destruct h as [q|c]; cbn [well_formed contents] in *.
  - apply sum_clean; [|reflexivity..]. apply clean_singly; auto. unfold no_nan in Hn. rewrite map_map in Hn. cbn [snd] in Hn. now rewrite map_id in Hn.
  - apply sum_clean; [now apply clean_bins|reflexivity..].
Qed.
Lemma threshold_same h hc : well_formed h -> no_nan (map snd (contents h)) -> countable (contents h) -> mirrors h hc ->
  history_relative_threshold_c L S0 hc = Ret (threshold E (contents h)).
Proof using HS0 HE HP HLog.
  intros Hw Hn Hc HM. unfold history_relative_threshold_c, threshold. rewrite (calc_same h hc HM). cbn [obind].
  destruct (population (contents h) =? 0)%N; auto. pose proof (sum_not_nan h Hw Hn Hc) as X. unfold f64_is_nan. rewrite X, gate_same, loudness_same. reflexivity.
Qed.
Lemma gated_same h hc : powf_contract E -> well_formed h -> no_nan (map snd (contents h)) -> countable (contents h) -> mirrors h hc ->
  history_gated_loudness_c L S0 hc = Ret (programme_loudness E [contents h]).
Proof using HS0 HB HE HP HLog.
  intros HPow Hw Hn Hc HM. unfold history_gated_loudness_c, programme_loudness, gated. rewrite (calc_same h hc HM). cbn [obind concat]. rewrite !app_nil_r.
  destruct (N.eqb_spec (population (contents h)) 0) as [E0|E0]; cbn [negb andb orb]; [reflexivity|]. rewrite (sum_all_one h Hw Hc).
  pose proof (sum_not_nan h Hw Hn Hc) as X. unfold f64_is_nan. rewrite X. cbn [andb orb]. rewrite gate_same.
  assert (f64_mul (f64_div (energy_sum (contents h)) (f64_of_N (population (contents h)))) (tenth E) = gate E [contents h]) as ->.
  { unfold gate, mean_all. rewrite (sum_all_one h Hw Hc). cbn [concat]. now rewrite app_nil_r. }
  set (g := gate E [contents h]). assert (is_nan g = false) as Hg.
  { apply gate_not_nan; auto; cbn [concat]; rewrite ?app_nil_r; auto. now rewrite (sum_all_one h Hw Hc). }
  destruct (start_index_ok g Hg) as (s & Es & Hs & HS). rewrite (start_same _ _ Es). cbn [obind].
  unfold passing. cbn [concat]. rewrite app_nil_r. fold g.
  assert ((if ch_use hc
    then ofold (fun '(n, g) j => c <- cidx (ch_hist hc) j;; e <- cidx (st_energies S0) j;; Ret ((n + c)%N, f64_add g (f64_mul (f64_of_N c) e))) (0%N, f64_zero) (seq s (1000 - s))
    else Ret (fold_left (fun '(n, g0) z => if f64_ge z g then ((n + 1)%N, f64_add g0 z) else (n, g0)) (ch_list hc) (0%N, f64_zero))) =
    Ret (population (at_least g (contents h)), energy_sum (at_least g (contents h)))) as ->.
  { destruct h as [q|c]; cbn [mirrors contents well_formed] in *.
    - destruct HM as (-> & -> & _). rewrite fold_gated, N.add_0_l. f_equal. fold (singly (q_queue q)). rewrite at_least_singly.
      unfold singly. now rewrite population_singly, energy_sum_singly.
    - destruct HM as (-> & -> & Hl). rewrite HE. assert (length c = length ENERGIES) as Hll by (rewrite ENERGIES_length; auto).
      rewrite (fold_bins _ (fun '(n, t) '(x, e) => ((n + x)%N, f64_add t (f64_mul (f64_of_N x) e))) c ENERGIES Hll); [|intros (n, t) i x e -> ->; reflexivity|lia].
      assert (at_least g (combine c ENERGIES) = skipn s (combine c ENERGIES)) as ->.
      { apply filter_suffix. intros j b Hb. destruct (combine_cen c j b Hl Hb) as (Hj & -> & _). now apply HS. }
      now rewrite fold_pairs, N.add_0_l. }
  cbn [obind]. destruct (population (at_least g (contents h)) =? 0)%N; auto. now rewrite loudness_same.
Qed.

Lemma list_same P h hc : powf_contract E -> qsort_contract L -> forall q, h = HQueue q -> Forall storable (q_queue q) -> no_nan (q_queue q) ->
  (N.of_nat (length (q_queue q)) <= small_count)%N -> (N.of_nat (length (q_queue q)) <= p_usize_max P)%N -> mirrors h hc ->
  exists m, Permutation (q_queue q) m /\ ascending m /\ history_loudness_range_c P L S0 hc = Ret (range_of E (singly m)).
Proof using HS0 HP HLog.
  intros HPow HQ q -> Hst Hn Hsm HU (EU & EL & _). destruct (HQ (q_queue q) Hn) as (Hp & Ha). set (m := c_qsort L (q_queue q)) in *.
  exists m. split; auto. split; auto. unfold history_loudness_range_c. rewrite EU, EL. fold m.
  assert (length m = length (q_queue q)) as Em by (symmetry; now apply Permutation_length). rewrite <- Em in *.
  assert (Forall storable m) as Hst' by (eapply Permutation_Forall; eauto). assert (Forall (fun x => is_nan x = false) m) as Hn' by (eapply Permutation_Forall; eauto).
  destruct (length m) as [|n0] eqn:En; [destruct m; [reflexivity|discriminate En]|]. rewrite <- En in *.
  assert (fold_left f64_add m f64_zero = energy_sum (singly m)) as -> by (unfold singly; now rewrite energy_sum_singly).
  rewrite twenty_same. assert (population (singly m) = N.of_nat (length m)) as EP by apply population_singly.
  assert (f64_of_nat (length m) = f64_of_N (population (singly m))) as -> by (rewrite EP; unfold f64_of_nat, f64_of_N; f_equal; lia).
  fold (mean_energy (singly m)). set (g := f64_mul (hundredth E) (mean_energy (singly m))).
  assert (population (singly m) <> 0%N) as H0 by (rewrite EP; lia).
  assert (is_nan g = false) as Hg.
  { apply integrated_not_nan; auto; [unfold countable, small_count in *; lia|]. apply sum_clean; [now apply clean_singly|reflexivity..]. }
  destruct (ascending_filter g m Ha Hn' Hg) as (EF & LF). rewrite skip_below, <- EF.
  unfold range_of. destruct (N.eqb_spec (population (singly m)) 0) as [?|_]; [congruence|]. cbv zeta. fold g. rewrite at_least_singly, expand_singly.
  assert (length (List.filter (fun x => f64_ge x g) m) <= length m) as LR by (rewrite EF, skipn_length; lia).
  set (r := List.filter (fun x => f64_ge x g) m) in *. destruct (length r) as [|n] eqn:Er; [reflexivity|]. cbn [Nat.eqb].
  assert (f64_of_nat n = f64_of_N (N.of_nat n)) as -> by (unfold f64_of_nat, f64_of_N; f_equal; lia).
  destruct (position_c P lit_0_95 (N.of_nat n) ltac:(auto) ltac:(lia) ltac:(lia)) as (-> & B9).
  destruct (position_c P lit_0_1 (N.of_nat n) ltac:(auto) ltac:(lia) ltac:(lia)) as (-> & B1). cbn [obind].
  rewrite (cidx_nth r _ f64_zero) by lia. cbn [obind]. rewrite (cidx_nth r _ f64_zero) by lia. cbn [obind].
  rewrite !loudness_same. unfold high_percentile, low_percentile. rewrite Er, high_pos, low_pos by lia. rewrite !Nat2N.id. replace (S n - 1) with n by lia. reflexivity.
Qed.

Lemma first_fold : forall (l : list (N * f64)) hs n t,
  fold_left (fun '(hist, size, power) '(c, e) => (hist ++ [c], (size + c)%N, f64_add power (f64_mul (f64_of_N c) e))) l (hs, n, t) =
  (hs ++ map fst l, (n + population l)%N, fold_left (fun t '(n, x) => f64_add t (f64_mul (f64_of_N n) x)) l t).
Proof using.
  induction l as [|(c, e) l IH]; intros hs n t; cbn [fold_left map].
  - rewrite app_nil_r. change (population []) with 0%N. now rewrite N.add_0_r.
  - rewrite IH, population_cons, <- app_assoc. cbn [fst app]. do 2 f_equal. lia.
Qed.
Lemma map_fst_combine : forall (c : list N) (es : list f64), length c = length es -> map fst (combine c es) = c.
Proof using. induction c as [|x c IH]; intros [|e es] H; cbn [length combine map fst] in *; try discriminate H; auto. f_equal. apply IH. now injection H. Qed.
Lemma count_from c : forall n a t, a + n = length c ->
  ofold (fun size j => x <- cidx c j ;; Ret (size + x)%N) t (seq a n) = Ret (t + total_count (skipn a c))%N.
Proof using.
  induction n as [|n IH]; intros a t Ha; cbn [seq ofold].
  - rewrite skipn_all2 by lia. cbn. now rewrite N.add_0_r.
  - rewrite (cidx_nth c a 0%N) by lia. cbn [obind]. rewrite IH by lia. f_equal.
    assert (skipn a c = nth a c 0%N :: skipn (S a) c) as ->; [|unfold total_count; cbn [fold_right]; lia].
    assert (a < length c) as H by lia. clear - H. revert a H. induction c as [|x c IHc]; intros a H; cbn [length] in H; [lia|].
    destruct a as [|a]; [reflexivity|]. cbn [skipn nth]. apply IHc. lia.
Qed.
Lemma bin_nth c s k q : length c = 1000 -> s <= k < 1000 ->
  (total_count (firstn (k - s) (skipn s c)) <= q < total_count (firstn (S k - s) (skipn s c)))%N ->
  cidx (st_energies S0) k = Ret (nth (N.to_nat q) (expand (skipn s (combine c ENERGIES))) f64_zero).
Proof using HE.
  intros Hl Hk Hq. rewrite HE. rewrite (cidx_idx _ _ _ (idx_cen k ltac:(lia))). f_equal. rewrite <- skipn_combine.
  assert (forall J, population (firstn J (combine (skipn s c) (skipn s ENERGIES))) = total_count (firstn J (skipn s c))) as HJ.
  { intros J. rewrite combine_firstn. apply population_combine. rewrite !firstn_length, !skipn_length, ENERGIES_length. lia. }
  rewrite (expand_nth _ (k - s) q).
  - rewrite combine_nth by (rewrite !skipn_length, ENERGIES_length; lia). cbn [snd]. rewrite nth_skipn'. replace (s + (k - s)) with k by lia. reflexivity.
  - rewrite combine_length, !skipn_length, ENERGIES_length. lia.
  - rewrite !HJ. replace (S (k - s)) with (S k - s) by lia. exact Hq.
Qed.
Lemma bins_same P h hc : powf_contract E -> forall c, h = HHistogram c -> length c = 1000 ->
  (population (combine c ENERGIES) <= small_count)%N -> (population (combine c ENERGIES) <= p_usize_max P)%N -> mirrors h hc ->
  history_loudness_range_c P L S0 hc = Ret (range_of E (combine c ENERGIES)).
Proof using HS0 HB HE HP HLog.
  intros HPow c -> Hl Hsm HU (EU & EH & _). unfold history_loudness_range_c. rewrite EU, EH.
  assert (length c = length ENERGIES) as Hll by (rewrite ENERGIES_length; auto).
  assert (length c = length (st_energies S0)) as Hlc by (now rewrite HE).
  rewrite (fold_bins _ (fun '(hist, size, power) '(x, e) => (hist ++ [x], (size + x)%N, f64_add power (f64_mul (f64_of_N x) e))) c (st_energies S0) Hlc);
    [|intros ((hs, n), t) i x e -> ->; reflexivity|lia].
  cbn [skipn obind]. rewrite HE, first_fold, map_fst_combine, N.add_0_l by auto. cbn [app obind]. set (l := combine c ENERGIES) in *. fold (energy_sum l).
  assert (countable l) as HC by (unfold countable, small_count in *; lia). unfold range_of.
  destruct (N.eqb_spec (population l) 0) as [|H0]; [reflexivity|].
  assert (is_nan (energy_sum l) = false) as HN by (apply sum_clean; [now apply clean_bins|reflexivity..]).
  cbv zeta. rewrite twenty_same. fold (mean_energy l).
  set (g := f64_mul (hundredth E) (mean_energy l)). assert (is_nan g = false) as Hg by (now apply integrated_not_nan).
  destruct (start_index_ok g Hg) as (s & Es & Ls & HSt). rewrite (start_same _ _ Es). cbn [obind].
  rewrite count_from by lia. rewrite N.add_0_l. cbn [obind].
  assert (at_least g l = skipn s l) as EA.
  { apply filter_suffix. intros j b Hb. destruct (combine_cen c j b Hl Hb) as (Hj & -> & _). now apply HSt. }
  rewrite EA. assert (length (expand (skipn s l)) = N.to_nat (total_count (skipn s c))) as EL.
  { rewrite expand_length. f_equal. unfold l. rewrite <- skipn_combine. apply population_combine. rewrite !skipn_length, ENERGIES_length. lia. }
  assert (population l = total_count c) as EP by (apply population_combine; rewrite ENERGIES_length; lia).
  pose proof (total_split s c) as TS. rewrite EL. set (n := total_count (skipn s c)) in *. destruct (N.eqb_spec n 0) as [->|Hn]; [reflexivity|].
  destruct (Nat.eqb_spec (N.to_nat n) 0); [lia|].
  destruct (position_c P lit_0_1 (n - 1) ltac:(auto) ltac:(lia) ltac:(lia)) as (-> & B1).
  destruct (position_c P lit_0_95 (n - 1) ltac:(auto) ltac:(lia) ltac:(lia)) as (-> & B9). cbn [obind].
  pose proof (low_pos (p_usize_max P) (n - 1) ltac:(lia) ltac:(lia)) as E1. pose proof (high_pos (p_usize_max P) (n - 1) ltac:(lia) ltac:(lia)) as E9.
  set (pl := position (p_usize_max P) lit_0_1 (n - 1)) in *. set (ph := position (p_usize_max P) lit_0_95 (n - 1)) in *.
  assert (pl <= ph)%N as Hle.
  { enough (N.to_nat pl <= N.to_nat ph) by lia. rewrite E1, E9. set (k := N.to_nat (n - 1)).
    replace ((k + 5) / 10) with ((2 * (k + 5)) / (2 * 10)) by (apply Nat.div_mul_cancel_l; lia). apply Nat.div_le_mono; lia. }
  clearbody pl ph.
  destruct (count_up c s pl ltac:(fold n; lia) ltac:(lia) 1001 s 0%N) as (J1 & z1 & -> & L1 & Z1 & P1 & D1); [now rewrite Nat.sub_diag|lia|lia|].
  cbn [obind]. destruct D1 as [->|(k1 & -> & Hk1 & Q1)]; [rewrite Nat.sub_diag in Z1; cbn in Z1; lia|]. cbn [before_c].
  rewrite (bin_nth c s k1 pl) by (auto; try lia; rewrite <- Z1; lia). cbn [obind].
  destruct (count_up c s ph ltac:(fold n; lia) ltac:(lia) 1001 (S k1) z1) as (J2 & z2 & -> & L2 & Z2 & P2 & D2); [auto|lia|lia|].
  cbn [obind]. assert (exists k2, J2 = S k2 /\ s <= k2 < 1000 /\ (total_count (firstn (k2 - s) (skipn s c)) <= ph)%N) as (k2 & -> & Hk2 & Q2).
  { destruct D2 as [->|(k2 & -> & Hk2 & Q2)]; [exists k1|exists k2]; split; auto; split; lia. }
  cbn [before_c]. rewrite (bin_nth c s k2 ph) by (auto; try lia; rewrite <- Z2; lia). cbn [obind].
  rewrite !loudness_same. unfold high_percentile, low_percentile. rewrite EL, E1, E9. fold l. replace (N.to_nat (n - 1)) with (N.to_nat n - 1) by lia. reflexivity.
Qed.
End tables.
