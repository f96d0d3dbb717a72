(** Readings of the C reference histories against those of the Rust histories. *)
From Coq Require Import List Arith NArith ZArith Bool Lia Reals Lra Psatz Sorted Permutation.
From Flocq Require Import Core IEEE754.BinarySingleNaN.
From Verif Require Import Prelude Float Env Tables Utils History Ebur128 Cref Spec Spec_real Spec_history Spec_accuracy Spec_cref
  Prelude_proofs Reach_proofs Float_proofs Order_proofs History_proofs Energy_proofs Table_proofs Accuracy_proofs Gate_proofs Gating_proofs Pass_proofs Value_proofs
  Percent_proofs Range_proofs Lufs_proofs Calibration_proofs Rms_proofs Answers_proofs Blocks_proofs Stream_proofs Report_proofs Cref_proofs.
Import ListNotations.
Import Spec_history.
Local Open Scope nat_scope.

Lemma pop_at_least_le g l : (population (at_least g l) <= population l)%N.
Proof. induction l as [|(n, x) l IH]; [reflexivity|]. unfold at_least in *. cbn [List.filter]. destruct (f64_ge _ _); rewrite ?population_cons; lia. Qed.

(** * What is recorded *)
Definition sane (h : history) (n : N) : Prop := well_formed h /\ no_nan (map snd (contents h)) /\ (population (contents h) <= n)%N.
Lemma bins_no_nan (c : list N) : length c = 1000 -> no_nan (map snd (combine c ENERGIES)).
Proof.
  intros Hl. apply Forall_forall. intros x Hx. apply in_map_iff in Hx. destruct Hx as ((n, y) & <- & Hb). apply In_combine_cen in Hb. destruct Hb as (i & Hi & -> & _).
  cbn [snd]. apply finite_not_nan. apply table_finite. lia.
Qed.
Lemma total_upd : forall c i n, nth_error c i = Some n -> total_count (upd c i (n + 1)%N) = (total_count c + 1)%N.
Proof.
  induction c as [|x c IH]; intros [|i] n H; cbn [nth_error] in H; try discriminate H; unfold total_count in *; cbn [upd fold_right].
  - injection H as ->. lia.
  - rewrite (IH i n H). lia.
Qed.
Lemma sane_new us max : sane (history_new us max) 0.
Proof.
  destruct us; unfold sane, history_new.
  - cbn [well_formed contents]. split; [reflexivity|]. split; [now apply bins_no_nan|]. vm_compute. discriminate.
  - cbn. repeat split; constructor || (vm_compute; discriminate).
Qed.
Lemma sane_add h x h' n : f64_is_nan x = false -> sane h n -> history_add h x = Ret h' -> sane h' (n + (if measurable x then 1 else 0)).
Proof.
  intros Hx (H1 & H2 & H3). destruct h as [q|c]; cbn [well_formed contents] in *.
  - rewrite add_queue. intros [= <-]. destruct (measurable x) eqn:EM; [|split; [|split]; cbn [well_formed contents]; auto; lia].
    assert (exists r, q_queue (queue_add q x) = r ++ [x] /\ Forall storable r /\ no_nan r /\ length r <= length (q_queue q)) as (r & ER & R1 & R2 & R3).
    { rewrite map_map in H2. cbn [snd] in H2. rewrite map_id in H2. unfold queue_add. destruct (_ =? _)%N; cbn [q_queue].
      - exists (tl (q_queue q)). split; auto. destruct (q_queue q) as [|y l]; cbn [tl length]; auto. inversion H1; inversion H2; auto.
      - exists (q_queue q). auto. }
    unfold sane. cbn [well_formed contents]. rewrite ER. rewrite population_singly in *. rewrite map_map, map_id. rewrite app_length. cbn [length].
    split; [apply Forall_app; split; auto; constructor; [now left|constructor]|]. split; [apply Forall_app; split; auto|lia].
  - unfold history_add. rewrite (idx_bnd 0) by lia. cbn [obind]. rewrite measurable_eq. destruct (f64_lt x (bnd 0)); cbn [negb].
    + intros [= <-]. split; [|split]; cbn [well_formed contents]; auto. lia.
    + destruct (histogram_add_ok c x H1) as (i & k & -> & _ & _ & Hk). cbn [obind]. intros [= <-]. unfold sane. cbn [well_formed contents].
      assert (length (upd c i (k + 1)%N) = 1000) as Hl by (now rewrite upd_length). split; auto. split; [now apply bins_no_nan|].
      rewrite population_combine in * by (rewrite ENERGIES_length; lia). rewrite total_upd by auto. lia.
Qed.
Lemma sane_record : forall xs h n h', no_nan xs -> sane h n -> record_all h xs = Ret h' -> sane h' (n + N.of_nat (length (List.filter measurable xs))).
Proof.
  induction xs as [|x xs IH]; intros h n h' Hn HS; cbn [record_all List.filter].
  - intros [= <-]. replace (n + N.of_nat (length (@nil f64)))%N with n by (cbn [length]; lia). exact HS.
  - destruct (history_add h x) as [h1| | |] eqn:E1; cbn [obind]; try discriminate. intros H.
    pose proof (IH h1 _ h' (Forall_inv_tail Hn) (sane_add h x h1 n (Forall_inv Hn) HS E1) H) as X.
    replace (n + N.of_nat (length (if measurable x then x :: List.filter measurable xs else List.filter measurable xs)))%N with
      (n + (if measurable x then 1 else 0) + N.of_nat (length (List.filter measurable xs)))%N by (destruct (measurable x); cbn [length]; lia). exact X.
Qed.

(** * The same library *)
Record agree (P : platform) (E : ext) (L : libc) (h : history) (hc : chistory) (g t r gc tc rc : f64) : Prop := {
  ag_gated : gated_loudness P E h = Ret g;
  ag_threshold : history_relative_threshold P E h = t;
  ag_range : history_loudness_range P E h = Ret r;
  ag_gated_c : history_gated_loudness_c L (history_init_c L) hc = Ret gc;
  ag_threshold_c : history_relative_threshold_c L (history_init_c L) hc = Ret tc;
  ag_range_c : history_loudness_range_c P L (history_init_c L) hc = Ret rc;
}.
Lemma init_bounds E L : same_pow E L -> regenerates E -> st_bounds (history_init_c L) = BOUNDARIES /\ st_energies (history_init_c L) = ENERGIES.
Proof. intros H1 H2. pose proof (init_tables E L H1) as X. unfold regenerates in H2. rewrite H2 in X. apply pair_equal_spec in X. destruct X as (X1 & X2). split; symmetry; assumption. Qed.

(** [E] is Rust's library, [E'] the one that gives the C results *)
Lemma readings P E E' L us max xs : powf_contract E -> sort_contract E -> bsearch_contract E -> qsort_contract L -> same_pow E L -> regenerates E ->
  same_pow E' L -> same_log E' L -> no_nan xs -> (1 <= max)%N -> (N.of_nat (length (List.filter measurable xs)) <= small_count)%N -> is_64bit P ->
  exists h hc l m, record_all (history_new us max) xs = Ret h /\ recorded_c L us max xs = Ret hc /\ sane h (N.of_nat (length (List.filter measurable xs))) /\ l = contents h /\
    Permutation l m /\ Forall (fun b => unsigned (snd b)) m /\
    agree P E L h hc (programme_loudness E [l]) (threshold E l) (range_of E m) (programme_loudness E' [l]) (threshold E' l) (range_of E' m).
Proof.
  intros HE HS HB HQ HP HR HP' HL' Hn Hmax Hlen H64. destruct (init_bounds E L HP HR) as (EB & EE).
  destruct (mirrors_record (history_init_c L) EB xs (history_new us max) (history_create_c us max) Hn (mirrors_new us max Hmax)) as (h & hc & R1 & R2 & HM).
  pose proof (sane_record xs _ 0%N h Hn (sane_new us max) R1) as HSn. rewrite N.add_0_l in HSn. pose proof HSn as (W1 & W2 & W3).
  assert (countable (contents h)) as HC by (unfold countable, small_count in *; lia).
  assert (powf_contract E') as HE'. { unfold powf_contract, tenth, hundredth in *. rewrite !HP', <- !HP. exact HE. }
  assert (exists m, Permutation (contents h) m /\ Forall (fun b => unsigned (snd b)) m /\ one_range P E h = Ret (Ok (range_of E m)) /\
            history_loudness_range_c P L (history_init_c L) hc = Ret (range_of E' m)) as (m & Pm & Um & M1 & M2).
  { pose proof (contents_unsigned h W1 HC) as HU.
    assert (forall m, Permutation (contents h) m -> Forall (fun b => unsigned (snd b)) m) as HUm.
    { intros m Hp. eapply Permutation_Forall; [exact Hp|]. eapply Forall_impl; [|exact HU]. now intros b (B & _). }
    destruct h as [q|c]; cbn [well_formed contents] in *.
    - rewrite map_map in W2. cbn [snd] in W2. rewrite map_id in W2. rewrite population_singly in W3.
      destruct (list_same L (history_init_c L) eq_refl E' HP' HL' P (HQueue q) hc HE' HQ q eq_refl W1 W2 ltac:(lia) ltac:(red in H64; rewrite H64; unfold small_count in Hlen; lia) HM) as (m & Pm & Am & Em).
      exists (singly m). assert (Permutation (map (fun x => (1%N, x)) (q_queue q)) (singly m)) as Pm2 by (now apply Permutation_map).
      split; auto. split; auto. split; auto. cbn [one_range]. apply list_range_ok; auto. lia.
    - exists (combine c ENERGIES). split; auto. split; auto. split.
      + cbn [one_range]. rewrite histogram_range_ok by (auto; lia). reflexivity.
      + apply (bins_same L (history_init_c L) eq_refl EB EE E' HP' HL' P (HHistogram c) hc HE' c eq_refl W1); auto; [lia|]. red in H64. rewrite H64. unfold small_count in Hlen. lia. }
  exists h, hc, (contents h), m. split; auto. split; auto. split; auto. split; auto. split; auto. split; auto. constructor.
  - unfold gated_loudness. rewrite gated_loudness_ok; cbn [map concat]; auto. now rewrite app_nil_r.
  - now apply threshold_ok.
  - unfold history_loudness_range. rewrite range_single, M1. reflexivity.
  - apply (gated_same L (history_init_c L) eq_refl EB EE E' HP' HL'); auto.
  - apply (threshold_same L (history_init_c L) eq_refl EE E' HP' HL'); auto.
  - exact M2.
Qed.

Local Open Scope R_scope.
(** * log(x) / log(10) *)
Definition with_log (E : ext) (L : libc) : ext :=
  {| e_tan := e_tan E; e_sin := e_sin E; e_cos := e_cos E; e_log10 := fun x => f64_div (c_log L x) (c_log L (f64_of_Z 10)); e_powf := e_powf E;
     e_bsearch := e_bsearch E; e_sort := e_sort E |}.
Lemma ten_positive : positive (f64_of_Z 10).
Proof. destruct ten_real as (F & E). split; auto. unfold real. rewrite E. lra. Qed.
Lemma quotient_accurate E L : log_accurate L -> log10_accurate (with_log E L).
Proof.
  intros (HL & H10 & HI & HZ & HN). destruct (HL _ ten_positive) as (F10 & _). unfold log10_accurate, log10_nan, with_log. cbn [e_log10].
  set (t := c_log L (f64_of_Z 10)) in *. pose proof ln10_5 as LL. pose proof ln10_upper as LU. apply Rabs_le_inv in H10.
  assert (/ 2 ^ 51 <= / 1000) as S51. { apply Rinv_le_contravar; [lra|]. cbn. lra. }
  assert (2.22 <= real t <= 2.6) as Bt by lra.
  assert (exists m e B, t = B754_finite false m e B) as (mt & et & Bt' & Et).
  { unfold real in Bt. destruct t as [s|s| |[] m e B]; cbn in Bt; try lra; try discriminate F10; [|eauto].
    assert (F2R (Float radix2 (Z.neg m) e) <= 0) by (apply F2R_le_0; cbn; lia). cbn in Bt. unfold F2R in *. cbn in *. lra. }
  split; [|split; [rewrite HI, Et; reflexivity|split; [rewrite HZ, Et; reflexivity|rewrite HN, Et; reflexivity]]].
  intros x Hx. destruct (HL x Hx) as (Fx & Bx). pose proof (positive_log x Hx) as BX. set (X := ln (real x)) in *. set (c := real (c_log L x)) in *.
  set (g := X / ln 10) in *. assert (X = g * ln 10) as EX by (unfold g; field; lra). set (T := ln 10) in *. set (r := real t) in *.
  assert (/ 2 ^ 43 = 1024 * u) as E43. { unfold roundoff. replace 53%nat with (43 + 10)%nat by lia. rewrite pow_add. field. }
  assert (/ 2 ^ 51 = 4 * u) as E51. { unfold roundoff. replace 53%nat with (51 + 2)%nat by lia. rewrite pow_add. field. }
  assert (/ 2 ^ 42 = 2048 * u) as E42. { unfold roundoff. replace 53%nat with (42 + 11)%nat by lia. rewrite pow_add. field. }
  rewrite E43 in Bx. rewrite E51 in H10. rewrite E42. pose proof u_pos as Pu.
  assert (u <= / 1000000) as Su. { unfold roundoff. apply Rinv_le_contravar; [lra|]. cbn. lra. }
  apply Rabs_le_inv in BX, Bx.
  assert (Rabs (c / r - g) <= 1110 * u) as Hq.
  { assert (c / r - g = ((c - X) - g * (r - T)) / r) as -> by (rewrite EX; field; lra).
    unfold Rdiv. rewrite Rabs_mult, (Rabs_pos_eq (/ r)) by (left; apply Rinv_0_lt_compat; lra).
    assert (Rabs (c - X - g * (r - T)) <= 2456 * u) as HA.
    { assert (- (1432 * u) <= g * (r - T) <= 1432 * u) by (split; nra). apply Rabs_le. lra. }
    apply Rmult_le_reg_r with r; [lra|]. rewrite Rmult_assoc, Rinv_l, Rmult_1_r by lra. nra. }
  assert (Rabs (c / r) <= 359) as Bq. { apply Rabs_le_inv in Hq. apply Rabs_le. lra. }
  assert (is_finite (f64_div (c_log L x) t) = true) as FD.
  { apply div_total; auto; [unfold r, real in Bt; lra|]. unfold c, r, real in Bq. eapply Rle_trans; [exact Bq|]. apply Rle_trans with (2 ^ 9); [cbn; lra|apply Rle_pow; [lra|lia]]. }
  split; auto. destruct (div_fin (c_log L x) t F10 ltac:(unfold r, real in Bt; lra) FD) as (_ & ED). rewrite ED.
  change (B2R (c_log L x) / B2R t) with (c / r). pose proof (rnd_error (c / r)) as R1.
  assert (u * Rabs (c / r) <= u * 359) as U1 by (apply Rmult_le_compat_l; lra).
  assert (eta <= u) as EU. { unfold underflow, roundoff. apply Rinv_le_contravar; [apply pow_lt; lra|]. apply Rle_pow; [lra|lia]. }
  set (z := rnd64 (c / r)) in *. apply Rabs_le_inv in R1, Hq. apply Rabs_le. lra.
Qed.

(** * Close readings *)
Section close.
Context (E E' : ext) (HE : log10_accurate E) (HE' : log10_accurate E').
(** loudness of the same energy *)
Lemma loudness_both x : unsigned x ->
  loudness E x = loudness E' x /\ is_finite (loudness E x) = false \/
  is_finite (loudness E x) = true /\ is_finite (loudness E' x) = true /\ Rabs (real (loudness E x) - real (loudness E' x)) <= / 2 ^ 36 /\ Rabs (real (loudness E x)) <= 3600.
Proof using HE HE'.
  intros Hu. destruct x as [s|s| |s m e B] eqn:Ex; unfold unsigned in Hu; cbn in Hu; try subst s.
  - left. change (B754_zero false) with f64_zero. now rewrite !loudness_zero.
  - left. change (B754_infinity false) with f64_inf. now rewrite !loudness_inf.
  - left. change B754_nan with f64_nan. now rewrite !loudness_nan.
  - right. assert (positive x) as Hx. { rewrite Ex. split; [reflexivity|]. cbn. apply F2R_gt_0. cbn. lia. } rewrite <- Ex.
    destruct (loudness_close E x HE Hx) as (F1 & B1). destruct (loudness_close E' x HE' Hx) as (F2 & B2). split; auto. split; auto. pose proof (positive_log x Hx) as BX.
    assert (/ 2 ^ 36 = / 2 ^ 37 + / 2 ^ 37) as ->. { replace (2 ^ 37) with (2 * 2 ^ 36) by reflexivity. field. }
    assert (/ 2 ^ 37 <= 1) as S37. { cbn; lra. }
    unfold lufs in *. apply Rabs_le_inv in B1, B2, BX. split; apply Rabs_le; lra.
Qed.
Lemma loudness_reading x : unsigned x -> same_reading (loudness E x) (loudness E' x).
Proof using HE HE'.
  intros Hu. destruct (loudness_both x Hu) as [(H & _)|(F1 & F2 & B & _)]; [now left|]. right. split; auto. split; auto. eapply Rle_trans; [exact B|].
  apply Rinv_le_contravar; [apply pow_lt; lra|]. apply Rle_pow; [lra|lia].
Qed.
Lemma sub_special (a b b' : f64) : is_finite b = true -> is_finite b' = true -> is_finite a = false -> f64_sub a b = f64_sub a b' /\ f64_sub b a = f64_sub b' a.
Proof. intros F F' A. destruct a as [s|s| |s m e B]; try discriminate A; destruct b as [z|z| |z m e B], b' as [z'|z'| |z' m' e' B']; try discriminate F; try discriminate F'; split; reflexivity. Qed.
Lemma range_reading x y : unsigned x -> unsigned y -> same_reading (f64_sub (loudness E x) (loudness E y)) (f64_sub (loudness E' x) (loudness E' y)).
Proof using HE HE'.
  intros Hx Hy. destruct (loudness_both x Hx) as [(Ex & Nx)|(F1 & F2 & B & M)]; destruct (loudness_both y Hy) as [(Ey & Ny)|(G1 & G2 & C & K)].
  - rewrite <- Ex, <- Ey. now left.
  - rewrite <- Ex. left. now apply sub_special.
  - rewrite <- Ey. left. now apply sub_special.
  - right. pose proof big_1000. set (a := loudness E x) in *. set (a' := loudness E' x) in *. set (b := loudness E y) in *. set (b' := loudness E' y) in *. unfold real in *.
    assert (/ 2 ^ 36 <= 1) as S36. { cbn; lra. }
    apply Rabs_le_inv in B, C, M, K.
    destruct (sub_small a b F1 G1 ltac:(apply Rabs_le; lra)) as (FS & ES). destruct (sub_small a' b' F2 G2 ltac:(apply Rabs_le; lra)) as (FS' & ES').
    split; auto. split; auto. unfold real. rewrite ES, ES'. pose proof (rnd_error (B2R a - B2R b)) as R1. pose proof (rnd_error (B2R a' - B2R b')) as R2.
    pose proof u_pos as Pu.
    assert (u * Rabs (B2R a - B2R b) <= u * 7300) as U1 by (apply Rmult_le_compat_l; [lra|apply Rabs_le; lra]).
    assert (u * Rabs (B2R a' - B2R b') <= u * 7300) as U2 by (apply Rmult_le_compat_l; [lra|apply Rabs_le; lra]).
    assert (eta <= u) as EU. { unfold underflow, roundoff. apply Rinv_le_contravar; [apply pow_lt; lra|]. apply Rle_pow; [lra|lia]. }
    assert (/ 2 ^ 36 = 131072 * u) as E36. { unfold roundoff. replace 53%nat with (36 + 17)%nat by lia. rewrite pow_add. field. }
    assert (/ 2 ^ 34 = 524288 * u) as E34. { unfold roundoff. replace 53%nat with (34 + 19)%nat by lia. rewrite pow_add. field. }
    rewrite E36 in B, C. rewrite E34. clear E36 E34 S36.
    set (p := rnd64 (B2R a - B2R b)) in *. set (q := rnd64 (B2R a' - B2R b')) in *. apply Rabs_le_inv in R1, R2. apply Rabs_le. lra.
Qed.
Context (HT : tenth E = tenth E') (HH : hundredth E = hundredth E').
Lemma programme_reading h : powf_contract E -> well_formed h -> countable (contents h) -> same_reading (programme_loudness E [contents h]) (programme_loudness E' [contents h]).
Proof using HE HE' HT.
  intros HPow Hw Hc. unfold programme_loudness, gated, passing, gate. rewrite <- HT.
  destruct (negb _ && _); [now left|]. destruct (_ || _); [now left|]. cbn [concat]. rewrite app_nil_r. apply loudness_reading.
  pose proof (contents_unsigned h Hw Hc) as HU. apply div_unsigned.
  - apply energy_fold_unsigned; [|reflexivity]. apply Forall_forall. intros b Hb. apply filter_In in Hb. rewrite Forall_forall in HU. now apply HU.
  - apply of_N_real. unfold countable in Hc. pose proof (pop_at_least_le (f64_mul (mean_all [contents h]) (tenth E)) (contents h)). lia.
Qed.
Lemma threshold_reading h : powf_contract E -> well_formed h -> countable (contents h) -> same_reading (threshold E (contents h)) (threshold E' (contents h)).
Proof using HE HE' HT.
  intros HPow Hw Hc. unfold threshold. destruct (_ =? 0)%N; [now left|]. destruct (f64_is_nan _); [now left|]. rewrite <- HT. apply loudness_reading.
  assert (unsigned (mean_energy (contents h))) as U. { apply div_unsigned; [now apply energy_sum_unsigned|]. now apply of_N_real. }
  apply mul_unsigned. unfold unsigned in U. rewrite U. destruct (tenth_bounds E HPow) as (F & B). destruct (tenth E) as [s|s| |[] m e Bb]; try discriminate F; cbn in B; try lra; [|reflexivity].
  assert (F2R (Float radix2 (Z.neg m) e) <= 0) by (apply F2R_le_0; cbn; lia). unfold F2R in *. cbn in *. lra.
Qed.
Lemma range_of_reading l : Forall (fun b => unsigned (snd b)) l -> same_reading (range_of E l) (range_of E' l).
Proof using HE HE' HH.
  intros HU. unfold range_of. destruct (_ =? 0)%N; [now left|]. cbv zeta. rewrite <- HH. set (r := expand _). destruct (length r =? 0)%nat; [now left|].
  assert (forall i, unsigned (nth i r f64_zero)) as UN.
  { intros i. destruct (nth_in_or_default i r f64_zero) as [Hi| ->]; [|reflexivity]. unfold r, expand in Hi. apply in_flat_map in Hi. destruct Hi as (b & Hb & Hi).
    apply repeat_spec in Hi. fold (expand (at_least (f64_mul (hundredth E) (mean_energy l)) l)) in Hi. fold r in Hi. rewrite Hi. apply filter_In in Hb. rewrite Forall_forall in HU. now apply HU. }
  apply range_reading; apply UN.
Qed.
End close.

Local Open Scope nat_scope.
(** * C81 *)
Lemma same_histories P E L us max xs : is_64bit P -> powf_contract E -> sort_contract E -> bsearch_contract E -> qsort_contract L -> same_pow E L -> regenerates E ->
  same_log E L -> no_nan xs -> (1 <= max)%N -> (N.of_nat (length (List.filter measurable xs)) <= small_count)%N ->
  exists h hc g t r, record_all (history_new us max) xs = Ret h /\ recorded_c L us max xs = Ret hc /\
    gated_loudness P E h = Ret g /\ history_gated_loudness_c L (history_init_c L) hc = Ret g /\
    history_relative_threshold P E h = t /\ history_relative_threshold_c L (history_init_c L) hc = Ret t /\
    history_loudness_range P E h = Ret r /\ history_loudness_range_c P L (history_init_c L) hc = Ret r.
Proof.
  intros H64 HE HS HB HQ HP HR HL Hn Hm Hlen.
  destruct (readings P E E L us max xs HE HS HB HQ HP HR HP HL Hn Hm Hlen H64) as (h & hc & l & m & R1 & R2 & _ & _ & _ & _ & [A1 A2 A3 A4 A5 A6]).
  exists h, hc. eexists _, _, _. do 7 (split; [eassumption|]). exact A6.
Qed.
Lemma close_histories P E L us max xs : is_64bit P -> powf_contract E -> sort_contract E -> bsearch_contract E -> qsort_contract L -> same_pow E L -> regenerates E ->
  log10_accurate E -> log_accurate L -> no_nan xs -> (1 <= max)%N -> (N.of_nat (length (List.filter measurable xs)) <= small_count)%N ->
  exists h hc g gc t tc r rc, record_all (history_new us max) xs = Ret h /\ recorded_c L us max xs = Ret hc /\
    gated_loudness P E h = Ret g /\ history_gated_loudness_c L (history_init_c L) hc = Ret gc /\ same_reading g gc /\
    history_relative_threshold P E h = t /\ history_relative_threshold_c L (history_init_c L) hc = Ret tc /\ same_reading t tc /\
    history_loudness_range P E h = Ret r /\ history_loudness_range_c P L (history_init_c L) hc = Ret rc /\ same_reading r rc.
Proof.
  intros H64 HE HS HB HQ HP HR HL HL' Hn Hm Hlen. pose proof (quotient_accurate E L HL') as HA.
  assert (same_log (with_log E L) L) as HSL by (intros x; reflexivity). assert (same_pow (with_log E L) L) as HP' by exact HP.
  destruct (readings P E (with_log E L) L us max xs HE HS HB HQ HP HR HP' HSL Hn Hm Hlen H64) as (h & hc & l & m & R1 & R2 & (W1 & W2 & W3) & -> & _ & U & [A1 A2 A3 A4 A5 A6]).
  assert (countable (contents h)) as HC by (unfold countable, small_count in *; lia).
  exists h, hc. eexists _, _, _, _, _, _. do 4 (split; [eassumption|]). split; [now apply programme_reading|].
  do 2 (split; [eassumption|]). split; [now apply threshold_reading|]. do 2 (split; [eassumption|]). now apply range_of_reading.
Qed.

(** * An analyzer *)
Lemma holds_record us lim h xs : (1 <= lim)%N -> holds h lim xs -> (us = true <-> exists c, h = HHistogram c) -> record_all (history_new us lim) xs = Ret h.
Proof.
  intros H1 HH HU. unfold holds in HH. destruct us; cbn [history_new].
  - destruct (proj1 HU eq_refl) as (c & ->). destruct HH as (Hl & Hc). destruct (record_histogram xs histogram_new (repeat_length _ _)) as (c' & -> & Hl' & Hc'). f_equal. f_equal.
    apply list_eq_nth; [congruence|]. intros i. rewrite Hc, Hc'. unfold histogram_new. now rewrite zeros_nth.
  - destruct h as [q|c]; [|assert (false = true) as X by (apply HU; eauto); discriminate X]. destruct HH as (E1 & E2).
    rewrite (record_queue (queue_new lim)) by (cbn; lia). cbn [queue_new q_max q_queue app]. do 2 f_equal. destruct q as [l mx]. cbn in *. subst. reflexivity.
Qed.
Lemma same_session P E L us e t b s : is_64bit P -> (us = true <-> has_HISTOGRAM (e_mode e)) -> powf_contract E -> sort_contract E -> bsearch_contract E -> qsort_contract L -> same_pow E L -> regenerates E ->
  log10_accurate E -> log_accurate L -> noted P E e t b s -> no_nan b -> no_nan s -> (N.of_nat (length (List.filter measurable b)) <= small_count)%N -> (N.of_nat (length (List.filter measurable s)) <= small_count)%N ->
  exists hb hs, recorded_c L us (p_usize_max P / 100) b = Ret hb /\
                recorded_c L us (p_usize_max P / 3000) s = Ret hs /\
    (has_I (e_mode e) -> exists v w, ask P E e QGlobal = Ret (AValue (Ok v)) /\ history_gated_loudness_c L (history_init_c L) hb = Ret w /\ same_reading v w) /\
    (has_I (e_mode e) -> exists v w, ask P E e QThreshold = Ret (AValue (Ok v)) /\ history_relative_threshold_c L (history_init_c L) hb = Ret w /\ same_reading v w) /\
    (has_LRA (e_mode e) -> exists v w, ask P E e QRange = Ret (AValue (Ok v)) /\ history_loudness_range_c P L (history_init_c L) hs = Ret w /\ same_reading v w).
Proof.
  intros H64 HUS HE HS HB HQ HP HR HL HL' HN Nb Ns Lb Ls. destruct (noted_holds P E e t b s H64 HN) as (HT & Hb & Hs). apply taped_reachable in HT.
  assert (1 <= p_usize_max P / 100 /\ 1 <= p_usize_max P / 3000)%N as (L1 & L2) by (red in H64; rewrite H64; vm_compute; split; discriminate).
  assert ((us = true <-> exists c, e_block e = HHistogram c) /\ (us = true <-> exists c, e_short e = HHistogram c)) as (U1 & U2).
  { destruct us.
    - destruct (is_histogram P E e H64 HT (proj1 HUS eq_refl)) as (c1 & c2 & -> & -> & _). split; split; eauto.
    - assert (~ has_HISTOGRAM (e_mode e)) as Hh by (intros X; apply HUS in X; discriminate X). destruct (is_list P E e H64 HT Hh) as (q1 & q2 & -> & -> & _).
      split; split; try discriminate; intros (c & X); discriminate X. }
  pose proof (holds_record _ _ _ _ L1 Hb U1) as R1. pose proof (holds_record _ _ _ _ L2 Hs U2) as R2.
  destruct (close_histories P E L us _ b H64 HE HS HB HQ HP HR HL HL' Nb L1 Lb) as (h1 & hb & g & gc & th & tc & _ & _ & Q1 & -> & G1 & G2 & G3 & T1 & T2 & T3 & _).
  destruct (close_histories P E L us _ s H64 HE HS HB HQ HP HR HL HL' Ns L2 Ls) as (h2 & hs & _ & _ & _ & _ & r & rc & Q2 & -> & _ & _ & _ & _ & _ & _ & G4 & G5 & G6).
  rewrite R1 in Q1. injection Q1 as <-. rewrite R2 in Q2. injection Q2 as <-. exists hb, hs. split; auto. split; auto. split; [|split].
  - intros Hm. exists g, gc. split; [|auto]. cbn [ask]. unfold loudness_global. apply contains_I in Hm. rewrite Hm. cbn [negb]. rewrite G1. reflexivity.
  - intros Hm. exists th, tc. split; [|auto]. cbn [ask]. unfold relative_threshold. apply contains_I in Hm. rewrite Hm. cbn [negb]. now rewrite T1.
  - intros Hm. exists r, rc. split; auto. rewrite ask_range by auto. rewrite <- one_range_unwrap, G4. reflexivity.
Qed.
