(** Loudness values: finite, monotone; ranges that are not negative. *)
From Coq Require Import List Arith NArith ZArith Bool Lia Reals Lra Sorted Permutation.
From Flocq Require Import Core IEEE754.BinarySingleNaN.
From Verif Require Import Prelude Float Env Tables Utils History Interp Filter Ebur128 Spec Spec_real Spec_history
  Prelude_proofs Utils_proofs Float_proofs Order_proofs History_proofs Ebur128_proofs Ops_proofs Reach_proofs Trace_proofs
  Stream_proofs Loud_proofs Energy_proofs Accuracy_proofs Table_proofs Gate_proofs Gating_proofs Pass_proofs Percent_proofs Range_proofs Blocks_proofs
  Answers_proofs.
Import ListNotations.
Import Spec_history.
Local Open Scope R_scope.

Lemma le_iff (y z : f64) : is_finite y = true -> is_finite z = true -> f64_le y z = true <-> B2R y <= B2R z.
Proof. intros Hy Hz. unfold f64_le. rewrite Bleb_correct by auto. destruct (Rle_bool_spec (B2R y) (B2R z)); split; auto; intros; try discriminate; lra. Qed.
Lemma bpow_1000_generic : generic_format radix2 fexp64 (bpow radix2 1000).
Proof. apply generic_format_bpow. vm_compute. discriminate. Qed.
Lemma rnd_bounded x : Rabs x <= bpow radix2 1000 -> Rabs (rnd64 x) <= bpow radix2 1000.
Proof.
  intros H. apply Rabs_le_inv in H. destruct H as (H1 & H2).
  assert (rnd64 (bpow radix2 1000) = bpow radix2 1000) as E by (apply rnd64_generic, bpow_1000_generic).
  assert (rnd64 (- bpow radix2 1000) = - bpow radix2 1000) as E' by (apply rnd64_generic, generic_format_opp, bpow_1000_generic).
  apply rnd_mono in H1, H2. apply Rabs_le. lra.
Qed.
Lemma rnd_no_overflow x : Rabs x <= bpow radix2 1000 -> Rlt_bool (Rabs (rnd64 x)) (bpow radix2 1024) = true.
Proof. intros H. apply Rlt_bool_true. eapply Rle_lt_trans; [apply rnd_bounded, H|]. apply bpow_lt. lia. Qed.
Lemma mul_small x y : is_finite x = true -> is_finite y = true -> Rabs (B2R x * B2R y) <= bpow radix2 1000 ->
  is_finite (f64_mul x y) = true /\ B2R (f64_mul x y) = rnd64 (B2R x * B2R y).
Proof.
  intros Fx Fy H. pose proof (Bmult_correct 53 1024 Hprec64 Hmax64 mode_NE x y) as X.
  change (round radix2 (SpecFloat.fexp 53 1024) (round_mode mode_NE) ?z) with (rnd64 z) in X.
  rewrite rnd_no_overflow in X by auto. destruct X as (X1 & X2 & _). unfold f64_mul. rewrite X2. now rewrite Fx, Fy.
Qed.
Lemma sub_small x y : is_finite x = true -> is_finite y = true -> Rabs (B2R x - B2R y) <= bpow radix2 1000 ->
  is_finite (f64_sub x y) = true /\ B2R (f64_sub x y) = rnd64 (B2R x - B2R y).
Proof.
  intros Fx Fy H. pose proof (Bminus_correct 53 1024 Hprec64 Hmax64 mode_NE x y Fx Fy) as X.
  change (round radix2 (SpecFloat.fexp 53 1024) (round_mode mode_NE) ?z) with (rnd64 z) in X.
  rewrite rnd_no_overflow in X by auto. destruct X as (X1 & X2 & _). unfold f64_sub. now rewrite X1, X2.
Qed.
Lemma ten_real : is_finite (f64_of_Z 10) = true /\ B2R (f64_of_Z 10) = 10.
Proof.
  replace (f64_of_Z 10) with (f64_bin 5629499534213120 (-49)) by (apply B2SF_inj; vm_compute; reflexivity).
  destruct (bin_real 5629499534213120 (-49) ltac:(lia) ltac:(lia)) as (F & ->). split; auto. cbn. lra.
Qed.
Lemma lit_691_real : is_finite lit_0_691 = true /\ 0 <= B2R lit_0_691 <= 1.
Proof.
  destruct (bin_real 6223974685026025 (-53) ltac:(lia) ltac:(lia)) as (F & E). unfold lit_0_691. split; auto. rewrite E. cbn. lra.
Qed.
Lemma big_1000 : 100000 <= bpow radix2 1000.
Proof. apply Rle_trans with (bpow radix2 17). { cbn. lra. } apply bpow_le. lia. Qed.
Lemma rnd_le_const x c : Rabs x <= IZR c -> (Z.abs c <= 2 ^ 53)%Z -> Rabs (rnd64 x) <= IZR c.
Proof.
  intros H Hc. apply Rabs_le_inv in H. destruct H as (H1 & H2).
  assert (forall z, (Z.abs z <= 2 ^ 53)%Z -> rnd64 (IZR z) = IZR z) as E.
  { intros z Hz. apply rnd64_generic. apply generic_format_FLT. destruct (Z.eq_dec (Z.abs z) (2 ^ 53)) as [Ez|Ez].
    - assert (z = 2 ^ 53 \/ z = - 2 ^ 53)%Z as [->| ->] by lia.
      + exists (Float radix2 1 53); [unfold F2R; cbn; lra|cbn; lia|cbn; lia].
      + exists (Float radix2 (-1) 53); [unfold F2R; cbn; lra|cbn; lia|cbn; lia].
    - exists (Float radix2 z 0); [unfold F2R; cbn; lra|cbn [Fnum]; change (radix_val radix2 ^ 53)%Z with (2 ^ 53)%Z; lia|cbn; lia]. }
  apply rnd_mono in H1, H2. rewrite E in H2 by auto. rewrite <- opp_IZR, E in H1 by lia. rewrite opp_IZR in H1. apply Rabs_le. lra.
Qed.
Lemma loudness_real E x : log10_contract E -> positive x -> is_finite (loudness E x) = true /\
  B2R (loudness E x) = rnd64 (rnd64 (10 * B2R (e_log10 E x)) - B2R lit_0_691) /\ Rabs (B2R (loudness E x)) <= 4001.
Proof.
  intros (HL & _) Hx. destruct (HL x Hx) as (FL & BL). unfold real in BL. destruct ten_real as (F10 & E10). destruct lit_691_real as (F6 & B6).
  pose proof big_1000. apply Rabs_le_inv in BL.
  assert (Rabs (10 * B2R (e_log10 E x)) <= 4000) as B1 by (apply Rabs_le; lra).
  destruct (mul_small (f64_of_Z 10) (e_log10 E x) F10 FL ltac:(rewrite E10; lra)) as (FM & EM). rewrite E10 in EM.
  pose proof (rnd_le_const _ _ B1 ltac:(lia)) as B2. apply Rabs_le_inv in B2.
  assert (Rabs (B2R (f64_mul (f64_of_Z 10) (e_log10 E x)) - B2R lit_0_691) <= 4001) as B3 by (rewrite EM; apply Rabs_le; lra).
  destruct (sub_small _ lit_0_691 FM F6 ltac:(lra)) as (FS & ES). unfold loudness. split; auto. split; [now rewrite ES, EM|].
  rewrite ES. now apply rnd_le_const; [|lia].
Qed.
Lemma positive_not_nan x : positive x -> is_nan x = false. Proof. intros (F & _). now apply finite_not_nan. Qed.
Lemma loudness_mono E x y : log10_contract E -> positive x -> positive y -> f64_le x y = true -> f64_le (loudness E x) (loudness E y) = true.
Proof.
  intros HL Hx Hy Hxy. destruct (loudness_real E x HL Hx) as (F1 & E1 & _). destruct (loudness_real E y HL Hy) as (F2 & E2 & _).
  apply le_iff; auto. rewrite E1, E2. apply rnd_mono. destruct HL as (HL & HM).
  pose proof (proj1 (le_iff _ _ (proj1 (HL x Hx)) (proj1 (HL y Hy))) (HM x y Hx Hy Hxy)) as L.
  assert (rnd64 (10 * B2R (e_log10 E x)) <= rnd64 (10 * B2R (e_log10 E y))) by (apply rnd_mono; lra). lra.
Qed.
Lemma difference_nonneg E x y : log10_contract E -> positive x -> positive y -> f64_le x y = true ->
  is_finite (f64_sub (loudness E y) (loudness E x)) = true /\ f64_le f64_zero (f64_sub (loudness E y) (loudness E x)) = true.
Proof.
  intros HL Hx Hy Hxy. pose proof (loudness_mono E x y HL Hx Hy Hxy) as L.
  destruct (loudness_real E x HL Hx) as (F1 & _ & B1). destruct (loudness_real E y HL Hy) as (F2 & _ & B2). apply le_iff in L; auto.
  apply Rabs_le_inv in B1, B2. pose proof big_1000. destruct (sub_small _ _ F2 F1) as (F & EQ). { apply Rabs_le. lra. }
  split; auto. apply le_iff; auto. rewrite EQ. apply rnd_nonneg. lra.
Qed.

(** * The range *)
Lemma filter_sorted {A} (R : A -> A -> Prop) p l : StronglySorted R l -> StronglySorted R (List.filter p l).
Proof.
  induction 1 as [|a l Hs IH Ha]; cbn [List.filter]; [constructor|]. destruct (p a); auto. constructor; auto.
  rewrite Forall_forall in *. intros x Hx. apply filter_In in Hx. apply Ha, Hx.
Qed.
Lemma expand_In l x : In x (expand l) -> exists n, In (n, x) l.
Proof.
  intros H. apply in_flat_map in H. destruct H as ((n, y) & Hin & Hr). apply repeat_spec in Hr. cbn in Hr. subst x. eauto.
Qed.
Definition rising (l : list (N * f64)) : Prop := StronglySorted (fun a b => f64_le (snd a) (snd b) = true) l.
Lemma rising_expand l : rising l -> (forall b, In b l -> is_nan (snd b) = false) -> ascending (expand l).
Proof.
  induction 1 as [|(n, x) l Hs IH Ha]; intros Hn; [constructor|]. unfold expand. cbn [flat_map fst snd].
  change (flat_map (fun b : N * f64 => repeat (snd b) (N.to_nat (fst b))) l) with (expand l).
  specialize (IH ltac:(intros; apply Hn; now right)). induction (N.to_nat n) as [|k IHk]; cbn [repeat app]; auto. constructor; [exact IHk|].
  apply Forall_forall. intros y Hy. apply in_app_or in Hy. destruct Hy as [Hy|Hy].
  - apply repeat_spec in Hy. subst y. apply Bleb_refl. apply (Hn (n, x)). now left.
  - apply expand_In in Hy. destruct Hy as (m & Hy). rewrite Forall_forall in Ha. apply (Ha (m, y) Hy).
Qed.
Lemma ascending_nth l i j : ascending l -> (i <= j < length l)%nat -> (forall x, In x l -> is_nan x = false) -> f64_le (nth i l f64_zero) (nth j l f64_zero) = true.
Proof.
  intros Hs. revert i j. induction Hs as [|a l Hs IH Ha]; intros i j Hij Hn; cbn [length] in *; [lia|].
  destruct j as [|j].
  - assert (i = 0)%nat as -> by lia. apply Bleb_refl. apply Hn. now left.
  - destruct i as [|i]; cbn [nth].
    + rewrite Forall_forall in Ha. apply Ha. apply nth_In. lia.
    + apply IH; [lia|]. intros. apply Hn. now right.
Qed.
Lemma div_20 n : ((n + 5) / 10 <= (19 * n + 10) / 20)%nat.
Proof.
  assert (N.of_nat ((n + 5) / 10) <= N.of_nat ((19 * n + 10) / 20))%N; [|lia]. rewrite !Nat2N.inj_div.
  replace (N.of_nat (19 * n + 10)) with (19 * N.of_nat n + 10)%N by lia. replace (N.of_nat (n + 5)) with (N.of_nat n + 5)%N by lia.
  change (N.of_nat 10) with 10%N. change (N.of_nat 20) with 20%N. lia.
Qed.
Lemma div_20_lt n : ((19 * n + 10) / 20 < S n)%nat.
Proof. apply Nat.div_lt_upper_bound; lia. Qed.
Lemma range_nonneg E l : log10_contract E -> rising l -> (forall b, In b l -> positive (snd b)) ->
  is_finite (range_of E l) = true /\ f64_le f64_zero (range_of E l) = true.
Proof.
  intros HL Hr Hp. unfold range_of. destruct (population l =? 0)%N; [split; reflexivity|]. set (r := expand _).
  destruct (Nat.eqb_spec (length r) 0) as [|H0]; [split; reflexivity|].
  assert (forall x, In x r -> positive x) as Hpr.
  { intros x Hx. apply expand_In in Hx. destruct Hx as (n & Hx). apply filter_In in Hx. apply (Hp (n, x)), Hx. }
  assert (ascending r) as Ha.
  { apply rising_expand; [now apply filter_sorted|]. intros b Hb. apply filter_In in Hb. apply positive_not_nan, Hp, Hb. }
  pose proof (div_20 (length r - 1)). pose proof (div_20_lt (length r - 1)).
  apply difference_nonneg; auto; [apply Hpr, nth_In; lia|apply Hpr, nth_In; lia|].
  apply ascending_nth; auto; [lia|]. intros x Hx. now apply positive_not_nan, Hpr.
Qed.
Lemma measurable_positive x : measurable x = true -> is_finite x = true -> positive x.
Proof.
  intros H F. split; auto. rewrite measurable_eq in H. apply negb_true_iff in H. unfold f64_lt in H.
  rewrite Bltb_correct in H; [|auto|apply table_finite; lia]. pose proof bnd0_tiny. pose proof tiny_pos. unfold real. rcases. lra.
Qed.
Lemma cen_measurable i : (i < 1000)%nat -> measurable (cen i) = true /\ is_finite (cen i) = true.
Proof.
  intros Hi. destruct (table_finite i ltac:(lia)) as (_ & F & _). split; auto. destruct (cen_storable i Hi) as [H|H]; auto. exfalso.
  pose proof (table_order i Hi) as (L & _). rewrite H in L. unfold f64_lt in L. rewrite Bltb_correct in L; [|apply table_finite; lia|reflexivity].
  pose proof (bnd_real i ltac:(lia)). rcases. change (B2R f64_zero) with 0 in *. lra.
Qed.
Lemma bins_rising c : rising (combine c ENERGIES).
Proof.
  assert (forall k c es, (forall i, (i < length es)%nat -> nth i es f64_zero = cen (k + i)) -> (k + length es <= 1000)%nat ->
    rising (combine c es)) as G.
  { intros k c0. revert k. induction c0 as [|n c0 IH]; intros k [|x es] H1 H2; cbn [combine]; try constructor.
    - apply (IH (S k)); [|cbn in H2; lia]. intros i Hi. replace (S k + i)%nat with (k + S i)%nat by lia. apply (H1 (S i)). cbn. lia.
    - apply Forall_forall. intros (m, y) Hy. apply in_combine_r in Hy. apply (In_nth _ _ f64_zero) in Hy. destruct Hy as (j & Hj & <-). cbn [snd].
      pose proof (H1 0%nat ltac:(cbn; lia)) as X. cbn [nth] in X. rewrite X. pose proof (H1 (S j) ltac:(cbn; lia)) as Y. cbn [nth] in Y. rewrite Y.
      apply Bltb_le. apply cen_lt; cbn in H2; lia. }
  apply (G 0%nat); [|rewrite ENERGIES_length; lia]. intros i Hi. reflexivity.
Qed.
Lemma singly_rising l : ascending l -> rising (singly l).
Proof.
  induction 1 as [|a l Hs IH Ha]; cbn; constructor; auto. rewrite Forall_forall in *. intros b Hb. apply in_map_iff in Hb. destruct Hb as (x & <- & Hx). auto.
Qed.

(** * Sums *)
Lemma add_small x y : is_finite x = true -> is_finite y = true -> Rabs (B2R x + B2R y) <= bpow radix2 1000 ->
  is_finite (f64_add x y) = true /\ B2R (f64_add x y) = rnd64 (B2R x + B2R y).
Proof.
  intros Fx Fy H. pose proof (Bplus_correct 53 1024 Hprec64 Hmax64 mode_NE x y Fx Fy) as X.
  change (round radix2 (SpecFloat.fexp 53 1024) (round_mode mode_NE) ?z) with (rnd64 z) in X.
  rewrite rnd_no_overflow in X by auto. destruct X as (X1 & X2 & _). unfold f64_add. now rewrite X1, X2.
Qed.
Lemma of_N_le n : (n < 18446744073709551616)%N -> B2R (f64_of_N n) <= 101 / 100 * size_of n.
Proof. intros H. destruct (of_N_real n H) as (_ & -> & _). apply (rnd_up _ (size_sizeable n)). Qed.
Lemma sum_finite l : Forall block_ok l -> (forall b, In b l -> is_finite (snd b) = true) -> forall t, unsigned t -> is_finite t = true -> 0 <= B2R t ->
  B2R t + 206 / 100 * weighted l <= bpow radix2 1000 ->
  is_finite (fold_left (fun t '(n, x) => f64_add t (f64_mul (f64_of_N n) x)) l t) = true.
Proof.
  induction 1 as [|(n, x) l Hb Hl IH]; intros HF t Ht Ft Pt H; cbn [fold_left]; auto.
  cbn [weighted fst snd] in H. pose proof (HF (n, x) (or_introl eq_refl)) as Fx. cbn [snd] in Fx. pose proof Hb as (Hn & Hu & Hs). cbn [fst snd] in *.
  pose proof (sizeable_nonneg _ (Hs Fx)) as Px. pose proof (size_nonneg n) as Pn. pose proof (weighted_nonneg l Hl ltac:(intros; apply HF; now right)) as Pw.
  destruct (of_N_real n Hn) as (Fn & En & Sn). pose proof (of_N_le n Hn) as Ln.
  assert (0 <= B2R (f64_of_N n)) as Pn' by (rewrite En; apply rnd_nonneg; exact Pn).
  assert (0 <= size_of n * B2R x) as Pp by now apply Rmult_le_pos.
  destruct (mul_small (f64_of_N n) x Fn Fx) as (Fm & Em).
  { rewrite Rabs_pos_eq by now apply Rmult_le_pos. apply Rle_trans with (101 / 100 * size_of n * B2R x); [now apply Rmult_le_compat_r|lra]. }
  destruct (term_bound (n, x) Hb Fm) as (_ & T1 & T2). cbn [fst snd] in *.
  destruct (add_small t _ Ft Fm) as (Fa & Ea). { rewrite Rabs_pos_eq by lra. lra. }
  apply IH; auto.
  - intros. apply HF. now right.
  - apply add_unsigned; auto. apply mul_unsigned. unfold unsigned in Hu. now rewrite Hu, Sn.
  - rewrite Ea. apply rnd_nonneg. lra.
  - rewrite Ea. pose proof (rnd_add_le t _ T1). lra.
Qed.
Lemma cen_le i : (i < 1000)%nat -> B2R (cen i) <= 2000.
Proof.
  intros Hi. destruct (bin_real 8796093022208000 (-42) ltac:(lia) ltac:(lia)) as (F & E).
  assert (f64_le (cen 999) (f64_bin 8796093022208000 (-42)) = true) as L by (vm_cast_no_check (eq_refl true)).
  assert (f64_le (cen i) (cen 999) = true) as L'.
  { destruct (Nat.eq_dec i 999) as [->|]; [apply Bleb_refl, cen_not_nan; lia|]. apply Bltb_le, cen_lt; lia. }
  pose proof (Bleb_trans _ _ _ L' L) as L2. destruct (cen_measurable i Hi) as (_ & Fc). apply le_iff in L2; auto. rewrite E in L2.
  replace (IZR 8796093022208000 * bpow radix2 (-42)) with 2000 in L2; auto. cbn. lra.
Qed.
Lemma bins_finite c : length c = 1000%nat -> countable (combine c ENERGIES) -> is_finite (energy_sum (combine c ENERGIES)) = true.
Proof.
  intros Hl Hc. pose proof (blocks_ok [HHistogram c]) as HB. cbn [map contents concat] in HB. rewrite app_nil_r in HB.
  specialize (HB ltac:(constructor; auto) Hc). inversion HB as [|? ? HB' _]; subst.
  assert (forall b, In b (combine c ENERGIES) -> is_finite (snd b) = true /\ B2R (snd b) <= 2000) as HF.
  { intros (n, x) Hb. apply In_combine_cen in Hb. destruct Hb as (i & Hi & -> & _). cbn [snd]. split; [apply cen_measurable; auto|now apply cen_le]. }
  apply sum_finite; auto; try reflexivity.
  - intros b Hb. now apply HF.
  - cbn. lra.
  - change (B2R f64_zero) with 0. pose proof (weighted_max (combine c ENERGIES) 2000 ltac:(lra) ltac:(intros b Hb _; now apply HF)) as W.
    unfold countable in Hc. assert (size_of (population (combine c ENERGIES)) <= bpow radix2 64) as S.
    { change (bpow radix2 64) with (IZR 18446744073709551616). unfold size_of. apply IZR_le. lia. }
    assert (bpow radix2 64 * 8192 <= bpow radix2 1000).
    { replace 8192 with (bpow radix2 13) by (cbn; lra). rewrite <- bpow_plus. apply bpow_le. lia. }
    pose proof (bpow_gt_0 radix2 64) as P64. clear - W S H P64. revert W S H P64. generalize (bpow radix2 64) (bpow radix2 1000) (size_of (population (combine c ENERGIES))) (weighted (combine c ENERGIES)).
    intros. lra.
Qed.
(** ** A sum is at least each of its terms, and more with more blocks *)
Lemma sum_term l : Forall block_ok l -> forall t, unsigned t ->
  is_finite (fold_left (fun t '(n, x) => f64_add t (f64_mul (f64_of_N n) x)) l t) = true -> 0 <= B2R t ->
  forall n x, In (n, x) l -> B2R (f64_mul (f64_of_N n) x) <= B2R (fold_left (fun t '(n, x) => f64_add t (f64_mul (f64_of_N n) x)) l t).
Proof.
  induction 1 as [|(m, y) l Hb Hl IH]; intros t Ht F Pt n x Hin; [destruct Hin|]. cbn [fold_left] in *.
  assert (unsigned (f64_add t (f64_mul (f64_of_N m) y))) as U.
  { apply add_unsigned; auto. pose proof Hb as (Hn & Hu & _). cbn [fst snd] in *. apply mul_unsigned. unfold unsigned in Hu. rewrite Hu. destruct (of_N_real m Hn) as (_ & _ & ->). reflexivity. }
  destruct (sum_bound l Hl _ U F) as (F1 & _ & B1 & _). destruct (add_fin _ _ F1) as (_ & Fm & ER). unfold real in ER.
  destruct (term_bound (m, y) Hb Fm) as (_ & T1 & _). cbn [fst snd] in T1.
  destruct Hin as [E|Hin].
  - injection E as -> ->. eapply Rle_trans; [|exact B1]. rewrite ER. rewrite <- (rnd64_generic (B2R (f64_mul (f64_of_N n) x))) at 1 by apply B2R_64. apply rnd_mono. lra.
  - apply IH; auto. rewrite ER. apply rnd_nonneg. lra.
Qed.
Lemma add_less t t' y : is_finite t' = true -> 0 <= B2R t' <= B2R t -> is_finite y = true -> 0 <= B2R y -> is_finite (f64_add t y) = true ->
  is_finite (f64_add t' y) = true /\ B2R (f64_add t' y) <= B2R (f64_add t y).
Proof.
  intros Ft' Ht Fy Py F. destruct (add_fin _ _ F) as (Ft & _ & ER). unfold real in ER.
  assert (rnd64 (B2R t' + B2R y) <= rnd64 (B2R t + B2R y)) as L by (apply rnd_mono; lra).
  pose proof (Bplus_correct 53 1024 Hprec64 Hmax64 mode_NE t' y Ft' Fy) as X.
  change (round radix2 (SpecFloat.fexp 53 1024) (round_mode mode_NE) ?z) with (rnd64 z) in X.
  rewrite Rlt_bool_true in X.
  - destruct X as (X1 & X2 & _). unfold f64_add at 1 2. rewrite X1, X2, ER. auto.
  - rewrite Rabs_pos_eq by (apply rnd_nonneg; lra). eapply Rle_lt_trans; [exact L|]. rewrite <- ER. eapply Rle_lt_trans; [apply Rle_abs|]. apply abs_B2R_lt_emax.
Qed.
Lemma sum_filter p l : Forall block_ok l -> forall t t', unsigned t -> unsigned t' -> is_finite t' = true -> 0 <= B2R t' <= B2R t ->
  is_finite (fold_left (fun t '(n, x) => f64_add t (f64_mul (f64_of_N n) x)) l t) = true ->
  is_finite (fold_left (fun t '(n, x) => f64_add t (f64_mul (f64_of_N n) x)) (List.filter p l) t') = true /\
  B2R (fold_left (fun t '(n, x) => f64_add t (f64_mul (f64_of_N n) x)) (List.filter p l) t') <=
  B2R (fold_left (fun t '(n, x) => f64_add t (f64_mul (f64_of_N n) x)) l t).
Proof.
  induction 1 as [|(m, y) l Hb Hl IH]; intros t t' Ht Ht' Ft' HT F; cbn [fold_left List.filter] in *; [split; auto; lra|].
  assert (unsigned (f64_mul (f64_of_N m) y)) as Um.
  { pose proof Hb as (Hn & Hu & _). cbn [fst snd] in *. apply mul_unsigned. unfold unsigned in Hu. rewrite Hu. destruct (of_N_real m Hn) as (_ & _ & ->). reflexivity. }
  assert (unsigned (f64_add t (f64_mul (f64_of_N m) y))) as U by now apply add_unsigned.
  destruct (sum_bound l Hl _ U F) as (F1 & _ & _ & _). destruct (add_fin _ _ F1) as (_ & Fm & ER). unfold real in ER.
  destruct (term_bound (m, y) Hb Fm) as (_ & T1 & _). cbn [fst snd] in T1.
  destruct (p (m, y)); cbn [fold_left].
  - destruct (add_less t t' _ Ft' HT Fm T1 F1) as (A1 & A2). apply IH; auto; [now apply add_unsigned|]. split; auto.
    destruct (add_fin _ _ A1) as (_ & _ & ER'). unfold real in ER'. rewrite ER'. apply rnd_nonneg. lra.
  - apply IH; auto. split; [lra|]. eapply Rle_trans; [apply HT|]. rewrite ER. rewrite <- (rnd64_generic (B2R t)) at 1 by apply B2R_64. apply rnd_mono. lra.
Qed.

(** * Gated loudness is a number *)
Lemma rnd_bpow x k : (-1000 <= k)%Z -> bpow radix2 k <= x -> bpow radix2 k <= rnd64 x.
Proof.
  intros Hk H. rewrite <- (rnd64_generic (bpow radix2 k)); [now apply rnd_mono|]. apply generic_format_bpow. unfold fexp64, SpecFloat.fexp, SpecFloat.emin. cbn. lia.
Qed.
Lemma term_lower n x : (0 < n < 18446744073709551616)%N -> is_finite (f64_mul (f64_of_N n) x) = true -> tiny <= B2R x -> tiny <= B2R (f64_mul (f64_of_N n) x).
Proof.
  intros Hn F Hx. destruct (mul_fin _ _ F) as (_ & _ & ER). unfold real in ER. rewrite ER. pose proof (of_N_pos n Hn). pose proof tiny_pos.
  apply rnd_bpow; [lia|]. fold tiny. nra.
Qed.
Lemma mean_lower s n : is_finite s = true -> tiny <= B2R s -> (0 < n < 18446744073709551616)%N ->
  is_finite (f64_div s (f64_of_N n)) = true /\ bpow radix2 (-105) <= B2R (f64_div s (f64_of_N n)).
Proof.
  intros F Hs Hn. destruct (of_N_real n ltac:(lia)) as (Fn & En & _). pose proof (of_N_pos n Hn) as P1. pose proof tiny_pos.
  destruct (div_down s (f64_of_N n) F Fn ltac:(lra) P1) as (FD & ED). split; auto. rewrite ED. apply rnd_bpow; [lia|].
  assert (B2R (f64_of_N n) <= bpow radix2 65) as P2.
  { eapply Rle_trans; [apply of_N_le; lia|]. assert (size_of n <= bpow radix2 64).
    { change (bpow radix2 64) with (IZR 18446744073709551616). apply IZR_le. lia. }
    replace (bpow radix2 65) with (2 * bpow radix2 64) by (change (bpow radix2 65) with (bpow radix2 (1 + 64)); rewrite bpow_plus; cbn [bpow]; f_equal). pose proof (bpow_gt_0 radix2 64). lra. }
  apply Rmult_le_reg_r with (B2R (f64_of_N n)); [lra|]. unfold Rdiv. rewrite Rmult_assoc, Rinv_l by lra. rewrite Rmult_1_r.
  apply Rle_trans with (bpow radix2 (-105) * bpow radix2 65); [apply Rmult_le_compat_l; auto; apply bpow_ge_0|].
  rewrite <- bpow_plus. exact Hs.
Qed.
Lemma population_In l : population l <> 0%N -> exists n x, In (n, x) l /\ (0 < n)%N.
Proof.
  intros H. destruct (largest_block l H) as ((n, x) & Hin & Hn & _). exists n, x. split; auto. cbn in Hn. lia.
Qed.
Lemma measured_tiny x : measurable x = true -> is_finite x = true -> tiny <= B2R x.
Proof.
  intros H F. rewrite measurable_eq in H. apply negb_true_iff in H. unfold f64_lt in H.
  rewrite Bltb_correct in H; [|auto|apply table_finite; lia]. pose proof bnd0_tiny. rcases. lra.
Qed.
Lemma sum_lower l : Forall block_ok l -> is_finite (energy_sum l) = true -> (forall b, In b l -> measurable (snd b) = true) -> population l <> 0%N -> tiny <= B2R (energy_sum l).
Proof.
  intros Hb F Hm H0. destruct (population_In l H0) as (n & x & Hin & Hn). rewrite Forall_forall in Hb. destruct (Hb _ Hin) as (Hn' & _).
  unfold energy_sum in F. rewrite <- Forall_forall in Hb. destruct (sum_bound l Hb f64_zero eq_refl F) as (_ & HF & _).
  eapply Rle_trans; [|apply (sum_term l Hb f64_zero eq_refl F ltac:(cbn; lra) n x Hin)].
  apply term_lower; [cbn in Hn'; lia| |].
  - clear Hm H0. pose proof Hb as Hb'. revert F Hin. unfold energy_sum. assert (unsigned f64_zero) as U by reflexivity. revert U. generalize f64_zero.
    clear HF. induction Hb as [|(m, y) l Hy Hl IH]; intros t U F Hin; [destruct Hin|]. cbn [fold_left] in F.
    assert (unsigned (f64_add t (f64_mul (f64_of_N m) y))) as U'.
    { apply add_unsigned; auto. pose proof Hy as (Hk & Hu & _). cbn [fst snd] in *. apply mul_unsigned. unfold unsigned in Hu. rewrite Hu. destruct (of_N_real m Hk) as (_ & _ & ->). reflexivity. }
    destruct Hin as [E|Hin].
    + injection E as -> ->. destruct (sum_bound l Hl _ U' F) as (F1 & _). destruct (add_fin _ _ F1) as (_ & ? & _). auto.
    + inversion Hb'; subst. eapply IH; eauto.
  - apply measured_tiny; [apply (Hm _ Hin)|apply (HF _ Hin)].
Qed.
Lemma gated_positive E l : powf_contract E -> Forall block_ok l -> countable l -> population l <> 0%N -> is_finite (energy_sum l) = true ->
  (forall b, In b l -> measurable (snd b) = true) -> sum_all [l] = energy_sum l ->
  exists n x, gated E [l] = Some (n, x) /\ (0 < n <= population l)%N /\ positive (f64_div x (f64_of_N n)) /\
    positive (f64_mul (mean_energy l) (tenth E)).
Proof.
  intros HE Hb Hc H0 F Hm HS.
  assert (Forall (Forall block_ok) [l]) as Hbb by (constructor; auto).
  assert (countable (concat [l])) as Hcc by now rewrite concat_one. assert (population (concat [l]) <> 0%N) as H00 by now rewrite concat_one.
  destruct (some_block_passes E [l] HE Hbb Hcc H00 ltac:(now rewrite HS)) as (FG & HP).
  assert (gated E [l] = Some (population (passing E [l]), energy_sum (passing E [l]))) as EG.
  { unfold gated. rewrite concat_one, HS. destruct (N.eqb_spec (population l) 0); [congruence|].
    assert (f64_is_nan (energy_sum l) = false) as -> by (now apply finite_not_nan).
    destruct (N.eqb_spec (population (passing E [l])) 0); [congruence|]. reflexivity. }
  exists (population (passing E [l])), (energy_sum (passing E [l])). split; auto.
  pose proof (gated_count E [l] _ _ EG) as HN. rewrite concat_one in HN. split; auto.
  assert (passing E [l] = List.filter (fun b => f64_ge (snd b) (gate E [l])) l) as EP by (unfold passing, at_least; now rewrite concat_one).
  assert (Forall block_ok (passing E [l])) as Hbp. { rewrite EP. apply Forall_forall. intros b Hin. apply filter_In in Hin. rewrite Forall_forall in Hb. apply Hb, Hin. }
  assert (is_finite (energy_sum (passing E [l])) = true) as FP.
  { rewrite EP. apply (sum_filter _ l Hb f64_zero f64_zero); auto; try reflexivity. change (B2R f64_zero) with 0. lra. }
  pose proof (sum_lower _ Hbp FP ltac:(intros b Hin; rewrite EP in Hin; apply filter_In in Hin; apply Hm, Hin) HP) as L1.
  pose proof (sum_lower _ Hb F Hm H0) as L2. unfold countable in Hc. pose proof (bpow_gt_0 radix2 (-105)) as BP. split.
  - destruct (mean_lower _ (population (passing E [l])) FP L1 ltac:(lia)) as (F1 & P1). split; auto. unfold real. lra.
  - destruct (mean_lower _ (population l) F L2 ltac:(lia)) as (F1 & P1). fold (mean_energy l) in *. destruct (tenth_bounds E HE) as (FT & BT).
    destruct (mul_down _ (tenth E) F1 FT ltac:(lra) ltac:(lra)) as (F2 & E2). split; auto. unfold real. rewrite E2.
    eapply Rlt_le_trans; [apply (bpow_gt_0 radix2 (-109))|]. apply rnd_bpow; [lia|].
    apply Rle_trans with (bpow radix2 (-105) * bpow radix2 (-4)); [rewrite <- bpow_plus; apply Rle_refl|].
    apply Rmult_le_compat; try apply bpow_ge_0; auto. change (bpow radix2 (-4)) with (/ 16). lra.
Qed.
