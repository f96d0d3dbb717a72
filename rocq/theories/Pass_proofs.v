(** The relative gate lets at least one block pass; NaN in histories. *)
From Coq Require Import List Arith NArith ZArith Bool Lia Reals Lra Psatz.
From Flocq Require Import Core IEEE754.BinarySingleNaN.
From Verif Require Import Prelude Float Env Tables Utils History Filter Ebur128 Spec Spec_real Spec_history
  Prelude_proofs Utils_proofs Float_proofs Order_proofs History_proofs Energy_proofs Accuracy_proofs Table_proofs Gate_proofs Gating_proofs.
Import ListNotations.
Local Open Scope R_scope.

(** * Rounding upwards by at most one percent *)
Definition tiny : R := bpow radix2 (-40).
Lemma tiny_pos : 0 < tiny. Proof. apply bpow_gt_0. Qed.
Lemma eta_tiny : eta <= / 1000 * tiny.
Proof.
  rewrite <- eta_bpow. unfold tiny. replace (-1074)%Z with (-1034 + -40)%Z by lia. rewrite bpow_plus.
  assert (bpow radix2 (-1034) <= / 1000).
  { apply Rle_trans with (bpow radix2 (-10)); [apply bpow_le; lia|]. change (bpow radix2 (-10)) with (/ 1024). lra. }
  pose proof (bpow_gt_0 radix2 (-40)). pose proof (bpow_gt_0 radix2 (-1034)). nra.
Qed.
Lemma u_1000 : u <= / 1000.
Proof.
  unfold roundoff. apply Rinv_le_contravar; [lra|]. rewrite pow_IZR. apply IZR_le. vm_compute. discriminate.
Qed.
Lemma rnd_mono x y : x <= y -> rnd64 x <= rnd64 y.
Proof. intros H. unfold rnd64. apply round_le; auto; [apply fexp_correct; apply Hprec64|apply valid_rnd_N]. Qed.
Lemma rnd_0 : rnd64 0 = 0.
Proof. apply rnd64_generic. apply generic_format_0. Qed.
Lemma rnd_nonneg x : 0 <= x -> 0 <= rnd64 x.
Proof. intros H. rewrite <- rnd_0. now apply rnd_mono. Qed.
Definition sizeable (x : R) : Prop := x = 0 \/ tiny <= x.
Lemma rnd_up x : sizeable x -> 99 / 100 * x <= rnd64 x <= 101 / 100 * x.
Proof.
  pose proof tiny_pos. intros [->|Hx]; [rewrite rnd_0; lra|].
  destruct (rnd_bounds x ltac:(lra)) as (H1 & H2). pose proof eta_tiny. pose proof u_1000. pose proof u_pos. split; nra.
Qed.
Lemma sizeable_nonneg x : sizeable x -> 0 <= x. Proof. pose proof tiny_pos. intros [->|]; lra. Qed.
Lemma sizeable_scale x c : 1 <= c -> sizeable x -> sizeable (c * x).
Proof. pose proof tiny_pos. intros Hc [->|H0]; [left; ring|right; nra]. Qed.
Lemma rnd_add_le (s x : f64) : 0 <= B2R x -> rnd64 (B2R s + B2R x) <= B2R s + 2 * B2R x.
Proof.
  intros Hx. destruct (round_N_pt radix2 fexp64 (fun n => negb (Z.even n)) (B2R s + B2R x)) as (_ & H).
  specialize (H (B2R s) (B2R_64 s)). change (round radix2 fexp64 (Znearest _) ?z) with (rnd64 z) in H.
  replace (B2R s - (B2R s + B2R x)) with (- B2R x) in H by ring. rewrite Rabs_Ropp, (Rabs_pos_eq (B2R x)) in H by auto.
  apply Rabs_le_inv in H. lra.
Qed.
Lemma below_emax x (s : f64) : 0 <= x <= B2R s -> (Rlt_bool (Rabs (rnd64 x)) (bpow radix2 1024) = true).
Proof.
  intros H. apply Rlt_bool_true. rewrite Rabs_pos_eq by (apply rnd_nonneg; lra).
  apply Rle_lt_trans with (B2R s).
  - rewrite <- (rnd64_generic (B2R s)) by apply B2R_64. apply rnd_mono. lra.
  - eapply Rle_lt_trans; [apply Rle_abs|]. apply abs_B2R_lt_emax.
Qed.
Lemma div_down x y : is_finite x = true -> is_finite y = true -> 0 <= B2R x -> 1 <= B2R y ->
  is_finite (f64_div x y) = true /\ B2R (f64_div x y) = rnd64 (B2R x / B2R y).
Proof.
  intros Fx Fy Hx Hy. pose proof (Bdiv_correct 53 1024 Hprec64 Hmax64 mode_NE x y ltac:(lra)) as X.
  change (round radix2 (SpecFloat.fexp 53 1024) (round_mode mode_NE) ?z) with (rnd64 z) in X.
  rewrite (below_emax _ x) in X.
  - destruct X as (X1 & X2 & _). unfold f64_div. now rewrite X2.
  - assert (0 < / B2R y) by (apply Rinv_0_lt_compat; lra). split; [apply Rmult_le_pos; lra|].
    apply Rmult_le_reg_r with (B2R y); [lra|]. unfold Rdiv. rewrite Rmult_assoc, Rinv_l by lra. nra.
Qed.
Lemma mul_down x y : is_finite x = true -> is_finite y = true -> 0 <= B2R x -> 0 <= B2R y <= 1 ->
  is_finite (f64_mul x y) = true /\ B2R (f64_mul x y) = rnd64 (B2R x * B2R y).
Proof.
  intros Fx Fy Hx Hy. pose proof (Bmult_correct 53 1024 Hprec64 Hmax64 mode_NE x y) as X.
  change (round radix2 (SpecFloat.fexp 53 1024) (round_mode mode_NE) ?z) with (rnd64 z) in X.
  rewrite (below_emax _ x) in X by (split; nra). destruct X as (X1 & X2 & _). unfold f64_mul. rewrite X2. now rewrite Fx, Fy.
Qed.

(** * Energies of blocks *)
Definition block_ok (b : N * f64) : Prop := (fst b < 18446744073709551616)%N /\ unsigned (snd b) /\ (is_finite (snd b) = true -> sizeable (B2R (snd b))).
Lemma bnd0_tiny : tiny <= B2R (bnd 0).
Proof.
  assert (f64_le (f64_bin 4503599627370496 (-92)) (bnd 0) = true) as L by (vm_cast_no_check (eq_refl true)). unfold f64_le in L.
  destruct (bin_real 4503599627370496 (-92) ltac:(lia) ltac:(lia)) as (F & E).
  rewrite Bleb_correct in L; [|exact F|apply table_finite; lia]. rewrite E in L. rcases.
  replace (IZR 4503599627370496 * bpow radix2 (-92)) with tiny in *; auto. unfold tiny.
  change (IZR 4503599627370496) with (bpow radix2 52). now rewrite <- bpow_plus.
Qed.
Lemma storable_sizeable x : storable x -> is_finite x = true -> sizeable (B2R x).
Proof.
  intros [H| ->] F; [|left; reflexivity]. right. rewrite measurable_eq in H. apply negb_true_iff in H. unfold f64_lt in H.
  rewrite Bltb_correct in H; [|auto|apply table_finite; lia]. pose proof bnd0_tiny. rcases. lra.
Qed.
Lemma cen_storable i : (i < 1000)%nat -> storable (cen i).
Proof.
  intros Hi. left. rewrite measurable_eq. apply negb_true_iff.
  assert (f64_lt (bnd 0) (cen i) = true) as L.
  { destruct i as [|i]; [apply table_order; lia|]. eapply Bltb_trans; [|apply (cen_lt 0 (S i)); lia]. apply table_order. lia. }
  destruct (f64_lt (cen i) (bnd 0)) eqn:E; auto. pose proof (Bltb_trans _ _ _ L E) as X. now rewrite Bltb_irrefl in X.
Qed.
Lemma contents_storable h n x : well_formed h -> In (n, x) (contents h) -> storable x.
Proof.
  destruct h as [q|c]; cbn [contents well_formed]; intros H Hin.
  - apply in_map_iff in Hin. destruct Hin as (y & E & Hy). injection E as <- <-. rewrite Forall_forall in H. auto.
  - apply In_combine_cen in Hin. destruct Hin as (i & Hi & -> & _). now apply cen_storable.
Qed.
Lemma blocks_ok hs : Forall well_formed hs -> countable (concat (map contents hs)) -> Forall (Forall block_ok) (map contents hs).
Proof.
  intros Hw Hc. apply Forall_forall. intros l Hl. apply Forall_forall. intros (n, x) Hb.
  assert (In (n, x) (concat (map contents hs))) as Hin by (apply in_concat; eauto).
  apply in_map_iff in Hl. destruct Hl as (h & <- & Hh). rewrite Forall_forall in Hw.
  pose proof (contents_storable h n x (Hw h Hh) Hb) as HS. split; [|split]; cbn [fst snd].
  - apply pop_In in Hin. unfold countable in Hc. lia.
  - now apply storable_unsigned.
  - now apply storable_sizeable.
Qed.
Definition size_of (n : N) : R := IZR (Z.of_N n).
Lemma size_pos n : n <> 0%N -> 1 <= size_of n. Proof. intros. apply IZR_le. lia. Qed.
Lemma size_nonneg n : 0 <= size_of n. Proof. apply IZR_le. lia. Qed.
Lemma size_sizeable n : sizeable (size_of n).
Proof.
  destruct (N.eq_dec n 0) as [->|H]; [now left|right]. pose proof (size_pos n H). assert (tiny <= 1); [|lra].
  change 1 with (bpow radix2 0). apply bpow_le. lia.
Qed.
Lemma term_bound b : block_ok b -> is_finite (f64_mul (f64_of_N (fst b)) (snd b)) = true ->
  is_finite (snd b) = true /\ 0 <= B2R (f64_mul (f64_of_N (fst b)) (snd b)) <= 103 / 100 * (size_of (fst b) * B2R (snd b)).
Proof.
  intros (Hn & Hu & Hs) F. destruct (mul_fin _ _ F) as (_ & Fx & ER). split; auto. specialize (Hs Fx).
  unfold real in ER. rewrite ER. destruct (of_N_real _ Hn) as (_ & EN & _). rewrite EN. clear ER.
  pose proof (size_sizeable (fst b)) as Z1. unfold size_of in *. pose proof (rnd_up _ Z1) as R1. pose proof (sizeable_nonneg _ Hs) as P1. pose proof (sizeable_nonneg _ Z1) as P2.
  assert (sizeable (101 / 100 * (IZR (Z.of_N (fst b)) * B2R (snd b)))) as S2.
  { apply sizeable_scale; [lra|]. destruct (N.eq_dec (fst b) 0) as [E0|E0]; [left; rewrite E0; cbn; ring|].
    apply sizeable_scale; auto. now apply size_pos. }
  pose proof (rnd_up _ S2) as R2. split.
  - apply rnd_nonneg. nra.
  - eapply Rle_trans; [apply (rnd_mono _ (101 / 100 * (IZR (Z.of_N (fst b)) * B2R (snd b))))|]; nra.
Qed.
Fixpoint weighted (l : list (N * f64)) : R := match l with [] => 0 | b :: l => size_of (fst b) * B2R (snd b) + weighted l end.
Lemma weighted_app l m : weighted (l ++ m) = weighted l + weighted m.
Proof. induction l as [|b l IH]; cbn [app weighted]; [ring|rewrite IH; ring]. Qed.
Lemma weighted_nonneg l : Forall block_ok l -> (forall b, In b l -> is_finite (snd b) = true) -> 0 <= weighted l.
Proof.
  induction 1 as [|b l (_ & _ & H) _ IH]; intros HF; cbn [weighted]; [lra|].
  assert (0 <= B2R (snd b)) by (apply sizeable_nonneg, H, HF; now left). pose proof (size_nonneg (fst b)).
  specialize (IH ltac:(intros; apply HF; now right)). nra.
Qed.
Lemma sum_bound l : Forall block_ok l -> forall t, unsigned t ->
  is_finite (fold_left (fun t '(n, x) => f64_add t (f64_mul (f64_of_N n) x)) l t) = true ->
  is_finite t = true /\ (forall b, In b l -> is_finite (snd b) = true) /\
  B2R t <= B2R (fold_left (fun t '(n, x) => f64_add t (f64_mul (f64_of_N n) x)) l t) <= B2R t + 206 / 100 * weighted l.
Proof.
  induction 1 as [|(n, x) l Hb Hl IH]; intros t Ht F; cbn [fold_left weighted] in *; [split; auto; split; [easy|lra]|].
  pose proof Hb as (Hn & Hu & _). cbn [fst snd] in *.
  assert (unsigned (f64_add t (f64_mul (f64_of_N n) x))) as U.
  { apply add_unsigned; auto. apply mul_unsigned. unfold unsigned in Hu. rewrite Hu. destruct (of_N_real n Hn) as (_ & _ & ->). reflexivity. }
  destruct (IH _ U F) as (F1 & F2 & B1 & B2). destruct (add_fin _ _ F1) as (Ft & Fm & ER). unfold real in ER. rewrite ER in *.
  destruct (term_bound (n, x) Hb Fm) as (Fx & T1 & T2). cbn [fst snd] in *.
  split; auto. split. { intros b [<-|Hin]; auto. }
  pose proof (rnd_add_le t (f64_mul (f64_of_N n) x) T1).
  assert (B2R t <= rnd64 (B2R t + B2R (f64_mul (f64_of_N n) x))).
  { rewrite <- (rnd64_generic (B2R t)) at 1 by apply B2R_64. apply rnd_mono. lra. }
  split; lra.
Qed.
Lemma energy_sum_unsigned' l : Forall block_ok l -> unsigned (energy_sum l).
Proof.
  intros H. apply energy_fold_unsigned; [|reflexivity]. eapply Forall_impl; [|exact H]. intros (n, x) (Hn & Hu & _). cbn [fst snd] in *. split; auto.
  now destruct (of_N_real n Hn) as (_ & _ & ?).
Qed.
Lemma sum_all_bound ls : Forall (Forall block_ok) ls -> forall t, unsigned t ->
  is_finite (fold_left (fun t l => f64_add t (energy_sum l)) ls t) = true ->
  is_finite t = true /\ (forall b, In b (concat ls) -> is_finite (snd b) = true) /\
  B2R t <= B2R (fold_left (fun t l => f64_add t (energy_sum l)) ls t) <= B2R t + 412 / 100 * weighted (concat ls).
Proof.
  induction 1 as [|l ls Hb Hl IH]; intros t Ht F; cbn [fold_left concat] in *; [cbn [weighted]; split; auto; split; [easy|lra]|].
  pose proof (energy_sum_unsigned' l Hb) as U. destruct (IH _ (add_unsigned _ _ Ht U) F) as (F1 & F2 & B1 & B2).
  destruct (add_fin _ _ F1) as (Ft & Fe & ER). unfold real in ER. rewrite ER in *.
  destruct (sum_bound l Hb f64_zero eq_refl Fe) as (_ & F3 & B3 & B4). fold (energy_sum l) in *. change (B2R f64_zero) with 0 in *.
  split; auto. rewrite weighted_app. split. { intros b Hin. apply in_app_or in Hin. destruct Hin; auto. }
  pose proof (rnd_add_le t (energy_sum l) B3).
  assert (B2R t <= rnd64 (B2R t + B2R (energy_sum l))).
  { rewrite <- (rnd64_generic (B2R t)) at 1 by apply B2R_64. apply rnd_mono. lra. }
  split; lra.
Qed.
Lemma largest_block l : population l <> 0%N -> exists b, In b l /\ fst b <> 0%N /\
  forall c, In c l -> fst c <> 0%N -> B2R (snd c) <= B2R (snd b).
Proof.
  induction l as [|(n, x) l IH]; intros H; [now destruct H|]. rewrite population_cons in H.
  destruct (N.eq_dec (population l) 0) as [E|E].
  - exists (n, x). split; [now left|]. cbn [fst snd]. split; [lia|]. intros (m, y) [Hc|Hc] Hm; [injection Hc as <- <-; cbn; lra|].
    apply pop_In in Hc. cbn in Hm. lia.
  - destruct (IH E) as (b & Hb & Hb0 & HM). destruct (N.eq_dec n 0) as [->|En].
    + exists b. split; [now right|]. split; auto. intros c [<-|Hc] Hc0; [now destruct Hc0|]. now apply HM.
    + destruct (Rle_lt_dec (B2R x) (B2R (snd b))) as [L|L].
      * exists b. split; [now right|]. split; auto. intros c [<-|Hc] Hc0; auto.
      * exists (n, x). split; [now left|]. split; auto. intros c [<-|Hc] Hc0; [cbn; lra|]. cbn [snd]. specialize (HM c Hc Hc0). lra.
Qed.
Lemma weighted_max l M : 0 <= M -> (forall b, In b l -> fst b <> 0%N -> B2R (snd b) <= M) -> weighted l <= size_of (population l) * M.
Proof.
  intros HM. induction l as [|(n, x) l IH]; intros H; cbn [weighted fst snd]; [change (size_of (population [])) with 0; lra|]. rewrite population_cons.
  specialize (IH ltac:(intros; apply H; auto; now right)).
  assert (size_of (n + population l) = size_of n + size_of (population l)) as -> by (unfold size_of; rewrite N2Z.inj_add; apply plus_IZR).
  assert (size_of n * B2R x <= size_of n * M); [|lra]. destruct (N.eq_dec n 0) as [->|En]; [change (size_of 0) with 0; lra|].
  apply Rmult_le_compat_l; [apply size_nonneg|]. apply (H (n, x)); [now left|auto].
Qed.
Lemma some_block_passes E ls : powf_contract E -> Forall (Forall block_ok) ls -> countable (concat ls) -> population (concat ls) <> 0%N ->
  is_finite (sum_all ls) = true -> is_finite (gate E ls) = true /\ population (passing E ls) <> 0%N.
Proof.
  intros HE Hb Hc H0 F. unfold sum_all in F. destruct (sum_all_bound ls Hb f64_zero eq_refl F) as (_ & FX & B1 & B2).
  fold (sum_all ls) in *. change (B2R f64_zero) with 0 in *. destruct (largest_block _ H0) as ((n0, x0) & Hin & Hn0 & HM). cbn [fst snd] in *.
  assert (block_ok (n0, x0)) as (_ & _ & HS).
  { apply in_concat in Hin. destruct Hin as (l & Hl & Hi). rewrite Forall_forall in Hb. specialize (Hb l Hl). rewrite Forall_forall in Hb. now apply Hb. }
  cbn [snd] in HS. pose proof (FX _ Hin) as Fx0. cbn [snd] in Fx0. specialize (HS Fx0). pose proof (sizeable_nonneg _ HS) as P0.
  pose proof (weighted_max (concat ls) (B2R x0) P0 HM) as HW. set (N0 := population (concat ls)) in *.
  unfold countable in Hc. fold N0 in Hc. destruct (of_N_real N0 Hc) as (FN & EN & _). pose proof (of_N_pos N0 ltac:(lia)) as PN.
  pose proof (size_pos N0 H0) as PZ. unfold size_of in *.
  pose proof (rnd_up _ (or_intror (Rle_trans tiny 1 _ ltac:(change 1 with (bpow radix2 0); apply bpow_le; lia) PZ))) as RN. rewrite <- EN in RN.
  set (s := sum_all ls) in *. destruct (div_down s (f64_of_N N0) F FN B1 PN) as (FD & ED).
  assert (B2R s / B2R (f64_of_N N0) <= 417 / 100 * B2R x0) as Q1.
  { apply Rmult_le_reg_r with (B2R (f64_of_N N0)); [lra|]. unfold Rdiv. rewrite Rmult_assoc, Rinv_l by lra. rewrite Rmult_1_r.
    assert (B2R s <= 412 / 100 * (IZR (Z.of_N N0) * B2R x0)) by lra.
    assert (IZR (Z.of_N N0) * B2R x0 <= 100 / 99 * B2R (f64_of_N N0) * B2R x0) by (apply Rmult_le_compat_r; lra). nra. }
  assert (0 <= B2R s / B2R (f64_of_N N0)) as Q0.
  { apply Rmult_le_pos; auto. left. apply Rinv_0_lt_compat. lra. }
  assert (0 <= B2R (f64_div s (f64_of_N N0)) <= 422 / 100 * B2R x0) as Q2.
  { rewrite ED. split; [now apply rnd_nonneg|]. eapply Rle_trans; [apply rnd_mono; exact Q1|].
    pose proof (rnd_up _ (sizeable_scale _ (417 / 100) ltac:(lra) HS)). lra. }
  destruct (tenth_bounds E HE) as (FT & BT). destruct (mul_down _ (tenth E) FD FT (proj1 Q2) ltac:(lra)) as (FG & EG).
  assert (gate E ls = f64_mul (f64_div s (f64_of_N N0)) (tenth E)) as Eg by reflexivity. rewrite <- Eg in FG, EG. split; auto.
  assert (B2R (gate E ls) <= B2R x0) as Q3.
  { rewrite EG. rewrite <- (rnd64_generic (B2R x0)) by apply B2R_64. apply rnd_mono. nra. }
  assert (In (n0, x0) (passing E ls)) as HP.
  { unfold passing, at_least. apply filter_In. split; auto. cbn [snd]. unfold f64_ge. rewrite Bleb_correct by auto. now apply Rle_bool_true. }
  apply pop_In in HP. lia.
Qed.
Lemma gated_some E hs : powf_contract E -> Forall well_formed hs -> countable (concat (map contents hs)) ->
  population (concat (map contents hs)) <> 0%N -> is_finite (sum_all (map contents hs)) = true -> exists n x, gated E (map contents hs) = Some (n, x) /\ n <> 0%N.
Proof.
  intros HE Hw Hc H0 F. destruct (some_block_passes E _ HE (blocks_ok hs Hw Hc) Hc H0 F) as (_ & HP).
  unfold gated. destruct (N.eqb_spec (population (concat (map contents hs))) 0); [congruence|].
  assert (f64_is_nan (sum_all (map contents hs)) = false) as -> by (now apply finite_not_nan).
  destruct (N.eqb_spec (population (passing E (map contents hs))) 0); [congruence|]. cbn [orb]. eauto.
Qed.
