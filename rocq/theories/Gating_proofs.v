(** The relative gate. *)
From Coq Require Import List Arith NArith ZArith Bool Lia Reals Lra Psatz.
From Flocq Require Import Core IEEE754.BinarySingleNaN.
From Verif Require Import Prelude Float Env Tables Utils History Filter Ebur128 Spec Spec_real Spec_history
  Prelude_proofs Utils_proofs Float_proofs Order_proofs History_proofs Energy_proofs Accuracy_proofs Table_proofs Gate_proofs.
Import ListNotations.
Local Open Scope nat_scope.

(** * Numbers of blocks as f64 *)
Lemma of_N_real n : (n < 18446744073709551616)%N ->
  is_finite (f64_of_N n) = true /\ B2R (f64_of_N n) = rnd64 (IZR (Z.of_N n)) /\ Bsign (f64_of_N n) = false.
Proof.
  intros H. unfold f64_of_N, f64_of_Z, f64_bin.
  pose proof (binary_normalize_correct 53 1024 Hprec64 Hmax64 mode_NE (Z.of_N n) 0 false) as X. cbv zeta in X.
  assert (F2R (Float radix2 (Z.of_N n) 0) = IZR (Z.of_N n)) as EF.
  { unfold F2R. cbn [Fnum Fexp bpow]. now rewrite Rmult_1_r. }
  rewrite EF in X. assert (0 <= IZR (Z.of_N n))%R as H0 by (apply IZR_le; lia).
  change (round radix2 (SpecFloat.fexp 53 1024) (round_mode mode_NE) ?z) with (rnd64 z) in X.
  assert (0 <= rnd64 (IZR (Z.of_N n)) <= IZR (2 ^ 64))%R as Hr.
  { split.
    - rewrite <- (rnd64_generic 0) by apply generic_format_0. unfold rnd64. apply round_le; [apply fexp_correct; exact Hprec64 || apply Hprec64|apply valid_rnd_N|auto].
    - rewrite <- (rnd64_generic (IZR (2 ^ 64))).
      + unfold rnd64. apply round_le; [apply fexp_correct; apply Hprec64|apply valid_rnd_N|]. apply IZR_le. lia.
      + change (IZR (2 ^ 64)) with (bpow radix2 64). apply generic_format_bpow. unfold fexp64, SpecFloat.fexp, SpecFloat.emin. lia. }
  rewrite Rlt_bool_true in X.
  - destruct X as (X1 & X2 & X3). split; [auto|]. split; [auto|]. rewrite X3. destruct (Rcompare_spec (IZR (Z.of_N n)) 0); auto. lra.
  - rewrite Rabs_pos_eq by lra. apply Rle_lt_trans with (1 := proj2 Hr). change (IZR (2 ^ 64)) with (bpow radix2 64). apply bpow_lt. lia.
Qed.
Lemma of_N_pos n : (0 < n < 18446744073709551616)%N -> (1 <= B2R (f64_of_N n))%R.
Proof.
  intros H. destruct (of_N_real n ltac:(lia)) as (_ & -> & _). rewrite <- (rnd64_generic 1).
  - unfold rnd64. apply round_le; [apply fexp_correct; apply Hprec64|apply valid_rnd_N|]. apply IZR_le. lia.
  - change 1%R with (bpow radix2 0). apply generic_format_bpow. unfold fexp64, SpecFloat.fexp, SpecFloat.emin. lia.
Qed.
Lemma of_N_0 : f64_of_N 0 = f64_zero. Proof. reflexivity. Qed.
Lemma mul_one x : f64_mul (f64_of_N 1) x = x.
Proof.
  assert (is_finite (f64_of_N 1) = true /\ B2R (f64_of_N 1) = 1%R /\ Bsign (f64_of_N 1) = false) as (F1 & R1 & S1).
  { destruct (f64_of_nat_real 1 ltac:(lia)) as (A & B). change (f64_of_nat 1) with (f64_of_N 1) in *. split; auto. }
  set (o := f64_of_N 1) in *. clearbody o. destruct x as [s|s| |s m e B].
  - unfold f64_mul. destruct o as [| | |s' m' e' B']; try discriminate F1; cbn in *; [lra|]. now subst s'; rewrite xorb_false_l.
  - unfold f64_mul. destruct o as [| | |s' m' e' B']; try discriminate F1; cbn in *; [lra|]. now subst s'; rewrite xorb_false_l.
  - unfold f64_mul. now destruct o.
  - set (x := B754_finite s m e B). pose proof (Bmult_correct 53 1024 Hprec64 Hmax64 mode_NE o x) as X.
    rewrite R1, Rmult_1_l in X. change (round radix2 (SpecFloat.fexp 53 1024) (round_mode mode_NE) ?z) with (rnd64 z) in X.
    rewrite (rnd64_generic (B2R x)) in X by apply B2R_64. rewrite Rlt_bool_true in X by apply abs_B2R_lt_emax.
    destruct X as (X1 & X2 & X3). rewrite F1, S1 in *. cbn [andb xorb] in *. unfold f64_mul.
    apply B2R_Bsign_inj; auto. rewrite X3; [now destruct (Bsign x)|]. now apply finite_not_nan.
Qed.

(** * Sums *)
Lemma storable_unsigned x : storable x -> unsigned x.
Proof.
  intros [H| ->]; [|reflexivity]. unfold measurable in H. change (bound 0) with (bnd 0) in H. apply negb_true_iff in H.
  destruct (is_nan x) eqn:N; [now apply nan_unsigned|].
  unfold f64_lt in H. rewrite Bltb_Bleb in H by (auto; now apply bnd_not_nan). apply negb_false_iff in H.
  assert (0 < B2R (bnd 0))%R as Hb.
  { assert (f64_lt f64_zero (bnd 0) = true) as L by (vm_cast_no_check (eq_refl true)). unfold f64_lt in L.
    rewrite Bltb_correct in L; [|reflexivity|apply table_finite; lia]. change (B2R f64_zero) with 0%R in L. now rcases. }
  unfold unsigned. rewrite Bleb_spec in H. destruct (bnd 0) as [| | |sb mb eb Bb] eqn:Eb; try (cbn in Hb; lra).
  destruct x as [s|s| |s m e B]; try discriminate N.
  - rcases. cbn in *. lra.
  - cbn in H. destruct s; auto.
  - rcases. apply B2R_pos_sign. lra.
Qed.
Lemma add_zero_r s x : unsigned x -> f64_add x (B754_zero s) = x.
Proof. unfold unsigned, f64_add. destruct x as [[]|[]| |[] m e B]; cbn; intros; try discriminate; auto; now destruct s. Qed.
Lemma add_neg0_l x : unsigned x -> f64_add (f64_neg f64_zero) x = x.
Proof. unfold unsigned, f64_add. destruct x as [[]|[]| |[] m e B]; cbn; intros; try discriminate; auto. Qed.
Lemma fold_add_unsigned l : forall t, unsigned t -> Forall unsigned l -> unsigned (fold_left f64_add l t).
Proof.
  induction l as [|x l IH]; intros t Ht Hl; cbn [fold_left]; auto. inversion Hl; subst. apply IH; auto. now apply add_unsigned.
Qed.
Lemma energy_sum_singly l : energy_sum (map (fun x => (1%N, x)) l) = fold_left f64_add l f64_zero.
Proof.
  unfold energy_sum. generalize f64_zero. induction l as [|x l IH]; intros t; cbn [map fold_left]; auto. rewrite mul_one. apply IH.
Qed.
Lemma energy_sum_app l m : energy_sum (l ++ m) = fold_left (fun t '(n, x) => f64_add t (f64_mul (f64_of_N n) x)) m (energy_sum l).
Proof. unfold energy_sum. now rewrite fold_left_app. Qed.
Lemma energy_fold_unsigned l : Forall (fun b => unsigned (snd b) /\ unsigned (f64_of_N (fst b))) l -> forall t, unsigned t ->
  unsigned (fold_left (fun t '(n, x) => f64_add t (f64_mul (f64_of_N n) x)) l t).
Proof.
  induction 1 as [|(n, x) l (H1 & H2) _ IH]; intros t Ht; cbn [fold_left]; auto. apply IH. apply add_unsigned; auto.
  apply mul_unsigned. cbn in *. unfold unsigned in *. now rewrite H1, H2.
Qed.
Lemma sum_add P l t : unsigned t -> Forall unsigned l ->
  f64_add t (sum_f64 P l) = f64_add t (energy_sum (map (fun x => (1%N, x)) l)).
Proof.
  intros Ht Hl. rewrite energy_sum_singly. unfold sum_f64. destruct (p_sum_neg0 P); auto. destruct Hl as [|x l Hx Hl]; cbn [fold_left].
  - unfold f64_neg, f64_zero. cbn [Bopp negb]. now rewrite !add_zero_r.
  - now rewrite add_neg0_l, add_zero_l.
Qed.
Lemma sum_singly P l : l <> [] -> Forall unsigned l -> sum_f64 P l = energy_sum (map (fun x => (1%N, x)) l).
Proof.
  intros Hn Hl. rewrite energy_sum_singly. unfold sum_f64. destruct (p_sum_neg0 P); auto. destruct Hl as [|x l Hx Hl]; [congruence|]. cbn [fold_left].
  now rewrite add_neg0_l, add_zero_l.
Qed.
Lemma population_cons n x l : population ((n, x) :: l) = (n + population l)%N. Proof. reflexivity. Qed.
Lemma population_app l m : population (l ++ m) = (population l + population m)%N.
Proof. induction l as [|(n, x) l IH]; [reflexivity|]. cbn [app]. rewrite !population_cons, IH. lia. Qed.
Lemma population_singly l : population (map (fun x => (1%N, x)) l) = N.of_nat (length l).
Proof. induction l as [|x l IH]; [reflexivity|]. cbn [map length]. rewrite population_cons, IH. lia. Qed.
Lemma fold_pairs l : forall n t,
  fold_left (fun '(n, t) '(count, energy) => ((n + count)%N, f64_add t (f64_mul (f64_of_N count) energy))) l (n, t) =
  ((n + population l)%N, fold_left (fun t '(n, x) => f64_add t (f64_mul (f64_of_N n) x)) l t).
Proof.
  induction l as [|(c, x) l IH]; intros n t; cbn [fold_left]; [f_equal; cbn; lia|]. rewrite IH, population_cons. f_equal. lia.
Qed.
Lemma histogram_threshold c : histogram_calc_relative_threshold c = (population (combine c ENERGIES), energy_sum (combine c ENERGIES)).
Proof. unfold histogram_calc_relative_threshold, energy_sum. now rewrite fold_pairs. Qed.
Lemma cen_unsigned i : unsigned (cen i).
Proof.
  destruct (Nat.lt_ge_cases i 1000) as [H|H].
  - apply storable_unsigned. left. rewrite measurable_eq. apply negb_true_iff.
    assert (f64_lt (bnd 0) (cen i) = true) as L.
    { destruct i as [|i]; [apply table_order; lia|]. eapply Bltb_trans; [|apply (cen_lt 0 (S i)); lia]. apply table_order. lia. }
    destruct (f64_lt (cen i) (bnd 0)) eqn:E; auto. pose proof (Bltb_trans _ _ _ L E) as X. now rewrite Bltb_irrefl in X.
  - unfold cen. rewrite nth_overflow by (rewrite ENERGIES_length; lia). reflexivity.
Qed.
Lemma In_combine_cen c n x : In (n, x) (combine c ENERGIES) -> exists i, i < 1000 /\ x = cen i /\ n = nth i c 0%N /\ i < length c.
Proof.
  intros H. apply (In_nth _ _ (0%N, f64_zero)) in H. destruct H as (i & Hi & E).
  rewrite combine_length, ENERGIES_length in Hi. exists i. split; [lia|].
  assert (nth_error (combine c ENERGIES) i = Some (nth i c 0%N, cen i)) as E2.
  { clear E. unfold cen. pose proof ENERGIES_length as HL. assert (i < length ENERGIES) as H2 by lia. clear HL. revert i Hi H2. generalize ENERGIES. intros EN.
    revert EN. induction c as [|a c IH]; intros [|b EN] i Hi H2; cbn [length] in *; try lia. destruct i; [reflexivity|]. cbn. apply IH; lia. }
  apply nth_error_nth with (d := (0%N, f64_zero)) in E2. rewrite E in E2. injection E2 as E2 E3. subst. split; auto. split; auto. lia.
Qed.
Definition well_formed (h : history) : Prop :=
  match h with HQueue q => Forall storable (q_queue q) | HHistogram c => length c = 1000 end.
Lemma pop_In l n x : In (n, x) l -> (n <= population l)%N.
Proof. induction l as [|(m, y) l IH]; [easy|]. intros [H|H]; rewrite population_cons; [injection H as -> ->; lia|]. specialize (IH H). lia. Qed.
Lemma contents_unsigned h : well_formed h -> countable (contents h) ->
  Forall (fun b => unsigned (snd b) /\ unsigned (f64_of_N (fst b))) (contents h).
Proof.
  intros H Hc. apply Forall_forall. intros (n, x) Hin. cbn [fst snd].
  assert (unsigned (f64_of_N n)) as Hn.
  { apply of_N_real. apply pop_In in Hin. unfold countable in Hc. lia. }
  split; auto. destruct h as [q|c]; cbn [contents well_formed] in *.
  - apply in_map_iff in Hin. destruct Hin as (y & E & Hy). injection E as <- <-. rewrite Forall_forall in H. apply storable_unsigned. auto.
  - apply In_combine_cen in Hin. destruct Hin as (i & _ & -> & _). apply cen_unsigned.
Qed.
Lemma contents_sum P h t : well_formed h -> unsigned t ->
  (let '(n', t') := history_calc_relative_threshold P h in (n', f64_add t t')) = (population (contents h), f64_add t (energy_sum (contents h))).
Proof.
  intros H Ht. destruct h as [q|c]; cbn [history_calc_relative_threshold contents well_formed] in *.
  - unfold queue_calc_relative_threshold. rewrite population_singly, (sum_add P); auto. eapply Forall_impl; [|exact H]. apply storable_unsigned.
  - now rewrite histogram_threshold.
Qed.
Lemma energy_sum_unsigned h : well_formed h -> countable (contents h) -> unsigned (energy_sum (contents h)).
Proof. intros H Hc. apply energy_fold_unsigned; [now apply contents_unsigned|reflexivity]. Qed.
Lemma countable_app l m : countable (l ++ m) -> countable l /\ countable m.
Proof. unfold countable. rewrite population_app. lia. Qed.
Lemma total_fold P : forall hs n t, Forall well_formed hs -> countable (concat (map contents hs)) -> unsigned t ->
  fold_left (fun '(n, t) h => let '(n', t') := history_calc_relative_threshold P h in ((n + n')%N, f64_add t t')) hs (n, t) =
  ((n + population (concat (map contents hs)))%N, fold_left (fun t l => f64_add t (energy_sum l)) (map contents hs) t) /\
  unsigned (fold_left (fun t l => f64_add t (energy_sum l)) (map contents hs) t).
Proof.
  induction hs as [|h hs IH]; intros n t Hw Hc Ht; cbn [fold_left map concat]; [split; auto; f_equal; cbn; lia|].
  inversion Hw; subst. cbn [map concat] in Hc. apply countable_app in Hc. destruct Hc as (Hc1 & Hc2).
  pose proof (contents_sum P h t H1 Ht) as X. destruct (history_calc_relative_threshold P h) as (n', t'). injection X as -> ->.
  destruct (IH (n + population (contents h))%N (f64_add t (energy_sum (contents h)))) as (-> & U); auto.
  { apply add_unsigned; auto. now apply energy_sum_unsigned. }
  split; auto. f_equal. rewrite population_app. lia.
Qed.
Lemma total_eq P hs : Forall well_formed hs -> countable (concat (map contents hs)) ->
  total_relative_threshold P hs = (population (concat (map contents hs)), sum_all (map contents hs)) /\ unsigned (sum_all (map contents hs)).
Proof. intros H Hc. apply (total_fold P hs 0%N f64_zero H Hc eq_refl). Qed.
Lemma sum_all_one h : well_formed h -> countable (contents h) -> sum_all [contents h] = energy_sum (contents h).
Proof. intros H Hc. unfold sum_all. cbn [fold_left]. apply add_zero_l. now apply energy_sum_unsigned. Qed.

(** * The gate is a number *)
Lemma div_not_nan x y : is_nan x = false -> is_finite y = true -> B2R y <> 0%R -> is_nan (f64_div x y) = false.
Proof.
  intros Hx Hy H0. destruct y as [s| | |s m e B]; try discriminate Hy; [cbn in H0; lra|].
  unfold f64_div. destruct x as [s'|s'| |s' m' e' B']; try discriminate Hx; try reflexivity.
  pose proof (Bdiv_correct 53 1024 Hprec64 Hmax64 mode_NE (B754_finite s' m' e' B') _ H0) as X. destruct (Rlt_bool _ _).
  - destruct X as (_ & X & _). cbn in X. now apply finite_not_nan.
  - destruct (Bdiv _ _ _); try reflexivity. discriminate X.
Qed.
Lemma mul_not_nan x y : is_nan x = false -> is_finite y = true -> B2R y <> 0%R -> is_nan (f64_mul x y) = false.
Proof.
  intros Hx Hy H0. destruct y as [s| | |s m e B]; try discriminate Hy; [cbn in H0; lra|].
  unfold f64_mul. destruct x as [s'|s'| |s' m' e' B']; try discriminate Hx; try reflexivity.
  pose proof (Bmult_correct 53 1024 Hprec64 Hmax64 mode_NE (B754_finite s' m' e' B') (B754_finite s m e B)) as X. destruct (Rlt_bool _ _).
  - destruct X as (_ & X & _). now apply finite_not_nan.
  - destruct (Bmult _ _ _); try reflexivity. discriminate X.
Qed.
Lemma tenth_eq E : relative_gate_factor E = tenth E. Proof. unfold relative_gate_factor, tenth, f64_ten. f_equal. apply B2SF_inj. vm_compute. reflexivity. Qed.
Lemma hundredth_eq E : minus_twenty_decibels E = hundredth E. Proof. unfold minus_twenty_decibels, hundredth, f64_ten. f_equal. apply B2SF_inj. vm_compute. reflexivity. Qed.
Lemma small_50 : (0 < / 2 ^ 50 <= 1 / 1000)%R.
Proof.
  split; [apply Rinv_0_lt_compat, pow_lt; lra|]. replace (1 / 1000)%R with (/ 1000)%R by lra. apply Rinv_le_contravar; [lra|].
  rewrite pow_IZR. apply IZR_le. vm_compute. discriminate.
Qed.
Lemma tenth_bounds E : powf_contract E -> is_finite (tenth E) = true /\ (9 / 100 <= B2R (tenth E) <= 11 / 100)%R.
Proof. intros ((H1 & H2) & _). split; auto. pose proof small_50. apply Rabs_le_inv in H2. unfold real in H2. set (q := (/ 2 ^ 50)%R) in *. clearbody q. lra. Qed.
Lemma hundredth_bounds E : powf_contract E -> is_finite (hundredth E) = true /\ (9 / 1000 <= B2R (hundredth E) <= 11 / 1000)%R.
Proof. intros (_ & (H1 & H2)). split; auto. pose proof small_50. apply Rabs_le_inv in H2. unfold real in H2. set (q := (/ 2 ^ 50)%R) in *. clearbody q. lra. Qed.
Lemma gate_not_nan E ls : powf_contract E -> countable (concat ls) -> population (concat ls) <> 0%N -> is_nan (sum_all ls) = false ->
  is_nan (gate E ls) = false.
Proof.
  intros HE Hc H0 Hn. destruct (tenth_bounds E HE) as (F & B). unfold countable in Hc.
  apply mul_not_nan; auto; [|lra]. pose proof (of_N_pos (population (concat ls)) ltac:(lia)). apply div_not_nan; auto; [|lra].
  apply of_N_real; lia.
Qed.

(** * Bins at or above the gate *)
Lemma start_index_ok g : is_nan g = false -> exists s, start_index g = Ret s /\ s <= 1000 /\
  forall j, j < 1000 -> f64_ge (cen j) g = (s <=? j).
Proof.
  intros Hg. unfold start_index. rewrite (idx_bnd 0) by lia. cbn [obind].
  assert (forall j, j < 1000 -> Bltb (bnd j) (cen j) = true /\ Bltb (cen j) (bnd (j + 1)) = true) as T.
  { intros j Hj. replace (j + 1) with (S j) by lia. now apply table_order. }
  assert (forall x y : f64, is_nan x = false -> is_nan y = false -> Bltb x y = true -> f64_ge x y = false) as LG.
  { intros x y Hx Hy H. unfold f64_ge. rewrite (Bltb_Bleb x y) in H by auto. now apply negb_true_iff in H. }
  destruct (f64_lt g (bnd 0)) eqn:E0.
  - exists 0. split; auto. split; [lia|]. intros j Hj. cbn [Nat.leb]. unfold f64_ge. apply Bltb_le. eapply Bltb_Bleb_trans; [exact E0|].
    apply Bltb_le. eapply Bleb_Bltb_trans; [apply (bnd_le 0 j); lia|]. now apply T.
  - destruct (find_in_bin g) as (i & -> & Hi). cbn [obind]. apply in_bin_iff in Hi. destruct Hi as (Hl & A & B).
    rewrite (idx_cen i) by lia. cbn [obind].
    assert (Bleb (bnd i) g = true) as A'.
    { destruct A as [->|A]; auto. unfold f64_lt in E0. rewrite Bltb_Bleb in E0 by (auto; now apply bnd_not_nan). now apply negb_false_iff in E0. }
    assert (forall j, i < j -> j < 1000 -> f64_ge (cen j) g = true) as HU.
    { intros j Hij Hj. destruct B as [->|B]; [lia|]. unfold f64_ge in B.
      assert (Bltb g (bnd (i + 1)) = true) as B' by (rewrite Bltb_Bleb by (auto; apply bnd_not_nan; lia); now rewrite B).
      apply Bltb_le. eapply Bltb_Bleb_trans; [exact B'|]. apply Bltb_le. eapply Bleb_Bltb_trans; [apply (bnd_le (i + 1) j); lia|]. now apply T. }
    assert (forall j, j < i -> f64_ge (cen j) g = false) as HD.
    { intros j Hij. apply LG; auto; [apply cen_not_nan; lia|]. eapply Bltb_Bleb_trans; [|exact A'].
      eapply Bltb_Bleb_trans; [apply T; lia|]. apply bnd_le; lia. }
    unfold f64_gt. destruct (Bltb (cen i) g) eqn:EG.
    + exists (i + 1). split; auto. split; [lia|]. intros j Hj. destruct (Nat.leb_spec (i + 1) j).
      * apply HU; lia.
      * destruct (Nat.eq_dec j i) as [->|]; [|apply HD; lia]. apply LG; auto. now apply cen_not_nan.
    + exists i. split; auto. split; [lia|]. intros j Hj. destruct (Nat.leb_spec i j); [|now apply HD].
      destruct (Nat.eq_dec j i) as [->|]; [|apply HU; lia]. unfold f64_ge. rewrite Bltb_Bleb in EG; auto; [now apply negb_false_iff in EG|now apply cen_not_nan].
Qed.
Lemma filter_suffix {A} (p : A -> bool) (l : list A) s : (forall j x, nth_error l j = Some x -> p x = (s <=? j)) ->
  List.filter p l = skipn s l.
Proof.
  revert s. induction l as [|a l IH]; intros s H; cbn [List.filter]; [now rewrite skipn_nil|].
  rewrite (H 0 a eq_refl). destruct s as [|s]; cbn [Nat.leb skipn].
  - f_equal. rewrite (IH 0); auto. intros j x Hj. now rewrite (H (S j) x Hj).
  - apply IH. intros j x Hj. now rewrite (H (S j) x Hj).
Qed.
Lemma combine_cen (c : list N) j (b : N * f64) : length c = 1000 -> nth_error (combine c ENERGIES) j = Some b -> j < 1000 /\ snd b = cen j /\ nth_error c j = Some (fst b).
Proof.
  intros Hl H. assert (j < length (combine c ENERGIES)) as Hj by (apply nth_error_Some; congruence).
  rewrite combine_length, Hl, ENERGIES_length in Hj. split; [lia|]. unfold cen.
  assert (nth_error ENERGIES j = Some (snd b) /\ nth_error c j = Some (fst b)) as (E1 & E2).
  { clear Hj Hl. revert j H. generalize ENERGIES. revert c. induction c as [|a c IH]; intros [|e EN] [|j] H; cbn in H; try discriminate.
    - injection H as <-. auto.
    - now apply IH in H. }
  split; auto. now apply nth_error_nth with (d := f64_zero) in E1.
Qed.
Lemma skipn_combine {A B} s : forall (l : list A) (m : list B), combine (skipn s l) (skipn s m) = skipn s (combine l m).
Proof. induction s; intros [|a l] [|b m]; cbn; auto. now rewrite combine_nil. Qed.
Lemma gated_items_ok g s h : well_formed h -> is_nan g = false -> start_index g = Ret s -> s <= 1000 ->
  gated_items g s h = Ret (map (fun '(n, x) => (n, f64_mul (f64_of_N n) x)) (at_least g (contents h))).
Proof.
  intros Hw Hg Hs Hl. destruct (start_index_ok g Hg) as (s' & E & _ & HS). rewrite Hs in E. injection E as <-.
  destruct h as [q|c]; cbn [gated_items contents well_formed] in *.
  - f_equal. clear. induction (q_queue q) as [|x l IH]; cbn [map List.filter at_least snd]; auto. unfold at_least in *.
    destruct (f64_ge x g); cbn [map]; [rewrite mul_one; now f_equal|auto].
  - unfold slice_from. rewrite Hw, ENERGIES_length. destruct (Nat.leb_spec s 1000); [|lia]. cbn [obind]. f_equal. f_equal.
    rewrite skipn_combine. symmetry. apply filter_suffix. intros j b Hj. destruct (combine_cen c j b Hw Hj) as (H1 & -> & _). auto.
Qed.
Lemma omap_Ret {A B} (f : A -> outcome B) (g : A -> B) l : (forall x, In x l -> f x = Ret (g x)) -> omap f l = Ret (map g l).
Proof.
  induction l as [|a l IH]; intros H; cbn; auto. rewrite H by (now left). cbn [obind]. rewrite IH by (intros; apply H; now right). reflexivity.
Qed.
Lemma at_least_concat g ls : at_least g (concat ls) = concat (map (at_least g) ls).
Proof. induction ls as [|l ls IH]; cbn [concat map]; auto. unfold at_least in *. now rewrite filter_app, IH. Qed.
Lemma fold_items l : forall n t,
  fold_left (fun '(tn, tl) '(count, loudness) => ((tn + count)%N, f64_add tl loudness)) (map (fun '(n, x) => (n, f64_mul (f64_of_N n) x)) l) (n, t) =
  ((n + population l)%N, fold_left (fun t '(n, x) => f64_add t (f64_mul (f64_of_N n) x)) l t).
Proof.
  induction l as [|(c, x) l IH]; intros n t; cbn [map fold_left]; [f_equal; cbn; lia|]. rewrite IH, population_cons. f_equal. lia.
Qed.

Definition verdict (E : ext) (ls : list (list (N * f64))) : (N * f64) + history_error :=
  match gated E ls with
  | Some v => inl v
  | None => inr (if negb (population (concat ls) =? 0)%N && f64_is_nan (sum_all ls) then RelativeThresholdIsNan else NoBlocksAboveThreshold)
  end.
Lemma gating_multiple_ok P E hs : powf_contract E -> Forall well_formed hs -> countable (concat (map contents hs)) ->
  gating_block_count_and_energy_multiple P E hs = Ret (verdict E (map contents hs)).
Proof.
  intros HE Hw Hc. unfold gating_block_count_and_energy_multiple, iter_gating, verdict, gated. destruct (total_eq P hs Hw Hc) as (-> & _).
  set (ls := map contents hs) in *. destruct (N.eqb_spec (population (concat ls)) 0) as [E0|E0]; [reflexivity|].
  destruct (f64_is_nan (sum_all ls)) eqn:EN; [reflexivity|]. cbn [orb negb andb].
  assert (f64_mul (f64_div (sum_all ls) (f64_of_N (population (concat ls)))) (relative_gate_factor E) = gate E ls) as -> by now rewrite tenth_eq.
  pose proof (gate_not_nan E ls HE Hc E0 EN) as HG. destruct (start_index_ok _ HG) as (s & Es & Hs & _). rewrite Es. cbn [obind].
  rewrite (omap_Ret _ (fun h => map (fun '(n, x) => (n, f64_mul (f64_of_N n) x)) (at_least (gate E ls) (contents h)))).
  - cbn [obind]. rewrite <- (map_map contents (fun l => map (fun '(n, x) => (n, f64_mul (f64_of_N n) x)) (at_least (gate E ls) l))). fold ls. rewrite <- (map_map (at_least (gate E ls)) (map (fun '(n, x) => (n, f64_mul (f64_of_N n) x)))), <- concat_map, <- at_least_concat.
    fold (passing E ls). rewrite fold_items. rewrite N.add_0_l. fold (energy_sum (passing E ls)).
    destruct (population (passing E ls) =? 0)%N; reflexivity.
  - intros h Hh. rewrite Forall_forall in Hw. apply gated_items_ok; auto.
Qed.
Lemma gated_loudness_ok P E hs : powf_contract E -> Forall well_formed hs -> countable (concat (map contents hs)) ->
  gated_loudness_multiple P E hs = Ret (programme_loudness E (map contents hs)).
Proof.
  intros HE Hw Hc. unfold gated_loudness_multiple. rewrite gating_multiple_ok by auto. cbn [obind]. f_equal. unfold programme_loudness, verdict, gated.
  set (ls := map contents hs). destruct (population (concat ls) =? 0)%N; cbn [orb negb andb]; auto.
  destruct (f64_is_nan (sum_all ls)); cbn [orb]; auto. destruct (population (passing E ls) =? 0)%N; auto.
Qed.
Lemma threshold_ok P E h : well_formed h -> countable (contents h) -> history_relative_threshold P E h = threshold E (contents h).
Proof.
  intros Hw Hc. unfold history_relative_threshold, threshold. pose proof (contents_sum P h f64_zero Hw eq_refl) as X.
  destruct (history_calc_relative_threshold P h) as (n, t) eqn:Eh. injection X as -> X.
  destruct (N.eqb_spec (population (contents h)) 0) as [E0|E0]; [apply B2SF_inj; vm_compute; reflexivity|].
  assert (t = energy_sum (contents h)) as ->; [|now rewrite tenth_eq].
  destruct h as [q|c]; cbn [history_calc_relative_threshold contents well_formed] in *.
  - injection Eh as _ <-. apply sum_singly; [|eapply Forall_impl; [|exact Hw]; apply storable_unsigned].
    intros EQ. apply E0. now rewrite EQ.
  - rewrite histogram_threshold in Eh. now injection Eh.
Qed.
