(** Loudness range: percentiles of the gated short-term blocks. *)
From Coq Require Import List Arith NArith ZArith Bool Lia Reals Lra Psatz Sorted Permutation.
From Flocq Require Import Core IEEE754.BinarySingleNaN.
From Verif Require Import Prelude Float Env Tables Utils History Filter Ebur128 Spec Spec_real Spec_history
  Prelude_proofs Utils_proofs Float_proofs Order_proofs History_proofs Energy_proofs Accuracy_proofs Table_proofs Gate_proofs Gating_proofs Pass_proofs Percent_proofs.
Import ListNotations.
Local Open Scope nat_scope.

(** * Sums without NaN *)
Lemma add_not_nan x y : unsigned x -> unsigned y -> is_nan x = false -> is_nan y = false -> is_nan (f64_add x y) = false.
Proof.
  intros Ux Uy Hx Hy. destruct (is_finite x) eqn:Fx; destruct (is_finite y) eqn:Fy.
  - pose proof (Bplus_correct 53 1024 Hprec64 Hmax64 mode_NE x y Fx Fy) as X. unfold f64_add.
    destruct (Rlt_bool _ _) in X; [destruct X as (_ & X & _); now apply finite_not_nan|]. destruct X as (X & _).
    rewrite <- is_nan_SF_B2SF, X. reflexivity.
  - unfold unsigned in *. destruct x as [[]|[]| |[] m e B], y as [[]|[]| |[] m' e' B']; try discriminate; reflexivity.
  - unfold unsigned in *. destruct x as [[]|[]| |[] m e B], y as [[]|[]| |[] m' e' B']; try discriminate; reflexivity.
  - unfold unsigned in *. destruct x as [[]|[]| |[] m e B], y as [[]|[]| |[] m' e' B']; try discriminate; reflexivity.
Qed.
Lemma mul_finite_not_nan x y : is_finite x = true -> is_finite y = true -> is_nan (f64_mul x y) = false.
Proof.
  intros Fx Fy. pose proof (Bmult_correct 53 1024 Hprec64 Hmax64 mode_NE x y) as X. unfold f64_mul.
  destruct (Rlt_bool _ _) in X.
  - destruct X as (_ & X & _). rewrite Fx, Fy in X. now apply finite_not_nan.
  - rewrite <- is_nan_SF_B2SF, X. reflexivity.
Qed.
(** blocks whose energies can be summed without producing NaN *)
Definition clean (b : N * f64) : Prop :=
  unsigned (snd b) /\ unsigned (f64_of_N (fst b)) /\ is_nan (f64_mul (f64_of_N (fst b)) (snd b)) = false.
Lemma sum_clean l : Forall clean l -> forall t, unsigned t -> is_nan t = false ->
  is_nan (fold_left (fun t '(n, x) => f64_add t (f64_mul (f64_of_N n) x)) l t) = false.
Proof.
  induction 1 as [|(n, x) l (H1 & H2 & H3) _ IH]; intros t Ht Hn; cbn [fold_left]; auto. cbn [fst snd] in *.
  assert (unsigned (f64_mul (f64_of_N n) x)) by (apply mul_unsigned; unfold unsigned in H1, H2; now rewrite H1, H2).
  apply IH; [now apply add_unsigned|now apply add_not_nan].
Qed.
Lemma clean_singly l : Forall storable l -> Forall (fun x => is_nan x = false) l -> Forall clean (singly l).
Proof.
  intros H1 H2. unfold singly. apply Forall_forall. intros b Hb. apply in_map_iff in Hb. destruct Hb as (x & <- & Hx).
  rewrite Forall_forall in *. repeat split; cbn [fst snd]; [apply storable_unsigned; auto|rewrite mul_one; auto].
Qed.
Lemma clean_bins c : length c = 1000 -> countable (combine c ENERGIES) -> Forall clean (combine c ENERGIES).
Proof.
  intros Hl Hc. apply Forall_forall. intros (n, x) Hb. pose proof (pop_In _ _ _ Hb) as Hp. unfold countable in Hc.
  destruct (of_N_real n ltac:(lia)) as (F & _ & S). apply In_combine_cen in Hb. destruct Hb as (i & Hi & -> & _).
  repeat split; cbn [fst snd]; [apply cen_unsigned|exact S|]. apply mul_finite_not_nan; auto. apply table_finite. lia.
Qed.
Lemma integrated_not_nan E l : powf_contract E -> countable l -> population l <> 0%N -> is_nan (energy_sum l) = false ->
  is_nan (f64_mul (hundredth E) (mean_energy l)) = false.
Proof.
  intros HE Hc H0 Hn. destruct (hundredth_bounds E HE) as (F & B). unfold countable in Hc.
  destruct (of_N_real (population l) Hc) as (FN & _ & _). pose proof (of_N_pos (population l) ltac:(lia)) as PN.
  assert (is_nan (mean_energy l) = false) as HM by (apply div_not_nan; auto; lra).
  unfold f64_mul. destruct (hundredth E) as [s| | |s m e b]; try discriminate F; [cbn in B; lra|].
  destruct (mean_energy l) as [s'|s'| |s' m' e' b'] eqn:EM; try discriminate HM; try reflexivity.
  apply mul_finite_not_nan; reflexivity.
Qed.

(** * Sorted lists *)
Lemma filter_all {A} (p : A -> bool) l : (forall x, In x l -> p x = true) -> List.filter p l = l.
Proof. induction l as [|a l IH]; intros H; cbn [List.filter]; auto. rewrite H by (now left). f_equal. apply IH. intros. apply H. now right. Qed.
Lemma ascending_filter g l : ascending l -> Forall (fun x => is_nan x = false) l -> is_nan g = false ->
  List.filter (fun x => f64_ge x g) l = skipn (take_while_count (fun v => f64_lt v g) l) l /\
  take_while_count (fun v => f64_lt v g) l <= length l.
Proof.
  intros HS HN Hg. induction HS as [|a l HS IH HF]; cbn [List.filter take_while_count]; [auto|]. inversion HN; subst.
  destruct (IH H2) as (IH1 & IH2). unfold f64_lt in *. destruct (Bltb a g) eqn:L.
  - assert (f64_ge a g = false) as ->.
    { unfold f64_ge. destruct (Bleb g a) eqn:G; auto. pose proof (Bleb_Bltb_trans _ _ _ G L) as X. now rewrite Bltb_irrefl in X. }
    cbn [skipn length]. split; auto. lia.
  - cbn [skipn length]. split; [|lia]. assert (f64_ge a g = true) as Ga.
    { unfold f64_ge. rewrite Bltb_Bleb in L by auto. now apply negb_false_iff in L. }
    rewrite Ga. f_equal. apply filter_all. intros x Hx. rewrite Forall_forall in HF. specialize (HF x Hx).
    unfold f64_ge, f64_le in *. eapply Bleb_trans; eauto.
Qed.

Lemma sorted_unique {A} (R : A -> A -> Prop) l : (forall x y, In x l -> In y l -> R x y -> R y x -> x = y) ->
  StronglySorted R l -> forall m, StronglySorted R m -> Permutation l m -> l = m.
Proof.
  intros HA HS. induction HS as [|a l HS IH HF]; intros m Hm HP.
  - apply Permutation_nil in HP. now subst.
  - destruct Hm as [|b m Hm HG]; [now apply Permutation_sym, Permutation_nil in HP|].
    assert (a = b) as ->.
    { destruct (Permutation_in a HP (or_introl eq_refl)) as [->|Ha]; auto.
      destruct (Permutation_in b (Permutation_sym HP) (or_introl eq_refl)) as [->|Hb]; auto.
      rewrite Forall_forall in *. apply HA; auto; [now left|now right]. }
    f_equal. apply IH; auto; [intros; apply HA; auto; now right|]. now apply Permutation_cons_inv in HP.
Qed.
Lemma storable_antisym x y : storable x -> storable y -> f64_le x y = true -> f64_le y x = true -> x = y.
Proof.
  intros Hx Hy. apply storable_unsigned in Hx, Hy. unfold unsigned, f64_le in *. intros A1 A2.
  destruct (is_finite x) eqn:Fx; destruct (is_finite y) eqn:Fy.
  - apply B2R_Bsign_inj; auto; [|now rewrite Hx, Hy]. rewrite Bleb_correct in A1, A2 by auto. rcases. lra.
  - destruct x as [[]|[]| |[] m e B], y as [[]|[]| |[] m' e' B']; try discriminate; auto.
  - destruct x as [[]|[]| |[] m e B], y as [[]|[]| |[] m' e' B']; try discriminate; auto.
  - destruct x as [[]|[]| |[] m e B], y as [[]|[]| |[] m' e' B']; try discriminate; auto.
Qed.
Lemma expand_singly l : expand (singly l) = l.
Proof. induction l as [|x l IH]; [reflexivity|]. unfold expand, singly in *. cbn [map flat_map fst snd]. rewrite IH. reflexivity. Qed.
Lemma at_least_singly g l : at_least g (singly l) = singly (List.filter (fun x => f64_ge x g) l).
Proof. induction l as [|x l IH]; cbn; auto. unfold at_least, singly in *. destruct (f64_ge x g); cbn; now rewrite IH. Qed.

(** * List histories *)
Lemma queue_range_ok P E l : powf_contract E -> ascending l -> Forall storable l -> Forall (fun x => is_nan x = false) l ->
  (N.of_nat (length l) <= p_usize_max P)%N -> (N.of_nat (length l) <= small_count)%N ->
  queue_loudness_range P E l = Ret (range_of E (singly l)).
Proof.
  intros HE HS Hst HN HP Hc. unfold small_count in Hc. destruct l as [|x0 l0] eqn:El; [reflexivity|]. rewrite <- El in *.
  assert (l <> []) as Hne by (rewrite El; discriminate). assert (queue_loudness_range P E l =
    let power := f64_div (sum_f64 P l) (f64_of_nat (length l)) in
    let integrated := f64_mul (minus_twenty_decibels E) power in
    let relgated := take_while_count (fun v => f64_lt v integrated) l in
    relgated_size <- sub_usize (length l) relgated ;;
    match relgated_size with
    | O => Ret f64_zero
    | S n =>
        let s1 := f64_of_nat n in
        let ih := f64_to_N (p_usize_max P) (f64_add (f64_mul s1 lit_0_95) lit_0_5) in
        let il := f64_to_N (p_usize_max P) (f64_add (f64_mul s1 lit_0_1) lit_0_5) in
        h_en <- idx l (relgated + N.to_nat ih) ;;
        l_en <- idx l (relgated + N.to_nat il) ;;
        Ret (f64_sub (energy_to_loudness E h_en) (energy_to_loudness E l_en))
    end) as -> by (rewrite El; reflexivity).
  cbv zeta. clear x0 l0 El. assert (Forall unsigned l) as HU by (eapply Forall_impl; [|exact Hst]; apply storable_unsigned).
  rewrite sum_singly by auto. fold (singly l). rewrite hundredth_eq.
  assert (population (singly l) = N.of_nat (length l)) as EP by apply population_singly.
  assert (f64_of_nat (length l) = f64_of_N (population (singly l))) as -> by (rewrite EP; unfold f64_of_nat, f64_of_N; f_equal; lia).
  fold (mean_energy (singly l)). set (g := f64_mul (hundredth E) (mean_energy (singly l))).
  assert (population (singly l) <> 0%N) as H0 by (rewrite EP; destruct l; [congruence|cbn [length]; lia]).
  assert (is_nan g = false) as Hg.
  { apply integrated_not_nan; auto; [unfold countable; lia|]. apply sum_clean; [now apply clean_singly|reflexivity..]. }
  destruct (ascending_filter g l HS HN Hg) as (EF & LF). set (k := take_while_count (fun v => f64_lt v g) l) in *.
  unfold sub_usize. destruct (Nat.leb_spec k (length l)); [|lia]. cbn [obind].
  unfold range_of. destruct (N.eqb_spec (population (singly l)) 0) as [?|_]; [congruence|]. cbv zeta. fold g. rewrite at_least_singly, expand_singly, EF.
  rewrite skipn_length. destruct (length l - k) as [|n] eqn:En; [reflexivity|]. cbn [Nat.eqb].
  change (f64_to_N (p_usize_max P) (f64_add (f64_mul (f64_of_nat n) ?p) lit_0_5)) with
    (f64_to_N (p_usize_max P) (f64_add (f64_mul (f64_of_nat n) p) lit_0_5)).
  assert (f64_of_nat n = f64_of_N (N.of_nat n)) as -> by (unfold f64_of_nat, f64_of_N; f_equal; lia).
  fold (position (p_usize_max P) lit_0_95 (N.of_nat n)). fold (position (p_usize_max P) lit_0_1 (N.of_nat n)).
  rewrite position_high, position_low by (unfold small_count; lia).
  unfold high_percentile, low_percentile. rewrite skipn_length, En. replace (S n - 1) with n by lia.
  assert (N.min ((19 * N.of_nat n + 10) / 20) (p_usize_max P) = N.of_nat ((19 * n + 10) / 20)) as ->
    by (rewrite Nat2N.inj_div, Nat2N.inj_add, Nat2N.inj_mul; change (N.of_nat 19) with 19%N; change (N.of_nat 10) with 10%N; change (N.of_nat 20) with 20%N; lia).
  assert (N.min ((N.of_nat n + 5) / 10) (p_usize_max P) = N.of_nat ((n + 5) / 10)) as ->
    by (rewrite Nat2N.inj_div, Nat2N.inj_add; change (N.of_nat 5) with 5%N; change (N.of_nat 10) with 10%N; lia). rewrite !Nat2N.id.
  assert (forall i, i <= n -> idx l (k + i) = Ret (nth i (skipn k l) f64_zero)) as HI.
  { intros i Hi. unfold idx. rewrite <- (firstn_skipn k l) at 1. rewrite nth_error_app2 by (rewrite firstn_length; lia).
    rewrite firstn_length, Nat.min_l by lia. replace (k + i - k) with i by lia.
    rewrite (List.nth_error_nth' _ f64_zero) by (rewrite skipn_length; lia). reflexivity. }
  rewrite !HI by (apply Nat.lt_succ_r, Nat.div_lt_upper_bound; lia). reflexivity.
Qed.

(** * Histograms *)
(** the running counts *)
Fixpoint running (n : N) (c : list N) : list N := match c with [] => [] | x :: c => (n + x)%N :: running (n + x) c end.
Definition total_count (c : list N) : N := fold_right N.add 0%N c.
Lemma running_length c : forall n, length (running n c) = length c.
Proof. induction c; intros; cbn; auto. Qed.
Lemma running_nth c : forall n i, i < length c -> nth_error (running n c) i = Some (n + total_count (firstn (S i) c))%N.
Proof.
  induction c as [|x c IH]; intros n i Hi; cbn [length] in Hi; [lia|]. destruct i as [|i]; cbn [running nth_error].
  - cbn [firstn total_count fold_right]. f_equal. unfold total_count. cbn. lia.
  - rewrite IH by lia. f_equal. rewrite (firstn_cons (S i) x c). unfold total_count. cbn [fold_right]. lia.
Qed.
Lemma running_sorted c : forall n, StronglySorted N.le (running n c).
Proof.
  induction c as [|x c IH]; intros n; cbn [running]; constructor; auto. clear IH.
  assert (forall m, (m <= n + x)%N -> True) by auto. generalize (n + x)%N. clear n x H. induction c as [|y c IH]; intros n; cbn [running]; constructor; [lia|].
  specialize (IH (n + y)%N). eapply Forall_impl; [|exact IH]. cbn. intros; lia.
Qed.
Lemma population_combine c : forall es, length c <= length es -> population (combine c es) = total_count c.
Proof.
  induction c as [|x c IH]; intros [|e es] H; cbn [length] in *; try lia; [reflexivity..|]. cbn [combine]. rewrite population_cons, IH by lia. reflexivity.
Qed.
Lemma sums_ok c : forall es, length c <= length es -> forall hs n t,
  fold_left (fun '(hs, size, power) '(count, energy) =>
       let size := (size + count)%N in
       (hs ++ [size], size, f64_add power (f64_mul (f64_of_N count) energy))) (combine c es) (hs, n, t) =
  (hs ++ running n c, (n + total_count c)%N, fold_left (fun t '(n, x) => f64_add t (f64_mul (f64_of_N n) x)) (combine c es) t).
Proof.
  induction c as [|x c IH]; intros [|e es] H hs n t; cbn [length] in *; try lia.
  1-2: cbn; rewrite app_nil_r, N.add_0_r; reflexivity.
  cbn [combine fold_left running]. cbv zeta. rewrite IH by lia. rewrite <- app_assoc. cbn [app]. f_equal. f_equal. unfold total_count. cbn [fold_right]. lia.
Qed.
Lemma total_app a b : total_count (a ++ b) = (total_count a + total_count b)%N.
Proof. unfold total_count. induction a; cbn [app fold_right]; [lia|]. rewrite IHa. lia. Qed.
Lemma total_split s c : total_count c = (total_count (firstn s c) + total_count (skipn s c))%N.
Proof. rewrite <- total_app. now rewrite firstn_skipn. Qed.
Lemma total_firstn_le i j c : i <= j -> (total_count (firstn i c) <= total_count (firstn j c))%N.
Proof.
  intros H. rewrite (total_split i (firstn j c)). rewrite firstn_firstn, Nat.min_l by lia. lia.
Qed.
Lemma expand_length l : length (expand l) = N.to_nat (population l).
Proof.
  induction l as [|(n, x) l IH]; [reflexivity|]. rewrite population_cons. unfold expand in *. cbn [flat_map fst snd]. rewrite app_length, repeat_length, IH. lia.
Qed.
Lemma expand_app l m : expand (l ++ m) = expand l ++ expand m.
Proof. unfold expand. apply flat_map_app. Qed.
Lemma expand_nth l : forall J p, J < length l -> (population (firstn J l) <= p < population (firstn (S J) l))%N ->
  nth (N.to_nat p) (expand l) f64_zero = snd (nth J l (0%N, f64_zero)).
Proof.
  induction l as [|(n, x) l IH]; intros J p HJ Hp; cbn [length] in HJ; [lia|]. unfold expand in *. cbn [flat_map fst snd].
  destruct J as [|J].
  - cbn [firstn nth snd] in *. rewrite population_cons in Hp. change (population []) with 0%N in Hp. rewrite app_nth1 by (rewrite repeat_length; lia).
    apply (repeat_spec (N.to_nat n)). apply nth_In. rewrite repeat_length. lia.
  - rewrite !firstn_cons, !population_cons in Hp. rewrite app_nth2 by (rewrite repeat_length; lia). rewrite repeat_length.
    replace (N.to_nat p - N.to_nat n) with (N.to_nat (p - n)) by lia. cbn [nth]. apply IH; lia.
Qed.

Lemma rposition_from_spec {A} (p : A -> bool) l : forall i acc,
  (rposition_from p l i acc = acc /\ (forall k a, nth_error l k = Some a -> p a = false)) \/
  (exists k a, rposition_from p l i acc = Some (i + k) /\ nth_error l k = Some a /\ p a = true /\
     forall k' a', k < k' -> nth_error l k' = Some a' -> p a' = false).
Proof.
  induction l as [|b l IH]; intros i acc; cbn [rposition_from].
  - left. split; auto. intros [|k] a H; discriminate.
  - destruct (IH (S i) (if p b then Some i else acc)) as [(H1 & H2)|(k & a & H1 & H2 & H3 & H4)].
    + destruct (p b) eqn:Eb.
      * right. exists 0, b. rewrite H1, Nat.add_0_r. repeat split; auto. intros [|k'] a' Hk; [lia|]. apply H2.
      * left. split; auto. intros [|k] a H; [now injection H as <-|]. eapply H2; eauto.
    + right. exists (S k), a. rewrite H1. replace (S i + k) with (i + S k) by lia. repeat split; auto. intros [|k'] a' Hk; [lia|]. apply H4. lia.
Qed.
Lemma percentile_bin_ok E c s pct : bsearch_contract E -> s <= length c -> (total_count (firstn s c) <= pct)%N -> (pct < total_count c)%N ->
  exists J, percentile_bin E (running 0 c) s pct = Ret J /\ J < length c /\
    (total_count (firstn J c) <= pct < total_count (firstn (S J) c))%N.
Proof.
  intros HB Hs Hb Hp. unfold percentile_bin, slice_from. rewrite running_length.
  destruct (Nat.leb_spec s (length c)); [|lia]. cbn [obind]. set (tail := skipn s (running 0 c)).
  assert (forall k, k < length c -> nth_error (running 0 c) k = Some (total_count (firstn (S k) c))) as HR by (intros; now rewrite running_nth).
  assert (forall k, nth_error tail k = nth_error (running 0 c) (s + k)) as HT.
  { intros k. unfold tail. rewrite <- (firstn_skipn s (running 0 c)) at 2. rewrite nth_error_app2 by (rewrite firstn_length; lia).
    rewrite firstn_length, running_length, Nat.min_l by lia. f_equal. lia. }
  assert (length tail = length c - s) as LT by (unfold tail; now rewrite skipn_length, running_length).
  assert (StronglySorted N.le tail) as ST.
  { unfold tail. pose proof (running_sorted c 0) as X. rewrite <- (firstn_skipn s (running 0 c)) in X. revert X.
    induction (firstn s (running 0 c)) as [|a l IH]; cbn [app]; auto. intros X. inversion X; subst. auto. }
  set (j := e_bsearch E tail (pct + 1)%N).
  assert (j <= length tail /\ forall k, s + j <= k < length c -> (pct < total_count (firstn (S k) c))%N) as (Lj & Hj).
  { destruct (HB tail (pct + 1)%N ST) as [HM|(_ & HL & _ & HA)]; fold j in HM || fold j in HL, HA.
    - assert (j < length tail) by (apply nth_error_Some; congruence). split; [lia|]. intros k Hk. rewrite HT, HR in HM by lia.
      assert (total_count (firstn (S (s + j)) c) = pct + 1)%N as HM' by congruence. pose proof (total_firstn_le (S (s + j)) (S k) c ltac:(lia)). lia.
    - split; auto. intros k Hk. assert (In (total_count (firstn (S k) c)) (skipn j tail)) as HI.
      { apply (nth_error_In _ (k - s - j)). rewrite <- HR by lia. replace k with (s + (k - s)) at 2 by lia. rewrite <- HT.
        rewrite <- (firstn_skipn j tail) at 2. rewrite nth_error_app2 by (rewrite firstn_length; lia). rewrite firstn_length, Nat.min_l by lia. f_equal. }
      specialize (HA _ HI). lia. }
  unfold slice. rewrite running_length. destruct (Nat.leb_spec (s + j) (length c)); [|lia]. cbn [Nat.leb andb obind skipn]. rewrite Nat.sub_0_r.
  set (pre := firstn (s + j) (running 0 c)).
  assert (forall k, k < s + j -> nth_error pre k = Some (total_count (firstn (S k) c))) as HP.
  { intros k Hk. unfold pre. rewrite <- HR by lia. rewrite <- (firstn_skipn (s + j) (running 0 c)) at 2.
    rewrite nth_error_app1; auto. rewrite firstn_length, running_length. lia. }
  assert (0 < length c) as L0 by (destruct c; [cbn in Hp; lia|cbn; lia]).
  unfold rposition. destruct (rposition_from_spec (fun v => (v <=? pct)%N) pre 0 None) as [(-> & HN)|(i & a & -> & Hi & Hle & HN)].
  - exists 0. split; auto. split; auto. split; [change (total_count (firstn 0 c)) with 0%N; lia|].
    destruct (Nat.le_gt_cases (s + j) 0) as [Hz|Hz]; [apply Hj; lia|]. specialize (HN 0 _ (HP 0 Hz)). apply N.leb_gt in HN. exact HN.
  - assert (i < length pre) as Li by (apply nth_error_Some; congruence). unfold pre in Li. rewrite firstn_length, running_length in Li.
    rewrite HP in Hi by lia. assert (a = total_count (firstn (S i) c)) as -> by congruence. apply N.leb_le in Hle. exists (i + 1). split; [reflexivity|].
    assert (i + 1 < length c) as L1.
    { destruct (Nat.lt_ge_cases (i + 1) (length c)); auto. rewrite firstn_all2 in Hle by lia. lia. }
    split; auto. replace (i + 1) with (S i) in * by lia. split; auto.
    destruct (Nat.le_gt_cases (s + j) (S i)) as [Hz|Hz]; [apply Hj; lia|]. specialize (HN (S i) _ ltac:(lia) (HP (S i) Hz)). apply N.leb_gt in HN. exact HN.
Qed.
Lemma pop_firstn c J : length c = 1000 -> population (firstn J (combine c ENERGIES)) = total_count (firstn J c).
Proof.
  intros Hl. rewrite combine_firstn. apply population_combine. rewrite !firstn_length, ENERGIES_length, Hl. lia.
Qed.
Lemma histogram_range_ok E c : powf_contract E -> bsearch_contract E -> length c = 1000 -> (population (combine c ENERGIES) <= small_count)%N ->
  histogram_loudness_range E c = Ret (range_of E (combine c ENERGIES)).
Proof.
  intros HE HB Hl Hc. unfold histogram_loudness_range, histogram_sums. rewrite sums_ok by (rewrite ENERGIES_length; lia). cbn [app].
  rewrite N.add_0_l. fold (energy_sum (combine c ENERGIES)). rewrite <- (population_combine c ENERGIES) by (rewrite ENERGIES_length; lia).
  set (l := combine c ENERGIES) in *. unfold small_count in Hc. assert (countable l) as HC by (unfold countable; lia). unfold range_of.
  destruct (N.eqb_spec (population l) 0) as [|H0]; [reflexivity|].
  assert (is_nan (energy_sum l) = false) as HN by (apply sum_clean; [now apply clean_bins|reflexivity..]).
  change (f64_is_nan (energy_sum l)) with (is_nan (energy_sum l)). rewrite HN. cbv zeta. rewrite hundredth_eq. fold (mean_energy l).
  set (g := f64_mul (hundredth E) (mean_energy l)). assert (is_nan g = false) as Hg by (now apply integrated_not_nan).
  destruct (start_index_ok g Hg) as (s & -> & Ls & HS). cbn [obind].
  assert (at_least g l = skipn s l) as EA.
  { apply filter_suffix. intros j b Hb. destruct (combine_cen c j b Hl Hb) as (Hj & -> & _). now apply HS. }
  rewrite EA. set (before := match s with O => 0%N | S prev => match nth_error (running 0 c) prev with Some v => v | None => 0%N end end).
  assert (before = total_count (firstn s c)) as EB.
  { unfold before. destruct s as [|s']; [reflexivity|]. rewrite running_nth by lia. now rewrite N.add_0_l. }
  assert (population l = total_count c) as EP by (apply population_combine; rewrite ENERGIES_length; lia).
  assert (length (expand (skipn s l)) = N.to_nat (total_count (skipn s c))) as EL.
  { rewrite expand_length. f_equal. unfold l. rewrite <- skipn_combine. apply population_combine. rewrite !skipn_length, ENERGIES_length. lia. }
  pose proof (total_split s c) as TS. rewrite EB, EP. unfold sub_u64. destruct (N.leb_spec (total_count (firstn s c)) (total_count c)); [|lia]. cbn [obind].
  replace (total_count c - total_count (firstn s c))%N with (total_count (skipn s c)) by lia.
  rewrite EL. set (n := total_count (skipn s c)) in *. destruct (N.eqb_spec n 0) as [->|Hn]; [reflexivity|].
  destruct (Nat.eqb_spec (N.to_nat n) 0); [lia|].
  fold (position u64_max lit_0_95 (n - 1)). fold (position u64_max lit_0_1 (n - 1)).
  assert (forall q, (q < n)%N -> exists J, percentile_bin E (running 0 c) s (q + total_count (firstn s c)) = Ret J /\
    idx ENERGIES J = Ret (nth (N.to_nat q) (expand (skipn s l)) f64_zero)) as HQ.
  { intros q Hq. destruct (percentile_bin_ok E c s (q + total_count (firstn s c)) HB ltac:(lia) ltac:(lia) ltac:(lia)) as (J & EJ & LJ & BJ).
    exists J. split; auto. rewrite idx_cen by lia. f_equal.
    rewrite <- !(pop_firstn c) in BJ by auto. fold l in BJ. pose proof (expand_nth l J (q + population (firstn s l))) as X.
    assert (length l = 1000) as LL by (unfold l; rewrite combine_length, ENERGIES_length; lia).
    specialize (X ltac:(lia)). assert (snd (nth J l (0%N, f64_zero)) = cen J) as EC.
    { unfold l. rewrite combine_nth by (now rewrite ENERGIES_length). reflexivity. }
    rewrite EC in X. rewrite <- X; [|unfold l; rewrite !pop_firstn by auto; unfold l in BJ; rewrite !pop_firstn in BJ by auto; exact BJ].
    assert (expand l = expand (firstn s l) ++ expand (skipn s l)) as -> by (rewrite <- expand_app; now rewrite firstn_skipn).
    rewrite app_nth2; rewrite expand_length; [|lia]. f_equal. lia. }
  assert ((n - 1 <= small_count)%N) as Hsm by (unfold small_count; lia).
  pose proof (position_bound u64_max lit_0_1 (n - 1) ltac:(auto) ltac:(left; lia)) as PL.
  pose proof (position_bound u64_max lit_0_95 (n - 1) ltac:(auto) ltac:(left; lia)) as PH.
  destruct (HQ _ ltac:(apply (N.le_lt_trans _ _ _ PL); lia)) as (J1 & -> & I1). cbn [obind]. rewrite I1. cbn [obind].
  destruct (HQ _ ltac:(apply (N.le_lt_trans _ _ _ PH); lia)) as (J2 & -> & I2). cbn [obind]. rewrite I2. cbn [obind].
  unfold high_percentile, low_percentile. rewrite EL. rewrite position_high, position_low by auto. unfold u64_max.
  assert (N.to_nat (N.min ((19 * (n - 1) + 10) / 20) 18446744073709551615) = (19 * (N.to_nat n - 1) + 10) / 20) as ->.
  { rewrite N.min_l by lia. rewrite N2Nat.inj_div, N2Nat.inj_add, N2Nat.inj_mul, N2Nat.inj_sub. reflexivity. }
  assert (N.to_nat (N.min ((n - 1 + 5) / 10) 18446744073709551615) = (N.to_nat n - 1 + 5) / 10) as ->.
  { rewrite N.min_l by lia. rewrite N2Nat.inj_div, N2Nat.inj_add, N2Nat.inj_sub. reflexivity. }
  reflexivity.
Qed.
