(** Blocks in a list and the same blocks in a histogram. *)
From Coq Require Import List Arith NArith ZArith Bool Lia Lra Reals Sorted Permutation.
From Flocq Require Import Core.Core IEEE754.BinarySingleNaN.
From Verif Require Import Prelude Float Env Tables Utils History Filter Ebur128 Spec Spec_real Spec_history Spec_accuracy Spec_modes
  Prelude_proofs Float_proofs History_proofs Table_proofs Gate_proofs Gating_proofs Accuracy_proofs Lufs_proofs Pass_proofs Value_proofs Report_proofs Answers_proofs
  Programme_proofs Order_proofs Blocks_proofs Loud_proofs Reach_proofs Trace_proofs Ebur128_proofs Stream_proofs Modes_proofs.
Import ListNotations.
Import Spec_history.
Local Open Scope R_scope.

(** * The bin of an energy *)
Definition bin (x : f64) : nat := match find_histogram_index x with Ret i => i | _ => 0%nat end.
Lemma bin_lt x : (bin x < 1000)%nat.
Proof. unfold bin. destruct (search_total x) as (i & -> & H). exact H. Qed.
Lemma bin_iff i x : in_bin i x = (i =? bin x)%nat.
Proof.
  unfold bin. destruct (search_total x) as (k & Hk & _). rewrite Hk. apply eq_true_iff_eq. rewrite <- find_iff, Hk, Nat.eqb_eq.
  split; [intros H; now injection H|now intros ->].
Qed.
Definition usual (x : f64) : Prop := is_finite x = true /\ f64_ge x (bnd 0) = true /\ f64_le x (bnd 1000) = true.
Global Opaque bin.
Definition to_centre (x : f64) : f64 := centre (bin x).
Definition half_bin : R := 5 / 100 + / 10 ^ 9.
Lemma centre_near x : usual x -> Rabs (lufs (real (to_centre x)) - lufs (real x)) <= half_bin.
Proof. intros (F & A & B). apply bin_quantisation; auto. rewrite bin_iff. apply Nat.eqb_refl. Qed.
Lemma usual_positive x : usual x -> 0 < real x.
Proof.
  intros (F & A & B). assert (measurable x = true) as Hm.
  { unfold measurable. change (bound 0) with (bnd 0). apply negb_true_iff. unfold f64_ge, f64_le in A. unfold f64_lt.
    destruct (table_finite 0 ltac:(lia)) as (F0 & _). rewrite Bleb_correct in A by auto. rewrite Bltb_correct by auto.
    apply Rlt_bool_false. destruct (Rle_bool_spec (B2R (bnd 0)) (B2R x)); [auto|discriminate]. }
  exact (proj2 (measurable_positive x Hm F)).
Qed.
Lemma to_centre_positive x : 0 < real (to_centre x).
Proof. unfold to_centre. change (centre (bin x)) with (cen (bin x)). destruct (cen_measurable (bin x) (bin_lt x)) as (A & B). exact (proj2 (measurable_positive _ A B)). Qed.

(** * Sums over bins are sums over blocks *)
Lemma total_step a l : total (a :: l) = a + total l.
Proof. reflexivity. Qed.
Lemma total_zero {A} (l : list A) (f : A -> R) : (forall a, In a l -> f a = 0) -> total (map f l) = 0.
Proof. induction l as [|a l IH]; intros H; [reflexivity|]. cbn [map]. rewrite total_step, (H a) by now left. rewrite IH; [ring|]. intros; apply H; now right. Qed.
Lemma total_plus {A} (l : list A) (f g : A -> R) : total (map (fun a => f a + g a) l) = total (map f l) + total (map g l).
Proof. induction l as [|a l IH]; [cbn; ring|]. cbn [map]. rewrite !total_step, IH. ring. Qed.
Lemma total_pick (w : nat -> R) k : forall n a, (a <= k < a + n)%nat -> total (map (fun i => if (i =? k)%nat then w i else 0) (seq a n)) = w k.
Proof.
  induction n as [|n IH]; intros a H; [lia|]. cbn [seq map]. rewrite total_step. destruct (Nat.eqb_spec a k) as [->|].
  - rewrite total_zero; [ring|].
    intros i Hi. apply in_seq in Hi. destruct (Nat.eqb_spec i k); [lia|auto].
  - rewrite IH by lia. ring.
Qed.
Lemma hits_cons i x xs : hits i (x :: xs) = ((if (i =? bin x)%nat then 1 else 0) + hits i xs)%N.
Proof. unfold hits. cbn [List.filter]. rewrite bin_iff. destruct (_ =? _)%nat; cbn [length]; lia. Qed.
Lemma amount_add a b : amount (a + b) = amount a + amount b.
Proof. unfold amount. now rewrite N2Z.inj_add, plus_IZR. Qed.
Lemma bins_total (w : nat -> R) xs : total (map (fun i => amount (hits i xs) * w i) (seq 0 1000)) = total (map (fun x => w (bin x)) xs).
Proof.
  induction xs as [|x xs IH].
  - apply total_zero. intros i _. unfold hits. cbn [List.filter length N.of_nat]. change (amount 0) with 0. ring.
  - cbn [map]. rewrite total_step, <- IH.
    rewrite <- (total_pick w (bin x) 1000 0) by (pose proof (bin_lt x); lia). rewrite <- total_plus. f_equal. apply map_ext.
    intros i. rewrite hits_cons, amount_add. change (amount 1) with 1. destruct (_ =? _)%nat; [change (amount 1) with 1|change (amount 0) with 0]; ring.
Qed.
Definition kept_by (q : f64 -> bool) (l : list (N * f64)) : list (N * f64) := List.filter (fun b => q (snd b)) l.
Lemma exact_kept q l : exact_sum (kept_by q l) = total (map (fun b => amount (fst b) * (if q (snd b) then real (snd b) else 0)) l).
Proof.
  unfold kept_by. induction l as [|b l IH]; [reflexivity|]. cbn [List.filter map]. rewrite total_step.
  destruct (q (snd b)); [rewrite exact_cons|]; rewrite IH; ring.
Qed.
Lemma population_kept q l : amount (population (kept_by q l)) = total (map (fun b => amount (fst b) * (if q (snd b) then 1 else 0)) l).
Proof.
  unfold kept_by. induction l as [|(n, x) l IH]; [reflexivity|]. cbn [List.filter map fst snd]. rewrite total_step.
  destruct (q x); [rewrite population_cons, amount_add|]; rewrite IH; ring.
Qed.
Definition bins (xs : list f64) : list (N * f64) := map (fun i => (hits i xs, centre i)) (seq 0 1000).
Lemma total_filter {A} (q : A -> bool) (f : A -> R) l : total (map (fun x => if q x then f x else 0) l) = total (map f (List.filter q l)).
Proof. induction l as [|a l IH]; [reflexivity|]. cbn [map List.filter]. rewrite total_step. destruct (q a); [|rewrite IH; ring]. cbn [map]. rewrite total_step. now rewrite IH. Qed.
Lemma total_ones {A} (l : list A) : total (map (fun _ => 1) l) = INR (length l).
Proof. induction l as [|a l IH]; [reflexivity|]. cbn [map length]. rewrite total_step. rewrite IH, S_INR. ring. Qed.
Lemma bins_sum q xs : exact_sum (kept_by q (bins xs)) = total (map (fun x => real (to_centre x)) (List.filter (fun x => q (to_centre x)) xs)).
Proof.
  rewrite exact_kept. unfold bins. rewrite map_map. cbn [fst snd].
  rewrite (bins_total (fun i => if q (centre i) then real (centre i) else 0)). exact (total_filter (fun x => q (to_centre x)) (fun x => real (to_centre x)) xs).
Qed.
Lemma bins_count q xs : amount (population (kept_by q (bins xs))) = INR (length (List.filter (fun x => q (to_centre x)) xs)).
Proof.
  rewrite population_kept. unfold bins. rewrite map_map. cbn [fst snd].
  rewrite (bins_total (fun i => if q (centre i) then 1 else 0)). rewrite <- total_ones. exact (total_filter (fun x => q (to_centre x)) (fun _ => 1) xs).
Qed.
Lemma list_sum q xs : exact_sum (kept_by q (singly xs)) = total (map real (List.filter q xs)).
Proof.
  rewrite exact_kept. unfold singly. rewrite map_map. cbn [fst snd]. rewrite <- total_filter. f_equal. apply map_ext. intros x.
  change (amount 1) with 1. ring.
Qed.
Lemma list_count q xs : amount (population (kept_by q (singly xs))) = INR (length (List.filter q xs)).
Proof.
  rewrite population_kept. unfold singly. rewrite map_map. cbn [fst snd]. rewrite <- total_ones, <- total_filter. f_equal. apply map_ext. intros x.
  change (amount 1) with 1. ring.
Qed.
Lemma kept_all l : kept_by (fun _ => true) l = l.
Proof. unfold kept_by. induction l as [|b l IH]; cbn; [auto|now rewrite IH]. Qed.
Lemma filter_all {A} (l : list A) : List.filter (fun _ => true) l = l.
Proof. induction l as [|b l IH]; cbn; [auto|now rewrite IH]. Qed.

(** * Means of nearby energies are nearby *)
Definition stretch (d : R) : R := exp (d * ln 10 / 10).
Lemma stretch_lufs d x : 0 < x -> lufs (stretch d * x) = lufs x + d.
Proof.
  intros Hx. pose proof ln10_pos. unfold lufs, stretch. rewrite ln_mult; [|apply exp_pos|auto]. rewrite ln_exp. field. lra.
Qed.
Lemma lufs_within d x y : 0 < x -> 0 < y -> (Rabs (lufs y - lufs x) <= d <-> y <= stretch d * x /\ x <= stretch d * y).
Proof.
  intros Hx Hy. assert (forall z, 0 < z -> 0 < stretch d * z) as Hp by (intros; apply Rmult_lt_0_compat; [apply exp_pos|auto]).
  rewrite <- (lufs_le y (stretch d * x)), <- (lufs_le x (stretch d * y)) by auto. rewrite !stretch_lufs by auto.
  split; [intros H; apply Rabs_le_inv in H; lra|intros (A & B); apply Rabs_le; lra].
Qed.
Lemma total_within d (f : f64 -> R) zs : zs <> [] -> (forall x, In x zs -> 0 < real x /\ 0 < f x /\ Rabs (lufs (f x) - lufs (real x)) <= d) ->
  0 < total (map real zs) /\ 0 < total (map f zs) /\
  total (map f zs) <= stretch d * total (map real zs) /\ total (map real zs) <= stretch d * total (map f zs).
Proof.
  intros Hz H. assert (0 <= total (map real zs) /\ 0 <= total (map f zs) /\ (zs <> [] -> 0 < total (map real zs) /\ 0 < total (map f zs)) /\
    total (map f zs) <= stretch d * total (map real zs) /\ total (map real zs) <= stretch d * total (map f zs)) as (_ & _ & HP & A & B); [|split; [|split]; try apply HP; auto].
  clear Hz. induction zs as [|x zs IH]; [cbn; repeat split; try lra; exfalso; congruence|].
  destruct (H x ltac:(now left)) as (Px & Pf & HN). apply lufs_within in HN; auto.
  destruct (IH ltac:(intros; apply H; now right)) as (I1 & I2 & _ & I3 & I4). cbn [map]. unfold total in *. cbn [fold_right].
  repeat split; intros; lra.
Qed.
Lemma means_within d (f : f64 -> R) zs : zs <> [] -> (forall x, In x zs -> 0 < real x /\ 0 < f x /\ Rabs (lufs (f x) - lufs (real x)) <= d) ->
  Rabs (lufs (total (map f zs) / INR (length zs)) - lufs (total (map real zs) / INR (length zs))) <= d.
Proof.
  intros Hz H. destruct (total_within d f zs Hz H) as (A & B & C & D). assert (0 < INR (length zs)) as HI by (apply lt_0_INR; destruct zs; [congruence|cbn; lia]).
  assert (0 < / INR (length zs)) as HI' by now apply Rinv_0_lt_compat. apply lufs_within; unfold Rdiv; try (apply Rmult_lt_0_compat; auto).
  rewrite <- !Rmult_assoc. split; apply Rmult_le_compat_r; lra.
Qed.

Section Same_blocks.
Variable xs : list f64.
Hypothesis Hxs : forall x, In x xs -> usual x.
Hypothesis Hne : xs <> [].
Lemma near_all x : In x xs -> 0 < real x /\ 0 < real (to_centre x) /\ Rabs (lufs (real (to_centre x)) - lufs (real x)) <= half_bin.
Proof. intros H. split; [now apply usual_positive, Hxs|]. split; [apply to_centre_positive|]. now apply centre_near, Hxs. Qed.
Lemma mean_list : exact_mean (singly xs) = total (map real xs) / INR (length xs).
Proof. unfold exact_mean. rewrite <- (kept_all (singly xs)), list_sum, list_count. now rewrite filter_all. Qed.
Lemma mean_bins : exact_mean (bins xs) = total (map (fun x => real (to_centre x)) xs) / INR (length xs).
Proof. unfold exact_mean. rewrite <- (kept_all (bins xs)), bins_sum, bins_count. now rewrite filter_all. Qed.
Lemma means_positive : 0 < exact_mean (singly xs) /\ 0 < exact_mean (bins xs).
Proof.
  destruct (total_within half_bin (fun x => real (to_centre x)) xs Hne near_all) as (A & B & _).
  assert (0 < / INR (length xs)) as HI. { apply Rinv_0_lt_compat, lt_0_INR. destruct xs; [congruence|cbn; lia]. }
  rewrite mean_list, mean_bins. split; apply Rmult_lt_0_compat; auto.
Qed.
Lemma means_near : Rabs (lufs (exact_mean (bins xs)) - lufs (exact_mean (singly xs))) <= half_bin.
Proof. rewrite mean_list, mean_bins. apply means_within; auto. apply near_all. Qed.

Variables (k d t : R).
Hypothesis Hk : 0 < k.
Hypothesis Hkd : forall X, 0 < X -> lufs (X / k) = lufs X - d.
Hypothesis Ht : 2 * half_bin <= t.
Hypothesis Hclear : clear_of_gate d t (singly xs).
Definition passes (l : list (N * f64)) (y : f64) : bool := if Rle_dec (exact_mean l / k) (real y) then true else false.
Lemma same_choice x : In x xs -> passes (bins xs) (to_centre x) = passes (singly xs) x.
Proof.
  intros Hx. destruct (near_all x Hx) as (P1 & P2 & HN). destruct means_positive as (M1 & M2).
  assert (In (1%N, x) (singly xs)) as Hin by (unfold singly; now apply in_map).
  pose proof (Hclear 1%N x Hin ltac:(discriminate) P1) as HC. pose proof means_near as HM.
  assert (forall X, 0 < X -> 0 < X / k) as HD by (intros; apply Rmult_lt_0_compat; [auto|now apply Rinv_0_lt_compat]).
  unfold passes. pose proof (lufs_le _ _ (HD _ M1) P1) as L1. pose proof (lufs_le _ _ (HD _ M2) P2) as L2. rewrite Hkd in L1, L2 by auto.
  apply Rabs_le_inv in HN, HM. assert (lufs (exact_mean (bins xs)) - d <= lufs (real (to_centre x)) <-> lufs (exact_mean (singly xs)) - d <= lufs (real x)) as EQ.
  { unfold Rabs in HC. destruct (Rcase_abs _) in HC; split; intros; lra. }
  destruct (Rle_dec _ _), (Rle_dec _ _); tauto.
Qed.
Definition left_over : list f64 := List.filter (passes (singly xs)) xs.
Lemma filter_same {A} (p q : A -> bool) l : (forall x, In x l -> p x = q x) -> List.filter p l = List.filter q l.
Proof. induction l as [|a l IH]; intros H; cbn; auto. rewrite (H a) by now left. rewrite IH; auto. intros; apply H; now right. Qed.
Lemma choices : List.filter (fun x => passes (bins xs) (to_centre x)) xs = left_over.
Proof. apply filter_same. exact same_choice. Qed.
Lemma textbook_kept l : textbook_passing k l = kept_by (passes l) l.
Proof. reflexivity. Qed.
Lemma passing_list : exact_mean (textbook_passing k (singly xs)) = total (map real left_over) / INR (length left_over).
Proof. unfold exact_mean at 1. now rewrite textbook_kept, list_sum, list_count. Qed.
Lemma passing_bins : exact_mean (textbook_passing k (bins xs)) = total (map (fun x => real (to_centre x)) left_over) / INR (length left_over).
Proof. unfold exact_mean at 1. now rewrite textbook_kept, bins_sum, bins_count, choices. Qed.
Lemma passing_near : left_over <> [] ->
  Rabs (lufs (exact_mean (textbook_passing k (bins xs))) - lufs (exact_mean (textbook_passing k (singly xs)))) <= half_bin.
Proof.
  intros H. rewrite passing_list, passing_bins. apply means_within; auto. intros x Hx. apply near_all. unfold left_over in Hx. now apply filter_In in Hx.
Qed.
Lemma bins_In n y : In (n, y) (bins xs) -> n <> 0%N -> exists x, In x xs /\ y = to_centre x.
Proof.
  intros H Hn. unfold bins in H. apply in_map_iff in H. destruct H as (i & E & Hi). injection E as <- <-. unfold hits in Hn.
  destruct (List.filter (in_bin i) xs) as [|x l] eqn:EF; [now elim Hn|]. assert (In x (List.filter (in_bin i) xs)) as Hx by (rewrite EF; now left).
  apply filter_In in Hx. destruct Hx as (Hx & Hb). rewrite bin_iff in Hb. apply Nat.eqb_eq in Hb. exists x. split; auto. unfold to_centre. now subst i.
Qed.
Lemma bins_clear : clear_of_gate d (t - 2 * half_bin) (bins xs).
Proof.
  intros n y Hin Hn Hy. destruct (bins_In n y Hin Hn) as (x & Hx & ->). destruct (near_all x Hx) as (P1 & P2 & HN).
  assert (In (1%N, x) (singly xs)) as Hin' by (unfold singly; now apply in_map).
  pose proof (Hclear 1%N x Hin' ltac:(discriminate) P1) as HC. pose proof means_near as HM. apply Rabs_le_inv in HN, HM.
  unfold Rabs in *. destruct (Rcase_abs _) in HC; destruct (Rcase_abs _); lra.
Qed.

End Same_blocks.

(** * The blocks one by one *)
Fixpoint count (k : nat) (l : list nat) : nat := match l with [] => 0 | a :: l => (if (a =? k)%nat then 1 else 0) + count k l end%nat.
Lemma sorted_split a ks : StronglySorted le ks -> (forall b, In b ks -> (a <= b)%nat) ->
  exists ks', ks = repeat a (count a ks) ++ ks' /\ StronglySorted le ks' /\ (forall b, In b ks' -> (a < b)%nat /\ In b ks) /\
    forall i, (a < i)%nat -> count i ks = count i ks'.
Proof.
  induction 1 as [|b ks Hs IH Hb]; intros Ha; [exists []; repeat split; auto; try constructor; contradiction|].
  cbn [count]. destruct (Nat.eqb_spec b a) as [->|Hn].
  - destruct IH as (ks' & E & Hs' & Hb' & Hc); [intros; apply Ha; now right|]. exists ks'. cbn [repeat app Nat.add]. rewrite <- E. split; auto. split; auto. split.
    + intros c Hc'. destruct (Hb' c Hc'). split; auto. now right.
    + intros i Hi. destruct (Nat.eqb_spec a i); [lia|]. cbn. auto.
  - assert (a < b)%nat as Hab by (specialize (Ha b ltac:(now left)); lia). rewrite Forall_forall in Hb.
    assert (count a ks = 0)%nat as ->.
    { clear - Hb Hab. induction ks as [|c ks IH]; auto. cbn. destruct (Nat.eqb_spec c a) as [->|]; [specialize (Hb a ltac:(now left)); lia|]. apply IH. intros; apply Hb; now right. }
    exists (b :: ks). cbn [Nat.add repeat app]. split; auto. split; [constructor; auto; now apply Forall_forall|]. split.
    + intros c [<-|Hc]; [split; auto; now left|]. specialize (Hb c Hc). split; [lia|now right].
    + auto.
Qed.
Lemma flat_map_in {A B} (f g : A -> list B) l : (forall a, In a l -> f a = g a) -> flat_map f l = flat_map g l.
Proof. induction l as [|a l IH]; intros H; cbn; auto. rewrite (H a) by now left. rewrite IH; auto. intros; apply H; now right. Qed.
Lemma sorted_runs : forall n a ks, StronglySorted le ks -> (forall b, In b ks -> (a <= b < a + n)%nat) ->
  flat_map (fun i => repeat i (count i ks)) (seq a n) = ks.
Proof.
  induction n as [|n IH]; intros a ks Hs Hb.
  - destruct ks as [|b ks]; auto. specialize (Hb b ltac:(now left)). lia.
  - destruct (sorted_split a ks Hs ltac:(intros b Hin; apply Hb; auto)) as (ks' & E & Hs' & Hb' & Hc). cbn [seq flat_map].
    rewrite E at 2. f_equal. rewrite <- (IH (S a) ks') at 1; auto.
    + apply flat_map_in. intros i Hi. apply in_seq in Hi. rewrite Hc by lia. reflexivity.
    + intros b Hin. destruct (Hb' b Hin) as (A & B). specialize (Hb b B). lia.
Qed.

Lemma bin_mono x y : f64_le x y = true -> (bin x <= bin y)%nat.
Proof.
  intros L. destruct (le_lt_dec (bin x) (bin y)) as [|H]; auto. exfalso.
  assert (in_bin (bin x) x = true) as Hx by (rewrite bin_iff; apply Nat.eqb_refl). assert (in_bin (bin y) y = true) as Hy by (rewrite bin_iff; apply Nat.eqb_refl).
  apply in_bin_iff in Hx, Hy. destruct Hx as (Lx & Ax & _). destruct Hy as (Ly & _ & By). destruct Ax as [Ax|Ax]; [lia|]. destruct By as [By|By]; [lia|].
  assert (f64_ge y (bnd (bin y + 1)) = true); [|congruence]. unfold f64_ge, f64_le in *.
  eapply Bleb_trans; [apply (bnd_le (bin y + 1) (bin x)); lia|]. eapply Bleb_trans; eauto.
Qed.
Lemma bins_sorted m : ascending m -> StronglySorted le (map bin m).
Proof.
  induction 1 as [|a m Hs IH Ha]; cbn [map]; constructor; auto. apply Forall_forall. intros b Hb. apply in_map_iff in Hb. destruct Hb as (x & <- & Hx).
  rewrite Forall_forall in Ha. apply bin_mono. now apply Ha.
Qed.
Lemma hits_count i xs : N.to_nat (hits i xs) = count i (map bin xs).
Proof. induction xs as [|x xs IH]; [reflexivity|]. rewrite hits_cons. cbn [map count]. rewrite <- IH, Nat.eqb_sym. destruct (_ =? _)%nat; lia. Qed.
Lemma flat_map_map {A B C} (f : A -> B) (g : B -> list C) l : flat_map g (map f l) = flat_map (fun a => g (f a)) l.
Proof. induction l as [|a l IH]; cbn; [auto|now rewrite IH]. Qed.
Lemma map_flat_map {A B C} (f : B -> C) (g : A -> list B) l : map f (flat_map g l) = flat_map (fun a => map f (g a)) l.
Proof. induction l as [|a l IH]; cbn; [auto|]. now rewrite map_app, IH. Qed.
Lemma map_repeat {A B} (f : A -> B) a n : map f (repeat a n) = repeat (f a) n.
Proof. induction n as [|n IH]; cbn; [auto|now rewrite IH]. Qed.
Lemma expand_bins m : ascending m -> expand (bins m) = map to_centre m.
Proof.
  intros Ha. unfold expand, bins. rewrite flat_map_map. cbn [fst snd].
  transitivity (map centre (flat_map (fun i => repeat i (count i (map bin m))) (seq 0 1000))).
  - rewrite map_flat_map. apply flat_map_in. intros i _. rewrite map_repeat. now rewrite hits_count.
  - rewrite sorted_runs; [now rewrite map_map|now apply bins_sorted|]. intros b Hb. apply in_map_iff in Hb. destruct Hb as (x & <- & _). pose proof (bin_lt x). lia.
Qed.
Lemma expand_kept q l : expand (kept_by q l) = List.filter q (expand l).
Proof.
  unfold expand, kept_by. induction l as [|(n, x) l IH]; [reflexivity|]. cbn [List.filter flat_map fst snd]. rewrite filter_app, <- IH.
  assert (forall k, List.filter q (repeat x k) = if q x then repeat x k else []) as HR.
  { induction k as [|k IHk]; cbn; [now destruct (q x)|]. rewrite IHk. now destruct (q x). }
  rewrite HR. destruct (q x); reflexivity.
Qed.
Lemma filter_map {A B} (f : A -> B) q l : List.filter q (map f l) = map f (List.filter (fun x => q (f x)) l).
Proof. induction l as [|a l IH]; cbn; [auto|]. rewrite IH. now destruct (q (f a)). Qed.
Lemma expand_alone m : expand (singly m) = m.
Proof. induction m as [|x m IH]; [reflexivity|]. unfold expand, singly in *. cbn. now rewrite IH. Qed.
Lemma hits_same i xs ys : Permutation xs ys -> hits i xs = hits i ys.
Proof. induction 1; rewrite ?hits_cons; lia. Qed.
Lemma bins_same xs ys : Permutation xs ys -> bins xs = bins ys.
Proof. intros H. unfold bins. apply map_ext. intros i. now rewrite (hits_same i xs ys H). Qed.
Lemma total_less M zs : zs <> [] -> (forall z, In z zs -> z < M) -> total zs < INR (length zs) * M.
Proof.
  intros Hz H. induction zs as [|z zs IH]; [congruence|]. rewrite total_step. cbn [length]. rewrite S_INR. specialize (H z ltac:(now left)) as Hz1.
  destruct zs as [|y zs]; [cbn; lra|]. specialize (IH ltac:(discriminate) ltac:(intros; apply H; now right)). lra.
Qed.
Lemma some_pass xs k : (forall x, In x xs -> usual x) -> xs <> [] -> 1 <= k -> left_over xs k <> [].
Proof.
  intros Hu Hne Hk HN. assert (forall x, In x xs -> real x < exact_mean (singly xs)) as HL.
  { intros x Hx. destruct (means_positive xs Hu Hne) as (M & _). destruct (Rlt_le_dec (real x) (exact_mean (singly xs))) as [|HH]; auto. exfalso.
    assert (In x (left_over xs k)) as X; [|rewrite HN in X; destruct X]. apply filter_In. split; auto. unfold passes. destruct (Rle_dec _ _) as [|Hno]; auto. elim Hno.
    apply Rle_trans with (exact_mean (singly xs)); auto. unfold Rdiv. rewrite <- (Rmult_1_r (exact_mean (singly xs))) at 2. apply Rmult_le_compat_l; [lra|].
    rewrite <- Rinv_1. apply Rinv_le; lra. }
  assert (0 < INR (length xs)) as HI by (apply lt_0_INR; destruct xs; [congruence|cbn; lia]).
  pose proof (total_less (exact_mean (singly xs)) (map real xs)) as X. rewrite map_length in X.
  assert (total (map real xs) < INR (length xs) * exact_mean (singly xs)) as Y.
  { apply X; [destruct xs; [congruence|discriminate]|]. intros z Hz. apply in_map_iff in Hz. destruct Hz as (x & <- & Hx). auto. }
  rewrite mean_list in Y. replace (INR (length xs) * (total (map real xs) / INR (length xs))) with (total (map real xs)) in Y by (field; lra). lra.
Qed.
Lemma bins_population xs : population (bins xs) = N.of_nat (length xs).
Proof.
  pose proof (bins_count (fun _ => true) xs) as H. rewrite kept_all, filter_all, INR_IZR_INZ in H. unfold amount in H. apply eq_IZR in H. lia.
Qed.

(** * The two analyzers *)
Definition paired (P : platform) (E : ext) (e f : ebur128) : Prop :=
  alike e f /\ exists t b b' s s', noted P E e t b s /\ noted P E f t b' s' /\
    (has_I (e_mode e) -> has_I (e_mode f) -> b' = b) /\ (has_LRA (e_mode e) -> has_LRA (e_mode f) -> s' = s).
Lemma has_all m bits : forallb (N.testbit m) bits = true <-> forall b, In b bits -> N.testbit m b = true.
Proof. apply forallb_forall. Qed.
Lemma paired_ended P E e f o t bits w ends : alike e f -> forallb (N.testbit (e_mode e)) bits = true -> forallb (N.testbit (e_mode f)) bits = true ->
  ended_blocks P E f o t bits w ends = ended_blocks P E e o t bits w ends.
Proof.
  intros W B1 B2. destruct (alike_capacity e f W) as (Hc & Hh). unfold ended_blocks. destruct o; auto. rewrite (al_channels _ _ W).
  destruct (input _ _ _); auto. now rewrite B1, B2, Hc, Hh, (al_cmap _ _ W), (alike_tape P E e f _ t W).
Qed.
Lemma all_I m : has_I m -> forallb (N.testbit m) [0; 2]%N = true.
Proof. intros (A & B). cbn. now rewrite A, B. Qed.
Lemma all_LRA m : has_LRA m -> forallb (N.testbit m) [0; 1; 3]%N = true.
Proof. unfold has_LRA, has_S. cbn. intuition. repeat match goal with H : N.testbit _ _ = true |- _ => rewrite H; clear H end. reflexivity. Qed.
Lemma paired_step P E e f o r r' e' f' : is_64bit P -> paired P E e f -> admissible e o -> admissible f o -> (forall h, o <> OpSetMaxHistory h) ->
  step P E e o = Ret (r, e') -> step P E f o = Ret (r', f') -> paired P E e' f' /\ e_mode e' = e_mode e /\ e_mode f' = e_mode f.
Proof.
  intros HP (W & t & b & b' & s & s' & N1 & N2 & HI & HL) Ha Ha' Hh Hs Hs'.
  destruct (noted_holds P E e t b s HP N1) as (T1 & _). destruct (noted_holds P E f t b' s' HP N2) as (T2 & _).
  destruct (alike_step P E e f t o r r' e' f' HP T1 T2 W Ha Ha' Hs Hs') as (_ & W' & _ & M & M').
  split; [|auto]. split; auto. rewrite M, M'. exists (tape_after P E e o t).
  assert (o = OpReset \/ o <> OpReset) as [->|Hr] by (destruct o; auto; right; discriminate).
  - exists [], [], [], []. repeat split; auto.
    + eapply noted_reset; eauto.
    + rewrite <- (alike_tape P E e f OpReset t W). eapply noted_reset; eauto.
  - exists (b ++ ended_blocks P E e o t [0; 2]%N 4 block_ends), (b' ++ ended_blocks P E f o t [0; 2]%N 4 block_ends),
      (s ++ ended_blocks P E e o t [0; 1; 3]%N 30 short_ends), (s' ++ ended_blocks P E f o t [0; 1; 3]%N 30 short_ends). repeat split.
    + eapply noted_step; eauto.
    + rewrite <- (alike_tape P E e f o t W). eapply noted_step; eauto.
    + intros I1 I2. rewrite (HI I1 I2). f_equal. apply paired_ended; auto; now apply all_I.
    + intros I1 I2. rewrite (HL I1 I2). f_equal. apply paired_ended; auto; now apply all_LRA.
Qed.
Lemma paired_run P E : is_64bit P -> forall os e f rs rs' e' f', paired P E e f -> all_admissible P E e os -> all_admissible P E f os ->
  (forall h, ~ In (OpSetMaxHistory h) os) -> run P E e os = Ret (rs, e') -> run P E f os = Ret (rs', f') ->
  paired P E e' f' /\ e_mode e' = e_mode e /\ e_mode f' = e_mode f.
Proof.
  intros HP. induction os as [|o os IH]; intros e f rs rs' e' f' HT Ha Ha' Hh Hr Hr'; cbn [run all_admissible] in *.
  - apply Ret_pair_inj in Hr, Hr'. destruct Hr as (_ & <-). destruct Hr' as (_ & <-). auto.
  - destruct Ha as (Ha & Hn). destruct Ha' as (Ha' & Hn').
    destruct (step P E e o) as [[r e1]| | |] eqn:Hs; try discriminate. cbn [obind] in Hr.
    destruct (run P E e1 os) as [[rs1 e2]| | |] eqn:Hrun; try discriminate. cbn [obind] in Hr.
    destruct (step P E f o) as [[r1 f1]| | |] eqn:Hs'; try discriminate. cbn [obind] in Hr'.
    destruct (run P E f1 os) as [[rs2 f2]| | |] eqn:Hrun'; try discriminate. cbn [obind] in Hr'.
    apply Ret_pair_inj in Hr, Hr'. destruct Hr as (_ & <-). destruct Hr' as (_ & <-).
    destruct (paired_step P E e f o r r1 e1 f1 HP HT Ha Ha' ltac:(intros h ->; apply (Hh h); now left) Hs Hs') as (HT1 & M & M').
    destruct (IH e1 f1 rs1 rs2 e2 f2 HT1 (Hn _ _ eq_refl) (Hn' _ _ eq_refl) ltac:(intros h Hin; apply (Hh h); now right) Hrun Hrun') as (A & B & C).
    split; auto. split; congruence.
Qed.
Lemma paired_of P E e f : is_64bit P -> list_and_histogram P E e f -> paired P E e f /\ ~ has_HISTOGRAM (e_mode e) /\ has_HISTOGRAM (e_mode f).
Proof.
  intros HP (channels & rate & m & m' & e0 & f0 & os & rs & rs' & Hn & Hn' & Hs & Hs' & H1 & H6 & H6' & Hh & Ha & Ha' & Hr & Hr').
  destruct (together_new P E channels rate m m' e0 f0 HP Hn Hn' Hs Hs' H1) as ((W & _) & M & M').
  assert (paired P E e0 f0) as HT.
  { split; auto. exists (blank (N.to_nat channels)), [], [], [], []. repeat split; auto; econstructor; eauto. }
  destruct (paired_run P E HP os e0 f0 rs rs' e f HT Ha Ha' Hh Hr Hr') as (A & B & C). split; auto. rewrite B, C, M, M'. auto.
Qed.
Lemma latest_all {A} n (l : list A) : (length (latest n l) < n)%nat -> latest n l = l.
Proof. unfold latest. rewrite skipn_length. intros H. replace (length l - n)%nat with 0%nat by lia. reflexivity. Qed.
Lemma snd_singly xs : map snd (singly xs) = xs.
Proof. unfold singly. rewrite map_map. cbn. apply map_id. Qed.
Lemma binned_singly xs : binned (singly xs) = bins xs.
Proof. unfold binned. now rewrite snd_singly. Qed.
Lemma twin_blocks P E e f : is_64bit P -> list_and_histogram P E e f ->
  (has_I (e_mode e) -> has_I (e_mode f) -> (population (blocks e) < p_usize_max P / 100)%N -> blocks f = binned (blocks e)) /\
  (has_LRA (e_mode e) -> has_LRA (e_mode f) -> (population (short_blocks e) < p_usize_max P / 3000)%N -> short_blocks f = binned (short_blocks e)).
Proof.
  intros HP HT. destruct (paired_of P E e f HP HT) as ((W & t & b & b' & s & s' & N1 & N2 & HI & HL) & H6 & H6').
  destruct (noted_list P E e t b s HP N1 H6) as (B1 & S1). destruct (noted_bins P E f t b' s' HP N2 H6') as (B2 & S2).
  split; intros I1 I2 Hc.
  - rewrite (HI I1 I2) in B2. rewrite B1 in Hc |- *. rewrite binned_singly, population_singly in *. rewrite latest_all by lia. exact B2.
  - rewrite (HL I1 I2) in S2. rewrite S1 in Hc |- *. rewrite binned_singly, population_singly in *. rewrite latest_all by lia. exact S2.
Qed.
Lemma usual_of x : measurable x = true -> f64_le x (bound 1000) = true -> usual x.
Proof.
  intros Hm Hl. assert (is_finite x = true) as F.
  { destruct x as [s|[]| |s m ex HH]; [reflexivity|vm_compute in Hm; discriminate|vm_compute in Hl; discriminate|vm_compute in Hl; discriminate|reflexivity]. }
  split; auto. split; [|exact Hl]. rewrite measurable_eq in Hm. apply negb_true_iff in Hm. unfold f64_lt in Hm. unfold f64_ge, f64_le.
  destruct (table_finite 0 ltac:(lia)) as (F0 & _). rewrite Bltb_correct in Hm by auto. rewrite Bleb_correct by auto.
  apply Rle_bool_true. destruct (Rlt_bool_spec (B2R x) (B2R (bnd 0))); [discriminate|auto].
Qed.
Lemma twin_lists P E e f : is_64bit P -> list_and_histogram P E e f ->
  reachable P E e /\ reachable P E f /\ ~ has_HISTOGRAM (e_mode e) /\ has_HISTOGRAM (e_mode f) /\
  (ordinary (blocks e) -> exists xs, blocks e = singly xs /\ forall x, In x xs -> usual x) /\
  (ordinary (short_blocks e) -> exists xs, short_blocks e = singly xs /\ forall x, In x xs -> usual x).
Proof.
  intros HP HT. destruct (paired_of P E e f HP HT) as ((W & t & b & b' & s & s' & N1 & N2 & HI & HL) & H6 & H6').
  destruct (noted_holds P E e t b s HP N1) as (T1 & _). destruct (noted_holds P E f t b' s' HP N2) as (T2 & _). apply taped_reachable in T1, T2.
  destruct (noted_list P E e t b s HP N1 H6) as (B1 & S1). do 4 (split; auto).
  assert (forall n l, let l' := latest n (List.filter measurable l) in ordinary (singly l') -> exists xs, singly l' = singly xs /\ forall x, In x xs -> usual x) as HU.
  { intros n l l' Ho. exists l'. split; auto. intros x Hx. apply usual_of; [|apply (Ho 1%N x); now apply in_map].
    unfold l', latest in Hx. assert (In x (List.filter measurable l)) as Hx' by (rewrite <- (firstn_skipn (length (List.filter measurable l) - n)); apply in_or_app; auto).
    now apply filter_In in Hx'. }
  rewrite B1, S1. split; apply HU.
Qed.

Lemma bins_length xs : length (bins xs) = 1000%nat.
Proof. unfold bins. now rewrite map_length, seq_length. Qed.
Lemma few_bins : tolerance 1105 <= / 10 ^ 10 /\ tolerance 2000 <= / 10 ^ 10.
Proof.
  unfold tolerance, roundoff. rewrite !INR_IZR_INZ. change (Z.of_nat 1105) with 1105%Z. change (Z.of_nat 2000) with 2000%Z. split; lra.
Qed.
Lemma clear_less d t t' l : t' <= t -> clear_of_gate d t l -> clear_of_gate d t' l.
Proof. intros Ht H n x Hin Hn Hx. specialize (H n x Hin Hn Hx). lra. Qed.
Lemma tolerance_positive n : 0 < tolerance n.
Proof.
  unfold tolerance, roundoff. pose proof (pos_INR n). assert (0 < / 2 ^ 53) by (apply Rinv_0_lt_compat; lra). assert (0 < / 10 ^ 11) by (apply Rinv_0_lt_compat; lra).
  assert (0 <= 10 * INR n * / 2 ^ 53) by (apply Rmult_le_pos; lra). lra.
Qed.
Lemma effort_bins xs : programme_effort [bins xs] = 1105%nat.
Proof. unfold programme_effort. cbn [concat length]. now rewrite app_nil_r, bins_length. Qed.
Lemma range_effort_bins xs : range_effort (bins xs) = 2000%nat.
Proof. unfold range_effort. now rewrite bins_length. Qed.
Lemma twin_threshold P E e f v w : is_64bit P -> powf_contract E -> log10_accurate E -> list_and_histogram P E e f ->
  has_I (e_mode e) -> has_I (e_mode f) -> ordinary (blocks e) -> (population (blocks e) <= small_count)%N -> population (blocks e) <> 0%N ->
  ask P E e QThreshold = Ret (AValue (Ok v)) -> is_finite v = true -> ask P E f QThreshold = Ret (AValue (Ok w)) -> is_finite w = true ->
  Rabs (real v - real w) <= 5 / 100 + / 10 ^ 8 + tolerance (programme_effort [blocks e]).
Proof.
  intros HP HE HL HT I1 I2 Ho Hn H0 Av Fv Aw Fw. destruct (twin_lists P E e f HP HT) as (R1 & R2 & H6 & H6' & HB & _).
  destruct (HB Ho) as (xs & Exs & Hu). assert (blocks f = bins xs) as Ef.
  { rewrite <- binned_singly, <- Exs. apply (twin_blocks P E e f HP HT); auto. rewrite HP. eapply N.le_lt_trans; [exact Hn|]. vm_compute. reflexivity. }
  assert (xs <> []) as Hne. { intros ->. rewrite Exs in H0. now apply H0. }
  pose proof Hn as Hn'. rewrite Exs, population_singly in Hn'.
  destruct (ask_threshold_close P E e v HP HE HL R1 I1 (small_countable _ Hn)) as (_ & _ & C1); auto.
  { rewrite Exs. unfold programme_effort. cbn [concat length]. rewrite app_nil_r. unfold singly. rewrite map_length. unfold small_count in Hn'.
    change (2 ^ 50)%N with 1125899906842624%N. lia. }
  destruct (ask_threshold_close P E f w HP HE HL R2 I2) as (_ & _ & C2); auto.
  { apply small_countable. now rewrite Ef, bins_population. }
  { rewrite Ef, effort_bins. vm_compute. discriminate. }
  { rewrite Ef, bins_population. destruct xs; [congruence|cbn; lia]. }
  rewrite Ef, effort_bins in C2. rewrite Exs in C1 |- *. pose proof (means_near xs Hu Hne) as HM. unfold half_bin in HM. pose proof few_bins as (HF & _).
  apply Rabs_le_inv in C1, C2, HM. apply Rabs_le. set (t := tolerance _) in *. clearbody t. set (t' := tolerance _) in *. clearbody t'. lra.
Qed.
Lemma twin_global P E e f v w : is_64bit P -> powf_contract E -> log10_accurate E -> list_and_histogram P E e f ->
  has_I (e_mode e) -> has_I (e_mode f) -> ordinary (blocks e) -> (population (blocks e) <= small_count)%N -> population (blocks e) <> 0%N ->
  clear_of_gate 10 (1 / 10 + / 10 ^ 7 + tolerance (programme_effort [blocks e])) (blocks e) ->
  ask P E e QGlobal = Ret (AValue (Ok v)) -> is_finite v = true -> ask P E f QGlobal = Ret (AValue (Ok w)) -> is_finite w = true ->
  Rabs (real v - real w) <= 5 / 100 + / 10 ^ 8 + tolerance (programme_effort [blocks e]).
Proof.
  intros HP HE HL HT I1 I2 Ho Hn H0 HC Av Fv Aw Fw. destruct (twin_lists P E e f HP HT) as (R1 & R2 & H6 & H6' & HB & _).
  destruct (HB Ho) as (xs & Exs & Hu). assert (blocks f = bins xs) as Ef.
  { rewrite <- binned_singly, <- Exs. apply (twin_blocks P E e f HP HT); auto. rewrite HP. eapply N.le_lt_trans; [exact Hn|]. vm_compute. reflexivity. }
  assert (xs <> []) as Hne. { intros ->. rewrite Exs in H0. now apply H0. }
  pose proof Hn as Hn'. rewrite Exs, population_singly in Hn'. pose proof (tolerance_positive (programme_effort [blocks e])) as TP. pose proof few_bins as (HF & _).
  pose proof (global_textbook P E e v HP HE HL R1 I1 (small_countable _ Hn)) as X. cbv zeta in X. destruct X as (_ & C1); auto.
  { rewrite Exs. unfold programme_effort. cbn [concat length]. rewrite app_nil_r. unfold singly. rewrite map_length. unfold small_count in Hn'.
    change (2 ^ 50)%N with 1125899906842624%N. lia. }
  { eapply clear_less; [|exact HC]. set (t := tolerance _) in *. clearbody t. lra. }
  assert (2 * half_bin <= 1 / 10 + / 10 ^ 7 + tolerance (programme_effort [singly xs])) as Ht.
  { rewrite <- Exs. unfold half_bin. set (t := tolerance _) in *. clearbody t. lra. }
  assert (clear_of_gate 10 (tolerance 1105) (bins xs)) as HC'.
  { rewrite Exs in HC. eapply clear_less; [|eapply (bins_clear xs); eauto]. rewrite <- Exs. unfold half_bin. set (t := tolerance _) in *. clearbody t. set (t' := tolerance _) in *. clearbody t'. lra. }
  pose proof (global_textbook P E f w HP HE HL R2 I2) as X. cbv zeta in X. rewrite Ef, effort_bins in X. destruct X as (_ & C2); auto.
  { apply small_countable. now rewrite bins_population. }
  { vm_compute. discriminate. }
  rewrite Exs in C1, HC. unfold textbook_programme in C1, C2.
  pose proof (passing_near xs Hu Hne 10 10 _ ltac:(lra) lufs_tenth Ht HC (some_pass xs 10 Hu Hne ltac:(lra))) as HM.
  rewrite Exs in TP |- *. unfold half_bin in HM.
  apply Rabs_le_inv in C1, C2, HM. apply Rabs_le. set (t := tolerance _) in *. clearbody t. set (t' := tolerance _) in *. clearbody t'. lra.
Qed.

Lemma usual_le x : usual x -> real x <= 2000.
Proof.
  intros (F & _ & B). destruct (bin_real 8796093022208000 (-42) ltac:(lia) ltac:(lia)) as (F2 & E).
  assert (f64_le (bnd 1000) (f64_bin 8796093022208000 (-42)) = true) as L by (vm_cast_no_check (eq_refl true)).
  pose proof (Bleb_trans _ _ _ B L) as L2. apply le_iff in L2; auto. rewrite E in L2.
  replace (IZR 8796093022208000 * bpow radix2 (-42)) with 2000 in L2; auto. cbn. lra.
Qed.
Lemma usual_finite xs : (forall x, In x xs -> usual x) -> Forall block_ok (singly xs) -> countable (singly xs) -> is_finite (energy_sum (singly xs)) = true.
Proof.
  intros Hu HB Hc. assert (forall b, In b (singly xs) -> is_finite (snd b) = true /\ B2R (snd b) <= 2000) as HF.
  { intros b Hb. unfold singly in Hb. apply in_map_iff in Hb. destruct Hb as (x & <- & Hx). cbn [snd]. specialize (Hu x Hx). split; [apply Hu|exact (usual_le x Hu)]. }
  apply sum_finite; auto; try reflexivity.
  - intros b Hb. now apply HF.
  - cbn. lra.
  - change (B2R f64_zero) with 0. pose proof (weighted_max (singly xs) 2000 ltac:(lra) ltac:(intros b Hb _; now apply HF)) as W.
    unfold countable in Hc. assert (size_of (population (singly xs)) <= bpow radix2 64) as S.
    { change (bpow radix2 64) with (IZR 18446744073709551616). unfold size_of. apply IZR_le. lia. }
    assert (bpow radix2 64 * 8192 <= bpow radix2 1000).
    { replace 8192 with (bpow radix2 13) by (cbn; lra). rewrite <- bpow_plus. apply bpow_le. lia. }
    pose proof (bpow_gt_0 radix2 64) as P64. clear - W S H P64. revert W S H P64. generalize (bpow radix2 64) (bpow radix2 1000) (size_of (population (singly xs))) (weighted (singly xs)).
    intros. lra.
Qed.
Lemma exact_mean_perm l m : Permutation l m -> exact_mean l = exact_mean m.
Proof. intros H. unfold exact_mean, exact_sum. rewrite (population_perm l m H). f_equal. apply total_perm. now apply Permutation_map. Qed.
Lemma clear_perm d t l m : Permutation l m -> clear_of_gate d t l -> clear_of_gate d t m.
Proof. intros H HC n x Hin. rewrite <- (exact_mean_perm l m H). apply HC. eapply Permutation_in; [apply Permutation_sym; exact H|auto]. Qed.
Lemma positions {A} (r : list A) : r <> [] -> ((19 * (length r - 1) + 10) / 20 < length r /\ (length r - 1 + 5) / 10 < length r)%nat.
Proof. intros H. assert (0 < length r)%nat by (destruct r; [congruence|cbn; lia]). split; apply Nat.div_lt_upper_bound; lia. Qed.
Lemma percentiles_map (g : f64 -> f64) r : r <> [] -> high_percentile (map g r) = g (high_percentile r) /\ low_percentile (map g r) = g (low_percentile r).
Proof.
  intros H. destruct (positions r H) as (A & B). unfold high_percentile, low_percentile. rewrite !map_length. split.
  - rewrite (nth_indep (map g r) f64_zero (g f64_zero)) by now rewrite map_length. apply map_nth.
  - rewrite (nth_indep (map g r) f64_zero (g f64_zero)) by now rewrite map_length. apply map_nth.
Qed.
Lemma twin_range P E e f v w : is_64bit P -> powf_contract E -> sort_contract E -> bsearch_contract E -> log10_accurate E -> list_and_histogram P E e f ->
  has_LRA (e_mode e) -> has_LRA (e_mode f) -> ordinary (short_blocks e) -> (population (short_blocks e) <= small_count)%N ->
  population (short_blocks e) <> 0%N -> clear_of_gate 20 (1 / 10 + / 10 ^ 7 + tolerance (range_effort (short_blocks e))) (short_blocks e) ->
  ask P E e QRange = Ret (AValue (Ok v)) -> is_finite v = true -> ask P E f QRange = Ret (AValue (Ok w)) -> is_finite w = true ->
  Rabs (real v - real w) <= 1 / 10 + / 10 ^ 8.
Proof.
  intros HP HE HS HBS HL HT I1 I2 Ho Hn H0 HC Av Fv Aw Fw. destruct (twin_lists P E e f HP HT) as (R1 & R2 & H6 & H6' & _ & HB).
  destruct (HB Ho) as (xs & Exs & Hu). assert (short_blocks f = bins xs) as Ef.
  { rewrite <- binned_singly, <- Exs. apply (twin_blocks P E e f HP HT); auto. rewrite HP. eapply N.le_lt_trans; [exact Hn|]. vm_compute. reflexivity. }
  assert (xs <> []) as Hne. { intros ->. rewrite Exs in H0. now apply H0. }
  destruct (HS xs) as (Hp & Hasc & _).
  set (m := fst (e_sort E xs)) in *. assert (Permutation xs m) as Hp' by auto.
  assert (ascending m) as Ha.
  { apply cmp_ascending; auto. eapply Permutation_Forall; [exact Hp'|]. apply Forall_forall. intros x Hx. apply finite_not_nan, Hu, Hx. }
  assert (forall x, In x m -> usual x) as Hum by (intros x Hx; apply Hu; eapply Permutation_in; [apply Permutation_sym; exact Hp'|auto]).
  assert (m <> []) as Hm0. { intros Em. rewrite Em in Hp'. apply Permutation_sym, Permutation_nil in Hp'. auto. }
  assert (length m = length xs) as Hlen by (symmetry; now apply Permutation_length).
  assert (Permutation (short_blocks e) (singly m)) as HPm by (rewrite Exs; now apply Permutation_map).
  assert (N.of_nat (length m) <= small_count)%N as Hnm. { rewrite Hlen, <- population_singly, <- Exs. exact Hn. }
  assert (range_effort (short_blocks e) = range_effort (singly m)) as Eeff.
  { unfold range_effort. now rewrite (Permutation_length HPm). }
  pose proof (clear_perm _ _ _ _ HPm HC) as HCm. rewrite Eeff in HCm. pose proof (tolerance_positive (range_effort (singly m))) as TP. pose proof few_bins as (_ & HF).
  assert (countable (singly m)) as Hcm by (apply small_countable; now rewrite population_singly).
  destruct (list_range_close P E e m v HP HE HS HL R1 I1 H6 HPm Ha Hnm Hm0) as (_ & C1); auto.
  { apply usual_finite; auto. eapply Permutation_Forall; [exact HPm|]. eapply short_ok; eauto. now apply small_countable. }
  specialize (C1 ltac:(eapply clear_less; [|exact HCm]; set (t := tolerance _) in *; clearbody t; lra)).
  rewrite (bins_same xs m Hp') in Ef.
  pose proof (histogram_range_close P E f w HP HE HBS HL R2 I2 H6') as X. cbv zeta in X. rewrite Ef, bins_population, range_effort_bins in X.
  destruct X as (_ & C2); auto.
  { destruct m; [congruence|cbn; lia]. }
  assert (2 * half_bin <= 1 / 10 + / 10 ^ 7 + tolerance (range_effort (singly m))) as Ht.
  { unfold half_bin. set (t := tolerance _) in *. clearbody t. lra. }
  assert (clear_of_gate 20 (tolerance 2000) (bins m)) as HC'.
  { eapply clear_less; [|eapply (bins_clear m); eauto]. unfold half_bin. set (t := tolerance _) in *. clearbody t. set (t' := tolerance _) in *. clearbody t'. lra. }
  specialize (C2 HC'). unfold textbook_range in C1, C2. cbv zeta in C1, C2. rewrite !textbook_kept, !expand_kept in C1, C2. rewrite expand_bins in C2 by auto. rewrite expand_alone in C1.
  rewrite filter_map in C2. erewrite (choices m) in C2; eauto; [|lra|exact lufs_hundredth].
  change (List.filter (passes 100 (singly m)) m) with (left_over m 100) in C1.
  pose proof (some_pass m 100 Hum Hm0 ltac:(lra)) as Hsome. destruct (percentiles_map to_centre _ Hsome) as (P1 & P2). rewrite P1, P2 in C2.
  destruct (percentiles_in _ Hsome) as (J1 & J2). apply filter_In in J1, J2.
  pose proof (centre_near _ (Hum _ (proj1 J1))) as N1. pose proof (centre_near _ (Hum _ (proj1 J2))) as N2. unfold half_bin in N1, N2.
  set (hp := high_percentile (left_over m 100)) in *. set (lp := low_percentile (left_over m 100)) in *.
  apply Rabs_le_inv in C1, C2, N1, N2. apply Rabs_le. lra.
Qed.
Lemma usual_measurable x : usual x -> measurable x = true.
Proof.
  intros (F & A & _). rewrite measurable_eq. apply negb_true_iff. unfold f64_ge, f64_le in A. unfold f64_lt. destruct (table_finite 0 ltac:(lia)) as (F0 & _).
  rewrite Bleb_correct in A by auto. rewrite Bltb_correct by auto. apply Rlt_bool_false. destruct (Rle_bool_spec (B2R (bnd 0)) (B2R x)); [auto|discriminate].
Qed.
Lemma twin_finite P E e f : is_64bit P -> powf_contract E -> sort_contract E -> bsearch_contract E -> log10_contract E -> list_and_histogram P E e f ->
  (has_I (e_mode e) -> has_I (e_mode f) -> ordinary (blocks e) -> (population (blocks e) <= small_count)%N -> population (blocks e) <> 0%N ->
    (exists v, ask P E e QGlobal = Ret (AValue (Ok v)) /\ is_finite v = true) /\ (exists v, ask P E f QGlobal = Ret (AValue (Ok v)) /\ is_finite v = true) /\
    (exists v, ask P E e QThreshold = Ret (AValue (Ok v)) /\ is_finite v = true) /\ (exists v, ask P E f QThreshold = Ret (AValue (Ok v)) /\ is_finite v = true)) /\
  (has_LRA (e_mode e) -> has_LRA (e_mode f) -> ordinary (short_blocks e) -> (population (short_blocks e) <= small_count)%N ->
    (exists v, ask P E e QRange = Ret (AValue (Ok v)) /\ is_finite v = true) /\ (exists v, ask P E f QRange = Ret (AValue (Ok v)) /\ is_finite v = true)).
Proof.
  intros HP HE HS HB HL HT. destruct (twin_lists P E e f HP HT) as (R1 & R2 & H6 & H6' & B1 & B2). destruct (twin_blocks P E e f HP HT) as (T1 & T2).
  destruct (histogram_numbers P E f HP HE HS HB HL R2 H6') as (N1 & N2). split.
  - intros I1 I2 Ho Hn H0. destruct (B1 Ho) as (xs & Exs & Hu). pose proof (small_countable _ Hn) as Hc.
    assert (blocks f = bins xs) as Ef.
    { rewrite <- binned_singly, <- Exs. apply T1; auto. rewrite HP. eapply N.le_lt_trans; [exact Hn|]. vm_compute. reflexivity. }
    assert (population (blocks f) = population (blocks e)) as Ep by (rewrite Ef, Exs, bins_population, population_singly; reflexivity).
    destruct (global_number P E e HP HE HL R1 I1 Hc H0) as (_ & G1 & G2).
    { rewrite Exs in Hc |- *. apply usual_finite; auto. rewrite <- Exs in *. apply (blocks_one P E e); auto. }
    { apply Forall_forall. intros b Hb. rewrite Exs in Hb. unfold singly in Hb. apply in_map_iff in Hb. destruct Hb as (x & <- & Hx). apply usual_measurable. auto. }
    destruct (N1 I2) as (G3 & G4); unfold countable; rewrite ?Ep; auto.
  - intros I1 I2 Ho Hn. destruct (B2 Ho) as (xs & Exs & Hu).
    assert (short_blocks f = bins xs) as Ef.
    { rewrite <- binned_singly, <- Exs. apply T2; auto. rewrite HP. eapply N.le_lt_trans; [exact Hn|]. vm_compute. reflexivity. }
    assert (population (short_blocks f) = population (short_blocks e)) as Ep by (rewrite Ef, Exs, bins_population, population_singly; reflexivity).
    destruct (range_not_negative P E e HP HE HS HB HL R1 I1 Hn) as (v & A & F & _).
    { apply Forall_forall. intros b Hb. rewrite Exs in Hb. unfold singly in Hb. apply in_map_iff in Hb. destruct Hb as (x & <- & Hx). split; [apply usual_measurable; auto|]. apply (Hu x Hx). }
    rewrite Ep in N2. destruct (N2 I2 Hn) as (w & A' & F' & _). split; eexists; split; eassumption.
Qed.
(** ** The properties *)
Lemma agree_programme P E e f : is_64bit P -> powf_contract E -> sort_contract E -> bsearch_contract E -> log10_contract E -> log10_accurate E -> list_and_histogram P E e f ->
  has_I (e_mode e) -> has_I (e_mode f) -> ordinary (blocks e) -> (population (blocks e) <= small_count)%N -> population (blocks e) <> 0%N ->
  let t := tolerance (programme_effort [blocks e]) in
  (exists v w, ask P E e QThreshold = Ret (AValue (Ok v)) /\ ask P E f QThreshold = Ret (AValue (Ok w)) /\
     is_finite v = true /\ is_finite w = true /\ Rabs (real v - real w) <= 5 / 100 + / 10 ^ 8 + t) /\
  (clear_of_gate 10 (1 / 10 + / 10 ^ 7 + t) (blocks e) ->
   exists v w, ask P E e QGlobal = Ret (AValue (Ok v)) /\ ask P E f QGlobal = Ret (AValue (Ok w)) /\
     is_finite v = true /\ is_finite w = true /\ Rabs (real v - real w) <= 5 / 100 + / 10 ^ 8 + t).
Proof.
  intros HP HE HS HB HL HA HT I1 I2 Ho Hn H0 t. destruct (proj1 (twin_finite P E e f HP HE HS HB HL HT) I1 I2 Ho Hn H0) as ((v & V1 & V2) & (w & W1 & W2) & (x & X1 & X2) & (y & Y1 & Y2)).
  split.
  - exists x, y. do 4 (split; auto). now apply (twin_threshold P E e f).
  - intros HC. exists v, w. do 4 (split; auto). now apply (twin_global P E e f).
Qed.
Lemma agree_range P E e f : is_64bit P -> powf_contract E -> sort_contract E -> bsearch_contract E -> log10_contract E -> log10_accurate E -> list_and_histogram P E e f ->
  has_LRA (e_mode e) -> has_LRA (e_mode f) -> ordinary (short_blocks e) -> (population (short_blocks e) <= small_count)%N -> population (short_blocks e) <> 0%N ->
  clear_of_gate 20 (1 / 10 + / 10 ^ 7 + tolerance (range_effort (short_blocks e))) (short_blocks e) ->
  exists v w, ask P E e QRange = Ret (AValue (Ok v)) /\ ask P E f QRange = Ret (AValue (Ok w)) /\
    is_finite v = true /\ is_finite w = true /\ Rabs (real v - real w) <= 1 / 10 + / 10 ^ 8.
Proof.
  intros HP HE HS HB HL HA HT I1 I2 Ho Hn H0 HC. destruct (proj2 (twin_finite P E e f HP HE HS HB HL HT) I1 I2 Ho Hn) as ((v & V1 & V2) & (w & W1 & W2)).
  exists v, w. do 4 (split; auto). now apply (twin_range P E e f).
Qed.
