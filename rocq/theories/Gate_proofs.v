(** Recorded blocks, absolute gate, bins and relative gate. *)
From Coq Require Import List Arith NArith ZArith Bool Lia Reals Lra Psatz.
From Flocq Require Import Core IEEE754.BinarySingleNaN.
From Verif Require Import Prelude Float Env Tables Utils History Filter Ebur128 Spec Spec_real Spec_history
  Prelude_proofs Utils_proofs Float_proofs Order_proofs History_proofs Energy_proofs Accuracy_proofs Table_proofs.
Import ListNotations.

(** * Bins *)
Lemma in_bin_iff i x : in_bin i x = true <->
  i < 1000 /\ (i = 0 \/ f64_ge x (bnd i) = true) /\ (i = 999 \/ f64_ge x (bnd (i + 1)) = false).
Proof.
  unfold in_bin. change (bound i) with (bnd i). change (bound (i + 1)) with (bnd (i + 1)).
  rewrite !andb_true_iff, !orb_true_iff, negb_true_iff, Nat.ltb_lt, !Nat.eqb_eq. tauto.
Qed.
Lemma finite_not_nan (x : f64) : is_finite x = true -> is_nan x = false.
Proof. now destruct x. Qed.
Lemma bnd_not_nan i : i <= 1000 -> is_nan (bnd i) = false.
Proof. intros H. apply finite_not_nan. now apply table_finite. Qed.
Lemma cen_not_nan i : i < 1000 -> is_nan (cen i) = false.
Proof. intros H. apply finite_not_nan. apply table_finite. lia. Qed.
Lemma bnd_le i j : i <= j -> j <= 1000 -> f64_le (bnd i) (bnd j) = true.
Proof.
  intros H Hj. destruct (Nat.eq_dec i j) as [->|]; [|apply Bltb_le, bnd_lt; lia].
  now apply Bleb_refl, bnd_not_nan.
Qed.
Lemma in_bin_unique i j x : in_bin i x = true -> in_bin j x = true -> i = j.
Proof.
  assert (forall i j, i < j -> in_bin i x = true -> in_bin j x = true -> False) as H.
  { clear i j. intros i j Hij Hi Hj. apply in_bin_iff in Hi. apply in_bin_iff in Hj.
    destruct Hi as (_ & _ & Hi), Hj as (Hj & [->|Hx] & _); [lia|].
    destruct Hi as [->|Hi]; [lia|]. unfold f64_ge in *. rewrite (Bleb_trans _ (bnd j)) in Hi; try discriminate; auto. apply bnd_le; lia. }
  intros Hi Hj. destruct (Nat.lt_trichotomy i j) as [L|[E|L]]; auto; exfalso; eauto.
Qed.
Lemma find_in_bin x : exists i, find_histogram_index x = Ret i /\ in_bin i x = true.
Proof.
  destruct (find_histogram_index_ok x) as (i & E & H). exists i. split; auto. apply in_bin_iff. tauto.
Qed.
Lemma find_iff x i : find_histogram_index x = Ret i <-> in_bin i x = true.
Proof.
  destruct (find_in_bin x) as (j & E & Hj). split; intros H.
  - rewrite E in H. injection H as <-. exact Hj.
  - rewrite E. f_equal. eapply in_bin_unique; eauto.
Qed.
(** the bin in words *)
Lemma in_bin_nan i : in_bin i f64_nan = true <-> i = 0.
Proof.
  rewrite in_bin_iff. unfold f64_ge. split; [intros (H & [H0|H0] & _); auto; destruct (Bleb_not_nan _ _ H0) as (_ & N); discriminate N|].
  intros ->. split; [lia|]. split; auto.
Qed.
Lemma in_bin_below i x : f64_lt x (bnd 1) = true -> in_bin i x = true <-> i = 0.
Proof.
  intros H. destruct (Bltb_not_nan _ _ H) as (N1 & N2). split.
  - intros Hi. apply (in_bin_unique i 0 x Hi). apply in_bin_iff. split; [lia|]. split; auto. right. unfold f64_ge.
    unfold f64_lt in H. rewrite (Bltb_Bleb x (bnd 1)) in H by auto. now apply negb_true_iff in H.
  - intros ->. apply in_bin_iff. split; [lia|]. split; auto. right. unfold f64_ge. unfold f64_lt in H. rewrite (Bltb_Bleb x (bnd 1)) in H by auto. now apply negb_true_iff in H.
Qed.
Lemma in_bin_above i x : f64_ge x (bnd 999) = true -> in_bin i x = true <-> i = 999.
Proof.
  intros H. assert (in_bin 999 x = true) by (apply in_bin_iff; split; [lia|split; auto]). split; [intros; eapply in_bin_unique; eauto|intros ->; auto].
Qed.
Lemma in_bin_inside i x : f64_ge x (bnd 0) = true -> f64_lt x (bnd 1000) = true ->
  in_bin i x = true <-> i < 1000 /\ f64_ge x (bnd i) = true /\ f64_lt x (bnd (i + 1)) = true.
Proof.
  intros H0 H1. unfold f64_ge, f64_lt in *. destruct (Bltb_not_nan _ _ H1) as (N1 & N2). rewrite in_bin_iff. unfold f64_ge.
  assert (forall j, j <= 1000 -> Bltb x (bnd j) = negb (Bleb (bnd j) x)) as HB by (intros; apply Bltb_Bleb; auto; now apply bnd_not_nan).
  split.
  - intros (H & A & B). split; auto. split; [destruct A as [->|A]; auto|]. destruct B as [->|B]; [exact H1|]. rewrite HB by lia. now rewrite B.
  - intros (H & A & B). split; auto. split; auto. right. rewrite HB in B by lia. now apply negb_true_iff in B.
Qed.
Lemma bin_quantisation i x : is_finite x = true -> f64_ge x (bnd 0) = true -> f64_le x (bnd 1000) = true -> in_bin i x = true ->
  (Rabs (lufs (real (centre i)) - lufs (real x)) <= 5 / 100 + / 10 ^ 9)%R.
Proof.
  intros Hf H0 H1 Hi. apply in_bin_iff in Hi. destruct Hi as (L & A & B). apply bin_error; auto.
  assert (forall y z : f64, is_finite y = true -> is_finite z = true -> f64_le y z = true <-> (B2R y <= B2R z)%R) as LE.
  { intros y z Hy Hz. unfold f64_le. rewrite Bleb_correct by auto. destruct (Rle_bool_spec (B2R y) (B2R z)); split; auto; intros; try discriminate; lra. }
  assert (forall j, j <= 1000 -> is_finite (bnd j) = true) as FB by (intros; now apply table_finite). split.
  - apply LE; auto. { apply FB; lia. } destruct A as [->|A]; auto.
  - destruct B as [->|B]; [apply LE; auto; apply FB; lia|].
    unfold f64_ge in B. rewrite Bleb_correct in B; [|apply FB; lia|auto]. destruct (Rle_bool_spec (B2R (bnd (i + 1))) (B2R x)); [discriminate|]. unfold real. lra.
Qed.

(** * Recording *)
Lemma measurable_eq x : measurable x = negb (f64_lt x (bnd 0)). Proof. reflexivity. Qed.
Lemma add_queue q x : history_add (HQueue q) x = Ret (HQueue (if measurable x then queue_add q x else q)).
Proof.
  unfold history_add. rewrite (idx_bnd 0) by lia. cbn [obind]. rewrite measurable_eq. destruct (f64_lt x (bnd 0)); reflexivity.
Qed.
Lemma add_histogram c x : length c = 1000 ->
  exists c', history_add (HHistogram c) x = Ret (HHistogram c') /\ length c' = 1000 /\
    forall i, nth i c' 0%N = (nth i c 0%N + (if measurable x && in_bin i x then 1 else 0))%N.
Proof.
  intros Hl. unfold history_add. rewrite (idx_bnd 0) by lia. cbn [obind]. rewrite measurable_eq. destruct (f64_lt x (bnd 0)); cbn [negb andb].
  - exists c. split; auto. split; auto. intros. lia.
  - destruct (histogram_add_ok c x Hl) as (i & n & -> & Ei & Hi & Hn). cbn [obind]. eexists. split; [reflexivity|]. split; [now rewrite upd_length|].
    apply find_iff in Ei. intros j. destruct (Nat.eq_dec j i) as [->|Hne].
    + rewrite Ei. apply nth_error_nth with (d := 0%N) in Hn. rewrite Hn. apply nth_error_nth. apply nth_error_upd_eq. lia.
    + destruct (in_bin j x) eqn:Ej; [exfalso; apply Hne; eapply in_bin_unique; eauto|].
      rewrite N.add_0_r. assert (nth_error (upd c i (n + 1)%N) j = nth_error c j) as EE by (apply nth_error_upd_neq; auto). rewrite <- !nth_default_eq. unfold nth_default. now rewrite EE.
Qed.

Lemma latest_snoc {A} n (l : list A) x : 1 <= n ->
  latest n (l ++ [x]) = (if length (latest n l) =? n then tl (latest n l) else latest n l) ++ [x].
Proof.
  intros Hn. unfold latest. rewrite skipn_length, app_length. cbn [length].
  destruct (Nat.eqb_spec (length l - (length l - n)) n) as [E|E].
  - replace (length l + 1 - n) with (S (length l - n)) by lia. rewrite skipn_app.
    replace (S (length l - n) - length l) with 0 by lia. cbn [skipn]. f_equal.
    remember (length l - n) as k. assert (k < length l) as Hk by lia. clear - Hk. revert l Hk. induction k; intros [|a l] Hk; cbn in *; try lia; auto. rewrite <- IHk by lia. destruct l; auto.
  - replace (length l + 1 - n) with 0 by lia. replace (length l - n) with 0 by lia. reflexivity.
Qed.
Lemma queue_add_latest max l x : 1 <= max ->
  queue_add {| q_queue := latest max l; q_max := N.of_nat max |} x = {| q_queue := latest max (l ++ [x]); q_max := N.of_nat max |}.
Proof.
  intros H. unfold queue_add. cbn [q_queue q_max]. rewrite latest_snoc by auto. f_equal. f_equal.
  destruct (N.eqb_spec (N.of_nat max) (N.of_nat (length (latest max l)))) as [E|E]; destruct (Nat.eqb_spec (length (latest max l)) max); auto; lia.
Qed.
Lemma record_queue_latest max : 1 <= max -> forall xs l,
  record_all (HQueue {| q_queue := latest max l; q_max := N.of_nat max |}) xs =
  Ret (HQueue {| q_queue := latest max (l ++ List.filter measurable xs); q_max := N.of_nat max |}).
Proof.
  intros Hm. induction xs as [|x xs IH]; intros l; cbn [record_all List.filter].
  - now rewrite app_nil_r.
  - rewrite add_queue. cbn [obind]. destruct (measurable x).
    + rewrite queue_add_latest by auto. rewrite IH, <- app_assoc. reflexivity.
    + apply IH.
Qed.
Lemma record_queue q xs : (1 <= q_max q)%N -> (N.of_nat (length (q_queue q)) <= q_max q)%N ->
  record_all (HQueue q) xs =
  Ret (HQueue {| q_queue := latest (N.to_nat (q_max q)) (q_queue q ++ List.filter measurable xs); q_max := q_max q |}).
Proof.
  intros H1 H2. pose proof (record_queue_latest (N.to_nat (q_max q)) ltac:(lia) xs (q_queue q)) as H. rewrite N2Nat.id in H.
  rewrite <- H. unfold latest at 1. replace (length (q_queue q) - N.to_nat (q_max q)) with 0 by lia. cbn [skipn]. now destruct q.
Qed.
Lemma record_histogram : forall xs c, length c = 1000 ->
  exists c', record_all (HHistogram c) xs = Ret (HHistogram c') /\ length c' = 1000 /\
    forall i, nth i c' 0%N = (nth i c 0%N + hits i (List.filter measurable xs))%N.
Proof.
  induction xs as [|x xs IH]; intros c Hl; cbn [record_all].
  - exists c. split; auto. split; auto. intros. unfold hits. cbn. lia.
  - destruct (add_histogram c x Hl) as (c1 & -> & Hl1 & H1). cbn [obind]. destruct (IH c1 Hl1) as (c2 & -> & Hl2 & H2).
    exists c2. split; auto. split; auto. intros i. rewrite H2, H1. unfold hits. cbn [List.filter]. destruct (measurable x); cbn [andb List.filter]; [|lia].
    destruct (in_bin i x); cbn [length]; lia.
Qed.
(** nothing below the absolute gate is ever in a list history *)
Lemma storable_add q x : Forall storable (q_queue q) -> Forall storable (q_queue (if measurable x then queue_add q x else q)).
Proof.
  intros H. destruct (measurable x) eqn:E; auto. unfold queue_add. cbn [q_queue]. apply Forall_app. split; [|constructor; [now left|constructor]].
  destruct (q_max q =? _)%N; auto. destruct (q_queue q); auto. now inversion H.
Qed.
Definition all_storable (h : history) : Prop := match h with HQueue q => Forall storable (q_queue q) | HHistogram _ => True end.
Lemma storable_record : forall xs h h', record_all h xs = Ret h' -> all_storable h -> all_storable h'.
Proof.
  induction xs as [|x xs IH]; intros h h' H Hs; cbn [record_all] in H; [now inversion H; subst|].
  destruct h as [q|c].
  - rewrite add_queue in H. cbn [obind] in H. eapply IH; eauto. now apply storable_add.
  - destruct (history_add (HHistogram c) x) as [h1| | |] eqn:E; try discriminate H. cbn [obind] in H. eapply IH; eauto.
    unfold history_add in E. rewrite (idx_bnd 0) in E by lia. cbn [obind] in E. destruct (f64_lt x (bnd 0)); [inversion E; exact I|].
    destruct (histogram_add c x); cbn [obind] in E; inversion E; exact I.
Qed.
Lemma storable_reset h : all_storable (history_reset h). Proof. destruct h; cbn; auto. Qed.
Lemma storable_max h n : all_storable h -> all_storable (history_set_max_size h n).
Proof.
  destruct h as [q|c]; cbn; auto. intros H. destruct (_ <? n)%N; auto. apply Forall_app. split; auto.
  apply Forall_forall. intros x Hx. apply repeat_spec in Hx. now right.
Qed.
Lemma storable_new b n : all_storable (history_new b n). Proof. destruct b; cbn; auto. Qed.
