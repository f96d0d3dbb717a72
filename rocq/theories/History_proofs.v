(** Facts about src/history.rs: bins, histories, gates, percentiles. *)
From Coq Require Import List Arith NArith ZArith Bool Lia Permutation Sorted.
From Verif Require Import Prelude Float Env Tables Utils History
  Prelude_proofs Utils_proofs.
Import ListNotations.

(** * Table shape *)
Lemma BOUNDARIES_length : length BOUNDARIES = 1001.
Proof. unfold BOUNDARIES. rewrite map_length. vm_compute. reflexivity. Qed.
Lemma ENERGIES_length : length ENERGIES = 1000.
Proof. unfold ENERGIES. rewrite map_length. vm_compute. reflexivity. Qed.

(** [bnd i] and [cen i] are BOUNDARIES[i] and ENERGIES[i]. *)
Definition bnd (i : nat) : f64 := nth i BOUNDARIES f64_zero.
Definition cen (i : nat) : f64 := nth i ENERGIES f64_zero.

Lemma idx_bnd i : i <= 1000 -> idx BOUNDARIES i = Ret (bnd i).
Proof. intros. apply idx_Ret. apply nth_error_nth'. rewrite BOUNDARIES_length. lia. Qed.
Lemma idx_cen i : i < 1000 -> idx ENERGIES i = Ret (cen i).
Proof. intros. apply idx_Ret. apply nth_error_nth'. rewrite ENERGIES_length. lia. Qed.

(** * Binary search for the bin *)
Lemma find_loop_ok energy : forall fuel min max,
  min + 2 <= max -> max <= 1000 -> max - min <= fuel + 1 ->
  exists i, find_loop fuel energy min max = Ret i /\ min <= i < max /\
    (i = min \/ f64_ge energy (bnd i) = true) /\
    (i + 1 = max \/ f64_ge energy (bnd (i + 1)) = false).
Proof.
  induction fuel as [|fuel IH]; intros min max H2 Hm Hf; [lia|].
  cbn [find_loop]. set (mid := (min + max) / 2).
  assert (min < mid < max) as Hmid.
  { unfold mid. pose proof (Nat.div_mod (min + max) 2 ltac:(lia)).
    pose proof (Nat.mod_upper_bound (min + max) 2 ltac:(lia)). lia. }
  rewrite (idx_bnd mid) by lia. cbn [obind].
  destruct (f64_ge energy (bnd mid)) eqn:E; rewrite sub_usize_Ret by lia; cbn [obind].
  - destruct (Nat.eqb_spec (max - mid) 1) as [H1|H1].
    + exists mid. repeat split; try lia; auto.
    + destruct (IH mid max) as (i & -> & Hi & Ha & Hb); try lia.
      exists i. split; auto. split; [lia|]. split; auto. destruct Ha; subst; auto.
  - destruct (Nat.eqb_spec (mid - min) 1) as [H1|H1].
    + exists min. repeat split; try lia; auto. right. now replace (min + 1) with mid by lia.
    + destruct (IH min mid) as (i & -> & Hi & Ha & Hb); try lia.
      exists i. split; auto. split; [lia|]. split; auto. destruct Hb as [Hb|Hb]; auto. right. now rewrite Hb.
Qed.

Lemma find_histogram_index_ok energy :
  exists i, find_histogram_index energy = Ret i /\ i < 1000 /\
    (i = 0 \/ f64_ge energy (bnd i) = true) /\
    (i = 999 \/ f64_ge energy (bnd (i + 1)) = false).
Proof.
  unfold find_histogram_index.
  destruct (find_loop_ok energy 1000 0 1000) as (i & -> & H1 & H2 & H3); try lia.
  exists i. repeat split; try tauto; try lia. destruct H3; [left; lia | auto].
Qed.

(** * Histories *)
Definition hist_ok (hg : bool) (h : history) : Prop :=
  match h with
  | HHistogram c => hg = true /\ length c = 1000
  | HQueue q => hg = false
  end.

Lemma histogram_add_ok h energy : length h = 1000 ->
  exists i c, histogram_add h energy = Ret (upd h i (c + 1)%N) /\ find_histogram_index energy = Ret i /\
    i < 1000 /\ nth_error h i = Some c.
Proof.
  intros Hl. unfold histogram_add.
  destruct (find_histogram_index_ok energy) as (i & -> & Hi & _). cbn [obind].
  destruct (idx_lt h i) as (c & -> & Hc); [lia|]. cbn [obind].
  rewrite set_idx_Ret by lia. eauto 10.
Qed.

Lemma history_add_ok hg h energy : hist_ok hg h ->
  exists h', history_add h energy = Ret h' /\ hist_ok hg h'.
Proof.
  intros Hok. unfold history_add. rewrite (idx_bnd 0) by lia. cbn [obind].
  destruct (f64_lt energy (bnd 0)); [eauto|]. destruct h as [q|c]; simpl in Hok.
  - eauto.
  - destruct Hok as (Hg & Hl). destruct (histogram_add_ok c energy Hl) as (i & n & -> & _).
    cbn [obind]. eexists. split; [reflexivity|]. split; auto. now rewrite upd_length.
Qed.

Lemma history_new_ok hg max : hist_ok hg (history_new hg max).
Proof. destruct hg; [split; [reflexivity | apply repeat_length] | reflexivity]. Qed.
Lemma history_reset_ok hg h : hist_ok hg h -> hist_ok hg (history_reset h).
Proof. destruct h; simpl; auto. unfold histogram_reset. now rewrite map_length. Qed.
Lemma history_set_max_ok hg h n : hist_ok hg h -> hist_ok hg (history_set_max_size h n).
Proof. destruct h; simpl; auto. Qed.

(** [hist_add h x]: the history after offering [x] (total). *)
Definition hist_add (h : history) (x : f64) : history :=
  match history_add h x with Ret h' => h' | _ => h end.
Lemma hist_add_eq hg h x : hist_ok hg h -> history_add h x = Ret (hist_add h x).
Proof. intros H. unfold hist_add. destruct (history_add_ok hg h x H) as (h' & -> & _). reflexivity. Qed.
Lemma hist_add_ok hg h x : hist_ok hg h -> hist_ok hg (hist_add h x).
Proof. intros H. unfold hist_add. destruct (history_add_ok hg h x H) as (h' & -> & H'). exact H'. Qed.
