(** Facts about checked list access. *)
From Coq Require Import List Arith NArith ZArith Lia Bool.
From Verif Require Import Prelude.
Import ListNotations.

Ltac Zify.zify_post_hook ::= Z.div_mod_to_equations.

Lemma idx_Ret {A} (l : list A) i a : nth_error l i = Some a -> idx l i = Ret a.
Proof. unfold idx; intros ->; reflexivity. Qed.

Lemma idx_inv {A} (l : list A) i a : idx l i = Ret a -> nth_error l i = Some a.
Proof. unfold idx; destruct (nth_error l i); congruence. Qed.

Lemma idx_lt {A} (l : list A) i : i < length l -> exists a, idx l i = Ret a /\ nth_error l i = Some a.
Proof.
  intros H. apply nth_error_Some in H. unfold idx.
  destruct (nth_error l i) eqn:E; [eauto | congruence].
Qed.

Lemma upd_length {A} (l : list A) i v : length (upd l i v) = length l.
Proof. revert i; induction l; destruct i; simpl; auto. Qed.

Lemma nth_error_upd_eq {A} (l : list A) i v : i < length l -> nth_error (upd l i v) i = Some v.
Proof. revert i; induction l; destruct i; simpl; intros; try lia; auto. apply IHl; lia. Qed.

Lemma nth_error_upd_neq {A} (l : list A) i j v : i <> j -> nth_error (upd l i v) j = nth_error l j.
Proof. revert i j; induction l; destruct i, j; simpl; intros; try congruence; auto. Qed.

Lemma upd_app_mid {A} (l1 l2 : list A) a v : upd (l1 ++ a :: l2) (length l1) v = l1 ++ v :: l2.
Proof. induction l1; simpl; congruence. Qed.

Lemma nth_error_ext {A} (l m : list A) :
  (forall i, nth_error l i = nth_error m i) -> l = m.
Proof.
  revert m; induction l; destruct m; intros H; auto.
  - specialize (H 0); discriminate.
  - specialize (H 0); discriminate.
  - f_equal. { specialize (H 0); simpl in H; congruence. }
    apply IHl. intros i. apply (H (S i)).
Qed.

Lemma nth_error_nth' {A} (l : list A) i d : i < length l -> nth_error l i = Some (nth i l d).
Proof. revert i; induction l; destruct i; simpl; intros; try lia; auto. apply IHl; lia. Qed.

Lemma list_eq_nth {A} (l m : list A) d :
  length l = length m -> (forall i, i < length l -> nth i l d = nth i m d) -> l = m.
Proof. intros; apply nth_ext with d d; auto. Qed.

Lemma nth_error_skipn {A} (l : list A) n i : nth_error (skipn n l) i = nth_error l (n + i).
Proof. revert l; induction n; intros; simpl; auto. destruct l; simpl; auto. destruct i; auto. Qed.

Lemma nth_error_firstn {A} (l : list A) n i :
  nth_error (firstn n l) i = if i <? n then nth_error l i else None.
Proof.
  revert l i; induction n; intros; simpl.
  - destruct i; reflexivity.
  - destruct l; simpl. { destruct i; simpl; [|destruct (_ <? _)]; reflexivity. }
    destruct i; simpl; auto. rewrite IHn. reflexivity.
Qed.

Lemma nth_skipn' {A} (l : list A) n i d : nth i (skipn n l) d = nth (n + i) l d.
Proof. revert l; induction n; intros; simpl; auto. destruct l; simpl; auto. destruct i; auto. Qed.

Lemma nth_firstn' {A} (l : list A) n i d : i < n -> nth i (firstn n l) d = nth i l d.
Proof.
  revert l i; induction n; intros; simpl; try lia. destruct l; auto.
  destruct i; simpl; auto. apply IHn; lia.
Qed.

Lemma skipn_skipn' {A} (l : list A) a b : skipn a (skipn b l) = skipn (b + a) l.
Proof. revert l; induction b; intros; simpl; auto. destruct l; auto. now rewrite skipn_nil. Qed.

(** chunks *)
Lemma chunks_fuel_concat {A} n (fs : list (list A)) fuel :
  0 < n -> Forall (fun f => length f = n) fs -> length fs <= fuel ->
  chunks_fuel fuel n (concat fs) = fs.
Proof.
  intros Hn Hf. revert fuel. induction Hf as [|f fs Hf Hfs IH]; intros fuel Hfu.
  - destruct fuel; simpl; auto. destruct n; [lia|reflexivity].
  - destruct fuel; simpl in *; [lia|].
    rewrite app_length, Hf.
    destruct (Nat.leb_spec n (n + length (concat fs))); [|lia].
    rewrite firstn_app, Hf, Nat.sub_diag, firstn_O, app_nil_r, firstn_all2 by lia.
    rewrite skipn_app, Hf, Nat.sub_diag, skipn_O, skipn_all2 by lia. simpl.
    f_equal. apply IH; lia.
Qed.

Lemma concat_length_const {A} n (fs : list (list A)) :
  Forall (fun f => length f = n) fs -> length (concat fs) = length fs * n.
Proof. induction 1; simpl; auto. rewrite app_length; lia. Qed.

Lemma chunks_concat {A} n (fs : list (list A)) :
  0 < n -> Forall (fun f => length f = n) fs -> chunks n (concat fs) = fs.
Proof.
  intros Hn Hf. unfold chunks. apply chunks_fuel_concat; auto.
  rewrite (concat_length_const n) by auto. nia.
Qed.

Lemma chunks_fuel_split {A} n (l : list A) k fuel :
  0 < n -> length l = k * n -> k <= fuel ->
  concat (chunks_fuel fuel n l) = l /\
  Forall (fun f => length f = n) (chunks_fuel fuel n l) /\
  length (chunks_fuel fuel n l) = k.
Proof.
  intros Hn. revert l k. induction fuel; intros l k Hl Hk; simpl.
  - assert (k = 0) by lia; subst. destruct l; simpl in *; try lia. auto.
  - destruct (Nat.leb_spec n (length l)).
    + destruct k; [simpl in Hl; lia|].
      destruct (IHfuel (skipn n l) k) as (H1 & H2 & H3); [rewrite skipn_length; simpl in Hl; lia|lia|].
      repeat split.
      * simpl. rewrite H1. apply firstn_skipn.
      * constructor; auto. rewrite firstn_length; lia.
      * simpl; lia.
    + destruct k; [|simpl in Hl; lia]. destruct l; simpl in *; try lia. auto.
Qed.

Lemma chunks_split {A} n (l : list A) k :
  0 < n -> length l = k * n ->
  concat (chunks n l) = l /\ Forall (fun f => length f = n) (chunks n l) /\ length (chunks n l) = k.
Proof. intros; apply chunks_fuel_split; auto. nia. Qed.

Lemma omap_Ret {A B} (f : A -> outcome B) (g : A -> B) l :
  (forall a, In a l -> f a = Ret (g a)) -> omap f l = Ret (map g l).
Proof.
  induction l; simpl; intros H; auto.
  rewrite H by auto. simpl. rewrite IHl by auto. reflexivity.
Qed.

Lemma omap_Forall2 {A B} (f : A -> outcome B) l m :
  Forall2 (fun a b => f a = Ret b) l m -> omap f l = Ret m.
Proof. induction 1; simpl; auto. rewrite H; simpl. rewrite IHForall2. reflexivity. Qed.

Lemma omap_inv {A B} (f : A -> outcome B) l m :
  omap f l = Ret m -> Forall2 (fun a b => f a = Ret b) l m.
Proof.
  revert m; induction l; simpl; intros m H. { inversion H; constructor. }
  destruct (f a) eqn:E; simpl in H; try discriminate.
  destruct (omap f l) eqn:E2; simpl in H; try discriminate.
  inversion H; subst. constructor; auto.
Qed.

Lemma ofold_app {A S} (f : S -> A -> outcome S) l1 l2 s :
  ofold f s (l1 ++ l2) = obind (ofold f s l1) (fun s => ofold f s l2).
Proof.
  revert s; induction l1; intros; simpl; auto.
  destruct (f s a); simpl; auto.
Qed.

Lemma map2_length {A B C} (f : A -> B -> C) l m :
  length (map2 f l m) = Nat.min (length l) (length m).
Proof. revert m; induction l; destruct m; simpl; auto. Qed.

Lemma map2_map {A B C} (f : A -> B -> C) l m :
  map2 f l m = map (fun '(a, b) => f a b) (combine l m).
Proof. revert m; induction l; destruct m; simpl; auto. f_equal; auto. Qed.

Lemma nth_error_map2 {A B C} (f : A -> B -> C) l m i :
  nth_error (map2 f l m) i =
  match nth_error l i, nth_error m i with Some a, Some b => Some (f a b) | _, _ => None end.
Proof.
  revert m i; induction l; destruct m, i; simpl; auto.
  destruct (nth_error l i); auto.
Qed.

Lemma slice_Ret {A} (l : list A) a b : a <= b -> b <= length l ->
  slice l a b = Ret (firstn (b - a) (skipn a l)).
Proof.
  intros. unfold slice.
  destruct (Nat.leb_spec a b); try lia. destruct (Nat.leb_spec b (length l)); try lia. reflexivity.
Qed.

Lemma slice_from_Ret {A} (l : list A) a : a <= length l -> slice_from l a = Ret (skipn a l).
Proof. intros. unfold slice_from. destruct (Nat.leb_spec a (length l)); try lia. reflexivity. Qed.

Lemma sub_usize_Ret a b : b <= a -> sub_usize a b = Ret (a - b).
Proof. intros. unfold sub_usize. destruct (Nat.leb_spec b a); try lia. reflexivity. Qed.

Lemma set_idx_Ret {A} (l : list A) i v : i < length l -> set_idx l i v = Ret (upd l i v).
Proof. intros. unfold set_idx. destruct (Nat.ltb_spec i (length l)); try lia. reflexivity. Qed.

Lemma set_unchecked_Ret {A} (l : list A) i v : i < length l -> set_unchecked l i v = Ret (upd l i v).
Proof. intros. unfold set_unchecked. destruct (Nat.ltb_spec i (length l)); try lia. reflexivity. Qed.

Lemma assert_Ret {A} b (k : outcome A) : b = true -> assert_ b k = k.
Proof. intros ->; reflexivity. Qed.

Lemma Forall2_nth_error {A B} (R : A -> B -> Prop) l m :
  length l = length m ->
  (forall i a b, nth_error l i = Some a -> nth_error m i = Some b -> R a b) -> Forall2 R l m.
Proof.
  revert m; induction l; destruct m; simpl; intros HL H; try discriminate; constructor.
  - apply (H 0); reflexivity.
  - apply IHl; [lia|]. intros i. apply (H (S i)).
Qed.

Lemma Forall_nth_error {A} (R : A -> Prop) l :
  Forall R l <-> forall i a, nth_error l i = Some a -> R a.
Proof.
  split.
  - intros H i a Hn. apply nth_error_In in Hn. rewrite Forall_forall in H. auto.
  - intros H. apply Forall_forall. intros a Ha. apply In_nth_error in Ha. destruct Ha; eauto.
Qed.

Lemma map_const_repeat {A B} (b : B) (l : list A) : map (fun _ => b) l = repeat b (length l).
Proof. induction l; simpl; congruence. Qed.
