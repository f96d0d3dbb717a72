(** A concrete environment for the non-vacuity examples: it satisfies every
    contract the theorems ask of the external functions. *)
From Coq Require Import ZArith NArith List Bool Arith Lia Sorted Permutation.
From Flocq Require Import IEEE754.BinarySingleNaN.
From Verif Require Import Prelude Float Env Float_proofs Order_proofs.
Import ListNotations.

Fixpoint search (l : list N) (x : N) : nat :=
  match l with [] => 0 | a :: t => if (a <? x)%N then S (search t x) else 0 end.
Fixpoint insert (x : f64) (l : list f64) : list f64 :=
  match l with [] => [x] | a :: t => if cmp_le x a then x :: a :: t else a :: insert x t end.
Fixpoint isort (l : list f64) : list f64 :=
  match l with [] => [] | a :: t => insert a (isort t) end.

(** tan = 1/4 (a tame filter at every rate), log10 x piecewise linear between the powers of two, powf 10 (-1) = 0.1, powf 10 (-2) = 0.01 *)
Definition env0 : ext := {|
  e_tan := fun _ => f64_bin 1 (-2);
  e_sin := fun x => x;
  e_cos := fun _ => f64_zero;
  e_log10 := fun x => match x with
                      | B754_zero _ => f64_neg_inf
                      | B754_infinity false => f64_inf
                      | B754_finite false m e _ =>
                          f64_mul (f64_bin (Zpos m + (e + 51) * 2 ^ 52) (-52)) (f64_bin 5422837 (-24))
                      | _ => f64_nan
                      end;
  e_powf := fun _ y => if f64_lt y (f64_of_Z (-1)) then f64_bin 5764607523034235 (-59)
                       else if f64_le y (f64_of_Z (-1)) then f64_bin 7205759403792794 (-56)
                       else f64_one;
  e_bsearch := search;
  e_sort := fun l => (isort l, (2 <=? length l) && existsb f64_is_nan l);
|}.

Lemma env0_bsearch : bsearch_contract env0.
Proof.
  intros l x HS. cbn [env0 e_bsearch].
  assert (search l x <= length l) as Hle.
  { clear. induction l; simpl; auto. destruct (a <? x)%N; simpl; lia. }
  assert (forall y, In y (firstn (search l x) l) -> (y < x)%N) as H1.
  { clear. induction l; simpl; [tauto|]. intros y. destruct (N.ltb_spec a x); simpl; [|tauto].
    intros [->|Hy]; auto. }
  assert (forall y, In y (skipn (search l x) l) -> (x <= y)%N) as H2.
  { clear Hle H1. induction HS; simpl; [tauto|]. intros y. destruct (N.ltb_spec a x); simpl; auto.
    intros [->|Hy]; auto. rewrite Forall_forall in H. specialize (H y Hy). lia. }
  destruct (in_dec N.eq_dec x l) as [Hin|Hin].
  - left. rewrite <- (firstn_skipn (search l x) l) in Hin. apply in_app_or in Hin. destruct Hin as [Hin|Hin].
    { specialize (H1 x Hin). lia. }
    assert (search l x < length l) as Hlt.
    { destruct (Nat.lt_ge_cases (search l x) (length l)); auto. rewrite skipn_all2 in Hin by lia. destruct Hin. }
    clear H1 H2 Hle. revert Hin Hlt. induction HS; simpl; [lia|]. destruct (N.ltb_spec a x); simpl.
    + intros. apply IHHS; auto. lia.
    + intros [->|Hx] _; auto. rewrite Forall_forall in H. specialize (H x Hx). f_equal. lia.
  - right. repeat split; auto. intros y Hy. specialize (H2 y Hy).
    assert (y <> x); [|lia]. intros ->. apply Hin.
    rewrite <- (firstn_skipn (search l x) l). apply in_or_app. now right.
Qed.

Lemma insert_perm x l : Permutation (x :: l) (insert x l).
Proof.
  induction l; simpl; auto. destruct (cmp_le x a); auto.
  eapply perm_trans; [apply perm_swap|]. now constructor.
Qed.
Lemma insert_sorted x l : StronglySorted (fun a b => cmp_le a b = true) l ->
  StronglySorted (fun a b => cmp_le a b = true) (insert x l).
Proof.
  induction 1 as [|a l Hs IH Hf]; simpl.
  - repeat constructor.
  - destruct (cmp_le x a) eqn:E.
    + repeat constructor; auto. eapply Forall_impl; [|exact Hf]. intros b Hb. eapply cmp_le_trans; eauto.
    + constructor; auto. rewrite Forall_forall in *. intros b Hb.
      apply (Permutation_in _ (Permutation_sym (insert_perm x l))) in Hb. destruct Hb as [<-|Hb]; auto.
      now apply cmp_le_total.
Qed.
Lemma env0_sort : sort_contract env0.
Proof.
  intros l. cbn [env0 e_sort fst snd]. repeat split.
  - induction l; simpl; auto. eapply perm_trans; [|apply insert_perm]. now constructor.
  - induction l; simpl; [constructor|]. now apply insert_sorted.
  - apply andb_true_iff in H. destruct H as (H & _). now apply Nat.leb_le.
  - apply andb_true_iff in H. now destruct H.
  - intros (H1 & H2). rewrite H2, andb_true_r. now apply Nat.leb_le.
Qed.
