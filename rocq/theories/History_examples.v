(** Concrete histories for the non-vacuity examples. *)
From Coq Require Import List Arith NArith ZArith Bool Lia Reals Sorted Permutation.
From Flocq Require Import IEEE754.BinarySingleNaN.
From Verif Require Import Prelude Float Env Tables Utils History Filter Ebur128 Spec Spec_real Spec_history Instance Instance_history Examples
  Order_proofs Reach_proofs Stream_proofs Energy_proofs Gating_proofs Range_proofs Blocks_proofs Answers_proofs Value_proofs Report_proofs.
Import ListNotations.
Import Spec_history.

Definition is_add (o : op) : bool := match o with OpAdd _ => true | _ => false end.
Lemma noted_run P E : forall os e t b s rs e', noted P E e t b s -> Forall plain os -> forallb is_add os = true -> run P E e os = Ret (rs, e') ->
  exists t b s, noted P E e' t b s.
Proof.
  induction os as [|o os IH]; cbn [run forallb]; intros e t b s rs e' Hn Hp Ha.
  - intros [= _ <-]. eauto.
  - inversion_clear Hp. apply andb_true_iff in Ha. destruct Ha as (Ha & Hb). destruct (step P E e o) as [[r e1]| | |] eqn:Hs; cbn [obind]; try discriminate.
    destruct (run P E e1 os) as [[rs1 e2]| | |] eqn:Hr2; cbn [obind]; try discriminate.
    intros Heq. assert (e2 = e') as <- by (injection Heq; auto).
    eapply (IH e1); eauto. eapply (noted_step P E e t b s o); eauto using plain_admissible; destruct o; discriminate || (intros; discriminate).
Qed.
Lemma demo_noted P channels rate m os e : demo P channels rate m os = Ret e -> supported m rate -> Forall plain os -> forallb is_add os = true ->
  exists t b s, noted P env0 e t b s.
Proof.
  unfold demo. destruct (ebur128_new P env0 channels rate m) as [[e0|]| | |] eqn:Hn; try discriminate.
  destruct (run P env0 e0 os) as [[rs e1]| | |] eqn:Hr; cbn [obind]; try discriminate.
  intros Heq Hs Hp Ha. assert (e1 = e) as <- by (injection Heq; auto).
  eapply noted_run; [|eauto|eauto|eauto]. eapply noted_new; eauto.
Qed.
Definition sane (b : N * f64) : bool := measurable (snd b) && is_finite (snd b).
Definition is_nan_block (b : N * f64) : bool := f64_is_nan (snd b).

Definition list_check (e : ebur128) : bool :=
  (e_mode e =? 63)%N && (e_channels e =? 2) && (population (blocks e) =? 37)%N && (population (short_blocks e) =? 2)%N &&
  forallb sane (blocks e ++ short_blocks e) && is_finite (energy_sum (blocks e)).
Lemma list_demo : exists e t b s, noted x86_64 env0 e t b s /\ e_mode e = 63%N /\ population (blocks e) = 37%N /\ population (short_blocks e) = 2%N /\
  Forall (fun b => measurable (snd b) = true /\ is_finite (snd b) = true) (blocks e ++ short_blocks e) /\ is_finite (energy_sum (blocks e)) = true.
Proof.
  destruct (passes_spec demo_list list_check) as (e & H & C). { vm_cast_no_check (eq_refl true). }
  destruct (demo_noted _ _ _ _ _ _ H) as (t & b & s & HN); [apply supported_dec; reflexivity|repeat constructor|reflexivity|].
  exists e, t, b, s. split; auto. unfold list_check in C. rewrite !andb_true_iff, !N.eqb_eq, !Nat.eqb_eq in C. destruct C as (((((C1 & _) & C2) & C3) & C4) & C5).
  repeat split; auto. rewrite forallb_forall in C4. apply Forall_forall. intros x Hx. specialize (C4 x Hx). now apply andb_true_iff in C4.
Qed.
Definition hist_check (e : ebur128) : bool :=
  (e_mode e =? 127)%N && (e_channels e =? 2) && (population (blocks e) =? 37)%N && (population (short_blocks e) =? 2)%N.
Lemma hist_demo : exists e t b s, noted x86_64 env0 e t b s /\ e_mode e = 127%N /\ population (blocks e) = 37%N /\ population (short_blocks e) = 2%N.
Proof.
  destruct (passes_spec demo_hist hist_check) as (e & H & C). { vm_cast_no_check (eq_refl true). }
  destruct (demo_noted _ _ _ _ _ _ H) as (t & b & s & HN); [apply supported_dec; reflexivity|repeat constructor|reflexivity|].
  exists e, t, b, s. split; auto. unfold hist_check in C. rewrite !andb_true_iff, !N.eqb_eq, !Nat.eqb_eq in C. tauto.
Qed.
Definition nan_check (e : ebur128) : bool :=
  (e_mode e =? 63)%N && existsb is_nan_block (blocks e) && existsb is_nan_block (short_blocks e) && (population (blocks e) =? 37)%N.
Lemma nan_demo : exists e, reachable x86_64 env0 e /\ e_mode e = 63%N /\ Exists (fun b => f64_is_nan (snd b) = true) (blocks e) /\
  Exists (fun b => f64_is_nan (snd b) = true) (short_blocks e) /\ population (blocks e) = 37%N.
Proof.
  destruct (passes_spec (demo x86_64 2 20 63%N [OpAdd (AI16 (wave 20)); OpAdd (AF64 (f64_nan :: map f64_of_Z (tl (wave 20))))]) nan_check) as (e & H & C).
  { vm_cast_no_check (eq_refl true). }
  apply demo_reachable in H; [|apply supported_dec; reflexivity|repeat constructor]. exists e. split; auto. unfold nan_check in C.
  rewrite !andb_true_iff, !N.eqb_eq in C. destruct C as (((C1 & C2) & C3) & C4). repeat split; auto.
  - apply existsb_exists in C2. apply Exists_exists. exact C2.
  - apply existsb_exists in C3. apply Exists_exists. exact C3.
Qed.
(** set_max_history on a new analyzer and on one with 37 blocks *)
Definition answers_value (o : outcome answer) (p : f64 -> bool) : bool := match o with Ret (AValue (Ok v)) => p v | _ => false end.
Definition answers_count (o : outcome answer) (p : N -> f64 -> bool) : bool := match o with Ret (ACount (Some (n, x))) => p n x | _ => false end.
Definition phantom_check (e : ebur128) : bool :=
  (population (blocks e) =? 30)%N && (population (short_blocks e) =? 1)%N && answers_count (ask x86_64 env0 e QCount) (fun n x => (n =? 30)%N && f64_le x f64_zero) &&
  answers_value (ask x86_64 env0 e QRange) f64_is_nan.
Lemma run_snoc P E o : forall os e rs e', run P E e (os ++ [o]) = Ret (rs, e') -> exists rs' f r, run P E e os = Ret (rs', f) /\ step P E f o = Ret (r, e').
Proof.
  induction os as [|o' os IH]; cbn [run app]; intros e rs e' H.
  - destruct (step P E e o) as [[r f]| | |] eqn:Hs; try discriminate H. cbn [obind] in H. exists [], e, r. split; auto. assert (f = e') as -> by congruence. auto.
  - destruct (step P E e o') as [[r f]| | |] eqn:Hs; try discriminate H. cbn [obind] in *.
    destruct (run P E f (os ++ [o])) as [[rs1 f']| | |] eqn:Hr; try discriminate H. cbn [obind] in H. assert (f' = e') as -> by congruence.
    destruct (IH _ _ _ Hr) as (rs' & g & r' & H1 & H2). exists (r :: rs'), g, r'. rewrite H1. auto.
Qed.
Lemma demo_snoc P channels rate m os o e' : demo P channels rate m (os ++ [o]) = Ret e' ->
  exists e r, demo P channels rate m os = Ret e /\ step P env0 e o = Ret (r, e').
Proof.
  unfold demo. destruct (ebur128_new P env0 channels rate m) as [[e0|]| | |]; try discriminate. intros H.
  destruct (run P env0 e0 (os ++ [o])) as [[rs f]| | |] eqn:Hr; try discriminate H. cbn [obind] in H. assert (f = e') as -> by congruence.
  destruct (run_snoc _ _ _ _ _ _ _ Hr) as (rs' & g & r & H1 & H2). exists g, r. rewrite H1. auto.
Qed.
Lemma demo_nil P channels rate m e : demo P channels rate m [] = Ret e -> ebur128_new P env0 channels rate m = Ret (Ok e).
Proof. unfold demo. destruct (ebur128_new P env0 channels rate m) as [[e0|]| | |]; try discriminate. cbn [run obind]. congruence. Qed.
Lemma passes_use o check e : passes o check = true -> o = Ret e -> check e = true.
Proof. intros H ->. exact H. Qed.
Definition empty_check (e : ebur128) : bool := (population (blocks e) =? 0)%N.
Lemma phantom_demo : exists e r e', ebur128_new x86_64 env0 2 20 63%N = Ret (Ok e) /\ step x86_64 env0 e (OpSetMaxHistory 3000) = Ret (r, e') /\
  population (blocks e) = 0%N /\ population (blocks e') = 30%N /\ (exists x, ask x86_64 env0 e' QCount = Ret (ACount (Some (30%N, x)))) /\
  (exists v, ask x86_64 env0 e' QRange = Ret (AValue (Ok v)) /\ f64_is_nan v = true).
Proof.
  assert (passes (demo x86_64 2 20 63%N [OpSetMaxHistory 3000]) phantom_check = true) as C by (vm_cast_no_check (eq_refl true)).
  assert (passes (demo x86_64 2 20 63%N []) empty_check = true) as C' by (vm_cast_no_check (eq_refl true)).
  apply passes_spec in C. destruct C as (e' & H & C). destruct (demo_snoc _ _ _ _ [] _ _ H) as (e & r & H1 & H2).
  pose proof (passes_use _ _ _ C' H1) as C1. apply demo_nil in H1. exists e, r, e'. clear H C'.
  unfold phantom_check in C. rewrite !andb_true_iff, !N.eqb_eq in C. destruct C as (((C3 & C2) & C4) & C5). apply N.eqb_eq in C1. repeat split; auto.
  - destruct (ask x86_64 env0 e' QCount) as [[|[(n, x)|]]| | |]; try discriminate C4. cbn [answers_count] in C4. apply andb_true_iff in C4. destruct C4 as (C4 & _).
    apply N.eqb_eq in C4. subst n. eauto.
  - destruct (ask x86_64 env0 e' QRange) as [[[v|]|]| | |]; try discriminate C5. eauto.
Qed.
Definition kept_check (e : ebur128) : bool := (e_history e =? 3000)%N && (population (blocks e) =? 37)%N.
Definition grown_check (e : ebur128) : bool := (population (blocks e) =? 47)%N.
Lemma shrunk_demo : exists e r e' r' f, reachable x86_64 env0 e /\ ~ has_HISTOGRAM (e_mode e) /\ population (blocks e) = 37%N /\
  step x86_64 env0 e (OpSetMaxHistory 3000) = Ret (r, e') /\ e_history e' = 3000%N /\ population (blocks e') = 37%N /\
  step x86_64 env0 e' (OpAdd (AI16 (wave 10))) = Ret (r', f) /\ population (blocks f) = 47%N.
Proof.
  assert (passes demo_list list_check = true) as C by (vm_cast_no_check (eq_refl true)).
  assert (passes (demo x86_64 2 20 63%N ([OpAdd (AI16 (wave 40))] ++ [OpSetMaxHistory 3000])) kept_check = true) as C' by (vm_cast_no_check (eq_refl true)).
  assert (passes (demo x86_64 2 20 63%N (([OpAdd (AI16 (wave 40))] ++ [OpSetMaxHistory 3000]) ++ [OpAdd (AI16 (wave 10))])) grown_check = true) as C'' by (vm_cast_no_check (eq_refl true)).
  apply passes_spec in C''. destruct C'' as (f & H & C''). apply demo_snoc in H. destruct H as (e' & r' & H & S2). pose proof (passes_use _ _ _ C' H) as C1.
  apply demo_snoc in H. destruct H as (e & r & H & S1). pose proof (passes_use _ _ _ C H) as C0. clear C C'.
  apply demo_reachable in H; [|apply supported_dec; reflexivity|repeat constructor].
  exists e, r, e', r', f. unfold list_check, kept_check, grown_check in *. rewrite !andb_true_iff, !N.eqb_eq in *. destruct C0 as (((((E1 & _) & E2) & _) & _) & _).
  split; [exact H|]. split; [rewrite E1; discriminate|]. tauto.
Qed.
Lemma ordered_demo : exists e m, reachable x86_64 env0 e /\ has_LRA (e_mode e) /\ ~ has_HISTOGRAM (e_mode e) /\
  Permutation (short_blocks e) (singly m) /\ ascending m /\ Forall (fun x => f64_is_nan x = false) m /\ length m = 2.
Proof.
  destruct list_demo as (e & t & b & s & HN & HM & _ & H2 & HF & _). destruct (noted_holds x86_64 env0 e t b s eq_refl HN) as (HT & _). apply taped_reachable in HT.
  assert (~ has_HISTOGRAM (e_mode e)) as Hh by (rewrite HM; discriminate).
  destruct (ordered_blocks x86_64 env0 e eq_refl env0_sort HT Hh) as (l & m & E1 & E2 & Hp & Ha). exists e, m. split; auto.
  assert (Forall (fun x => f64_is_nan x = false) l) as Hn.
  { apply Forall_app in HF. destruct HF as (_ & HF). rewrite E1 in HF. unfold singly in HF. rewrite Forall_map in HF. eapply Forall_impl; [|exact HF].
    intros x (_ & F). destruct x; discriminate || reflexivity. }
  split; [rewrite HM; repeat split|]. split; auto. split; [rewrite E1; now apply Permutation_map|]. split; auto. split.
  - eapply Permutation_Forall; eauto.
  - rewrite <- (Permutation_length Hp). lia.
Qed.
Lemma merge_demo : exists e f, reachable x86_64 env0 e /\ reachable x86_64 env0 f /\ has_LRA (e_mode e) /\ has_LRA (e_mode f) /\
  ~ has_HISTOGRAM (e_mode e) /\ has_HISTOGRAM (e_mode f) /\ population (short_blocks e) = 2%N /\ population (short_blocks f) = 2%N /\
  (exists h, merges (map e_short [e; e]) h /\ population (contents h) = 4%N) /\ (exists c, merges (map e_short [f; f]) (HHistogram c)).
Proof.
  destruct list_demo as (e & t & b & s & HN & HM & _ & H2 & _). destruct hist_demo as (f & u & c & d & HN' & HM' & _ & H3).
  destruct (noted_holds x86_64 env0 e t b s eq_refl HN) as (HT & _). destruct (noted_holds x86_64 env0 f u c d eq_refl HN') as (HT' & _).
  apply taped_reachable in HT, HT'. exists e, f. assert (~ has_HISTOGRAM (e_mode e)) as Hh by (rewrite HM; discriminate). assert (has_HISTOGRAM (e_mode f)) as Hh' by (rewrite HM'; reflexivity).
  destruct (is_list x86_64 env0 e eq_refl HT Hh) as (q & q' & _ & Eq & _ & _ & _ & ES). destruct (is_histogram x86_64 env0 f eq_refl HT' Hh') as (k & k' & _ & Ek & _ & Lk).
  split; auto. split; auto. split; [rewrite HM; repeat split|]. split; [rewrite HM'; repeat split|]. repeat split; auto.
  - exists (HQueue {| q_queue := q_queue q' ++ q_queue q'; q_max := 0 |}). split.
    + cbn [merges map]. exists [q'; q']. rewrite Eq. cbn [map concat]. rewrite app_nil_r. split; auto.
    + cbn [contents q_queue]. rewrite ES in H2. unfold singly in H2. rewrite map_app, population_app, H2. reflexivity.
  - cbn [map]. rewrite Ek. destruct (merges_kind true [HHistogram k'; HHistogram k']) as ([h|h] & Hm & Hk); [repeat constructor; auto|discriminate Hk|]. exists h. exact Hm.
Qed.
