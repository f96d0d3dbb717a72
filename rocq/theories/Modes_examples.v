(** Cases the theorems about different modes apply to. *)
From Coq Require Import List Arith NArith ZArith Bool Lia Reals Lra Sorted Permutation.
From Flocq Require Import Core.Core IEEE754.BinarySingleNaN.
From Verif Require Import Prelude Float Env Tables Utils History Filter Ebur128 Spec Spec_real Spec_history Spec_accuracy Spec_modes Instance Instance_history Instance_accuracy
  Examples Ebur128_proofs Float_proofs Gating_proofs Gate_proofs Pass_proofs Value_proofs Report_proofs Answers_proofs History_examples Lufs_proofs Programme_proofs Accuracy_examples Modes_proofs Twin_proofs.
Import ListNotations.
Import Spec_history.
Local Open Scope R_scope.

Lemma plain_all P E : forall os e, Forall plain os -> all_admissible P E e os.
Proof. induction os as [|o os IH]; intros e H; cbn [all_admissible]; auto. inversion_clear H. split; [now apply plain_admissible|auto]. Qed.
Lemma run_same P : forall os e, run P env1 e os = run P env0 e os.
Proof.
  induction os as [|o os IH]; intros e; cbn [run]; auto. rewrite step_same. destruct (step P env0 e o) as [[r e']| | |]; auto. cbn [obind]. now rewrite IH.
Qed.
Lemma demo_run P channels rate m os e : demo P channels rate m os = Ret e -> exists e0 rs, ebur128_new P env0 channels rate m = Ret (Ok e0) /\ run P env0 e0 os = Ret (rs, e).
Proof.
  unfold demo. destruct (ebur128_new P env0 channels rate m) as [[e0|]| | |] eqn:Hn; try discriminate. destruct (run P env0 e0 os) as [[rs e1]| | |] eqn:Hr; cbn [obind]; try discriminate.
  intros H. apply Ret_inj in H. subst e1. eauto.
Qed.

(** all measurements; gated loudness and true peak only; both hear the same *)
Definition mixed_calls : list op :=
  [OpSetChannel 1 LeftSurround; OpAdd (AI16 (wave 10)); OpSetMaxWindow 3400; OpAdd (AI16 (wave 15)); OpReset; OpAdd (AI16 (wave 20))].
Lemma mixed_plain : Forall plain mixed_calls.
Proof. repeat constructor; cbn; lia. Qed.
Lemma modes_case : exists e f rs e', ebur128_new x86_64 env0 2 20 63%N = Ret (Ok e) /\ ebur128_new x86_64 env0 2 20 55%N = Ret (Ok f) /\
  all_admissible x86_64 env0 e mixed_calls /\ all_admissible x86_64 env0 f mixed_calls /\ run x86_64 env0 e mixed_calls = Ret (rs, e') /\
  population (blocks e') = 17%N /\ both_measure 63%N 55%N QGlobal /\ both_measure 63%N 55%N (QTruePeak 1) /\ ~ measures 55%N QRange.
Proof.
  destruct (passes_spec (demo x86_64 2 20 63%N mixed_calls) (fun e => (population (blocks e) =? 17)%N)) as (e' & H & C). { vm_cast_no_check (eq_refl true). }
  destruct (passes_spec (demo x86_64 2 20 55%N mixed_calls) (fun e => true)) as (f' & H' & _). { vm_cast_no_check (eq_refl true). }
  destruct (demo_run _ _ _ _ _ _ H) as (e & rs & A & B). destruct (demo_run _ _ _ _ _ _ H') as (f & rs' & A' & B').
  exists e, f, rs, e'. split; auto. split; auto. split; [apply plain_all, mixed_plain|]. split; [apply plain_all, mixed_plain|]. split; auto. split; [now apply N.eqb_eq|].
  split; [repeat split|]. split; [repeat split|]. intros X. discriminate X.
Qed.

(** loud, then quiet, in a list and in a histogram *)
Definition gates_calls : list op := [OpAdd (AI16 (wave 60)); OpAdd (AI16 (map (fun z => (z / 256)%Z) (wave 40)))].
Definition twin_check (e : ebur128) : bool := gates_check e && forallb (fun b => f64_le (snd b) (bound 1000)) (blocks e ++ short_blocks e).
Lemma clear_farther d t t' l g : t + t' < 5 / 10 -> positive g -> Rabs (lufs (real g) - (lufs (exact_mean l) - d)) <= t' ->
  (forall b, In b l -> is_finite (snd b) = true) -> forallb (far g) l = true -> clear_of_gate d t l.
Proof.
  intros Ht Hg B AF H n x Hin _ Px. rewrite forallb_forall in H. specialize (H _ Hin). pose proof (far_apart g x Hg (AF _ Hin) Px H) as D.
  unfold Rabs in *. repeat destruct (Rcase_abs _); lra.
Qed.
Lemma tolerance_smaller n : (n <= 2000)%nat -> tolerance n < 1 / 1000.
Proof. intros H. eapply Rle_lt_trans; [apply (tolerance_mono n 2000 H)|]. destruct few_bins as (_ & B). eapply Rle_lt_trans; [exact B|]. lra. Qed.
Lemma twin_case : exists e f, list_and_histogram x86_64 env1 e f /\
  has_I (e_mode e) /\ has_I (e_mode f) /\ has_LRA (e_mode e) /\ has_LRA (e_mode f) /\ ordinary (blocks e) /\ ordinary (short_blocks e) /\
  population (blocks e) = 97%N /\ population (short_blocks e) = 8%N /\
  clear_of_gate 10 (1 / 10 + / 10 ^ 7 + tolerance (programme_effort [blocks e])) (blocks e) /\
  clear_of_gate 20 (1 / 10 + / 10 ^ 7 + tolerance (range_effort (short_blocks e))) (short_blocks e).
Proof.
  destruct (passes_spec (demo x86_64 2 20 63%N gates_calls) twin_check) as (e & H & C0). { vm_cast_no_check (eq_refl true). }
  destruct (passes_spec (demo x86_64 2 20 127%N gates_calls) (fun e => (e_mode e =? 127)%N)) as (f & H' & HM'). { vm_cast_no_check (eq_refl true). }
  assert (Forall plain gates_calls) as Hpl by repeat constructor. assert (supported 63%N 20%N /\ supported 127%N 20%N) as (S1 & S2) by (split; apply supported_dec; reflexivity).
  assert (reachable x86_64 env1 e) as Hr by (apply reachable_same; eapply demo_reachable; eauto).
  destruct (demo_run _ _ _ _ _ _ H) as (e0 & rs & A & B). destruct (demo_run _ _ _ _ _ _ H') as (f0 & rs' & A' & B').
  exists e, f. unfold twin_check in C0. apply andb_true_iff in C0. destruct C0 as (C & HO). apply N.eqb_eq in HM'.
  assert (list_and_histogram x86_64 env1 e f) as HT.
  { exists 2%N, 20%N, 63%N, 127%N, e0, f0, gates_calls, rs, rs'. rewrite !new_same, !run_same. split; auto. split; auto. split; auto. split; auto.
    split; auto. split; [discriminate|]. split; [reflexivity|]. split; [intros h [X|[X|[]]]; discriminate X|]. split; [now apply plain_all|]. split; [now apply plain_all|]. auto. }
  unfold gates_check in C. set (m := fst (e_sort env0 (map snd (short_blocks e)))) in C. rewrite !andb_true_iff, !N.eqb_eq in C.
  destruct C as (((((((((HM & H97) & H60) & H8) & H6) & HF) & HS) & HSS) & Hfar) & Hfar').
  rewrite forallb_forall in HO, HF.
  assert (Forall (fun b => measurable (snd b) = true /\ is_finite (snd b) = true) (blocks e ++ short_blocks e)) as HB.
  { apply Forall_forall. intros b Hb. specialize (HF b Hb). now apply andb_true_iff in HF. }
  apply Forall_app in HB. destruct HB as (HB1 & HB2). rewrite Forall_forall in HB1, HB2.
  assert (countable (blocks e)) as HC by (unfold countable; rewrite H97; reflexivity). assert (has_I (e_mode e)) as HI by (rewrite HM; split; reflexivity).
  assert (has_LRA (e_mode e)) as HLR by (rewrite HM; repeat split).
  split; auto. split; auto. split; [rewrite HM'; split; reflexivity|]. split; auto. split; [rewrite HM'; repeat split|].
  split; [intros n x Hx; apply (HO (n, x)); apply in_or_app; auto|]. split; [intros n x Hx; apply (HO (n, x)); apply in_or_app; auto|]. split; auto. split; auto.
  destruct (is_list x86_64 env1 e eq_refl Hr ltac:(rewrite HM; discriminate)) as (b' & s' & _ & _ & _ & _ & EB & ES).
  assert (length (blocks e) = 97)%nat as HL. { rewrite EB, population_singly in H97. rewrite EB. unfold singly. rewrite map_length. lia. }
  assert (length (short_blocks e) = 8)%nat as HL'. { rewrite ES, population_singly in H8. rewrite ES. unfold singly. rewrite map_length. lia. }
  assert (programme_effort [blocks e] = 202)%nat as PE by (unfold programme_effort; rewrite concat_one, HL; reflexivity).
  split.
  - destruct (global_number x86_64 env1 e eq_refl env1_powf env1_log10 Hr HI HC ltac:(rewrite H97; discriminate) HS) as (_ & (v & Hv & Fv) & _).
    { apply Forall_forall. intros b Hb. now apply HB1. }
    destruct (global_ok x86_64 env1 e eq_refl env1_powf Hr HC) as (HG & _ & HK).
    rewrite HG in Hv by auto. injection Hv as <-. destruct (blocks_one x86_64 env1 e eq_refl Hr HC) as (Hbk & _).
    assert (countable (concat [blocks e])) as HCC by (now rewrite concat_one).
    destruct (programme_close env1 [blocks e] env1_accurate env1_powf ltac:(constructor; auto) HCC ltac:(rewrite <- effort_roundings, PE; apply few_N; cbn; lia) Fv) as (_ & PG & BB & _).
    rewrite <- effort_roundings in BB. rewrite concat_one in BB. eapply clear_farther; [|exact PG|exact BB| |exact Hfar].
    + pose proof (tolerance_smaller (programme_effort [blocks e]) ltac:(rewrite PE; lia)). lra.
    + intros b Hb. apply (HB1 b Hb).
  - destruct (env0_sort (map snd (short_blocks e))) as (SP & _). fold m in SP.
    assert (map snd (short_blocks e) = q_queue s') as EM. { rewrite ES. unfold singly. rewrite map_map. cbn. apply map_id. } rewrite EM in SP.
    assert (Permutation (short_blocks e) (singly m)) as HP by (rewrite ES; now apply Permutation_map).
    assert (Forall block_ok (singly m)) as Hbk.
    { eapply Permutation_Forall; [exact HP|]. eapply short_ok; eauto; [reflexivity|]. unfold countable. rewrite H8. reflexivity. }
    assert (length (singly m) = 8)%nat as LS by (now rewrite <- (Permutation_length HP)).
    assert (population (singly m) = 8%N) as PM by (now rewrite <- (population_perm _ _ HP)).
    assert (forall b, In b (singly m) -> is_finite (snd b) = true) as FM.
    { intros b Hb. apply HB2. eapply Permutation_in; [apply Permutation_sym; exact HP|auto]. }
    assert (tiny <= exact_sum (singly m)) as TL.
    { assert (forall b, In b (singly m) -> measurable (snd b) = true) as MM by (intros b Hb; apply HB2; eapply Permutation_in; [apply Permutation_sym; exact HP|auto]).
      clear - LS Hbk FM MM. destruct m as [|x l]; [discriminate|]. change (singly (x :: l)) with ((1%N, x) :: singly l) in *. rewrite exact_cons.
      inversion_clear Hbk. pose proof (weighted_nonneg (singly l) H0 ltac:(intros; apply FM; now right)) as W. rewrite <- exact_weighted in W. cbn [fst snd].
      pose proof (measured_tiny x (MM _ (or_introl eq_refl)) (FM _ (or_introl eq_refl))) as T. change (amount 1) with 1. unfold real. lra. }
    destruct (range_gate env1 (singly m) env1_powf Hbk ltac:(unfold countable; rewrite PM; reflexivity) ltac:(apply few_N; rewrite LS; cbn; lia) ltac:(rewrite PM; discriminate) HSS TL) as (_ & PG & BB).
    apply clear_perm with (singly m); [apply Permutation_sym; exact HP|]. replace (range_effort (short_blocks e)) with (range_effort (singly m)) by (unfold range_effort; now rewrite LS, HL').
    eapply clear_farther; [|exact PG|exact BB|exact FM|exact Hfar'].
    pose proof (tolerance_smaller (range_effort (singly m)) ltac:(unfold range_effort; rewrite LS; lia)). unfold range_effort in *. lra.
Qed.
