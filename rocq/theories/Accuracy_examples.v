(** Cases the accuracy theorems apply to. *)
From Coq Require Import List Arith NArith ZArith Bool Lia Reals Lra Sorted Permutation.
From Flocq Require Import Core Mult_error IEEE754.BinarySingleNaN.
From Verif Require Import Prelude Float Env Tables Utils History Filter Ebur128 Spec Spec_real Spec_history Spec_accuracy Instance Instance_history Instance_accuracy Examples
  Float_proofs Order_proofs Reach_proofs Trace_proofs Stream_proofs Loud_proofs Energy_proofs Accuracy_proofs Table_proofs Pass_proofs Gating_proofs Range_proofs Blocks_proofs Answers_proofs Value_proofs Report_proofs
  Gate_proofs Stream_examples History_examples Lufs_proofs Programme_proofs.
Import ListNotations.
Import Spec_history.
Local Open Scope R_scope.

Lemma loud_energy : exists e t, taped x86_64 env0 e t /\ is_finite (energy (capacity e) (4 * hop e) (e_cmap e) (signals t)) = true /\
  f64_lt (f64_bin 1 (-80)) (energy (capacity e) (4 * hop e) (e_cmap e) (signals t)) = true.
Proof.
  destruct (plays x86_64 2 20 63%N [OpSetChannel 1 Filter.LeftSurround] [OpAdd (AI16 (wave 50))] (fun e t e' t' =>
    is_finite (energy (capacity e') (4 * hop e') (e_cmap e') (signals t')) && f64_lt (f64_bin 1 (-80)) (energy (capacity e') (4 * hop e') (e_cmap e') (signals t'))))
    as (e & t & e' & t' & H1 & H2 & C).
  - apply supported_dec. reflexivity.
  - repeat constructor.
  - repeat constructor.
  - vm_cast_no_check (eq_refl true).
  - exists e', t'. rewrite !andb_true_iff in C. destruct C as (C1 & C2). split; [eapply taped_session_taped; eauto|]. auto.
Qed.
Lemma momentary_case : exists e t v, taped x86_64 env1 e t /\ ask x86_64 env1 e QMomentary = Ret (AValue (Ok v)) /\ is_finite v = true /\ -300 <= real v.
Proof.
  destruct loud_energy as (e & t & HT & F & L). apply taped_same in HT. set (x := energy (capacity e) (4 * hop e) (e_cmap e) (signals t)) in *. exists e, t, (loudness env1 x).
  split; auto. rewrite (ask_momentary x86_64 env1 e t eq_refl HT). fold x. destruct (bin_real (2 ^ 52) (-132) ltac:(lia) ltac:(lia)) as (FB & EB).
  replace (f64_bin (2 ^ 52) (-132)) with (f64_bin 1 (-80)) in * by (apply B2SF_inj; vm_compute; reflexivity).
  assert (bpow radix2 (-80) < B2R x) as LX.
  { unfold f64_lt in L. rewrite Bltb_correct in L by auto. apply Rlt_bool_true_iff in L || (revert L; case Rlt_bool_spec; [intros L _|discriminate]).
    rewrite EB in L. change (IZR (2 ^ 52)) with (bpow radix2 52) in L. rewrite <- bpow_plus in L. exact L. }
  pose proof (bpow_gt_0 radix2 (-80)) as BP. assert (positive x) as PX by (split; [auto|unfold real; lra]).
  split.
  - unfold reported. replace (f64_le x f64_zero) with false; [reflexivity|]. symmetry. unfold f64_le. rewrite Bleb_correct by auto. apply Rle_bool_false. cbn. lra.
  - destruct (loudness_close env1 x env1_accurate PX) as (FL & B). split; auto. apply Rabs_le_inv in B.
    assert (/ 2 ^ 37 <= 1). { rewrite <- Rinv_1. apply Rinv_le_contravar; [lra|]. cbn. lra. }
    assert (-280 <= lufs (real x)); [|lra]. apply Rle_trans with (lufs (bpow radix2 (-80))); [|apply lufs_le; auto; unfold real; lra].
    unfold lufs. assert (bpow radix2 (-80) = / 2 ^ 80) as ->. { rewrite bpow_powerRZ. reflexivity. }
    rewrite ln_Rinv by (apply pow_lt; lra). rewrite ln_pow by lra. replace (INR 80) with 80 by (rewrite INR_IZR_INZ; reflexivity).
    assert (ln 2 / ln 10 <= / 3) as L2.
    { apply Rmult_le_reg_r with (3 * ln 10); [pose proof ln10_pos; lra|]. replace (ln 2 / ln 10 * (3 * ln 10)) with (3 * ln 2) by (field; pose proof ln10_pos; lra).
      replace (/ 3 * (3 * ln 10)) with (ln 10) by lra. replace (3 * ln 2) with (ln (2 ^ 3)) by (rewrite ln_pow by lra; cbn [INR]; lra). apply ln_le'; lra. }
    replace (- (80 * ln 2) / ln 10) with (- (80 * (ln 2 / ln 10))) by (unfold Rdiv; ring). lra.
Qed.

(** Loud, then quiet: the gates exclude some blocks, and none is near them. *)
Definition far (g : f64) (b : N * f64) : bool := f64_le (f64_mul f64_two g) (snd b) || f64_le (f64_mul f64_two (snd b)) g.
Definition gates_check (e : ebur128) : bool :=
  let l := blocks e in let m := fst (e_sort env0 (map snd (short_blocks e))) in
  let g := gate env0 [l] in let h := f64_mul (hundredth env0) (mean_energy (singly m)) in
  (e_mode e =? 63)%N && (population l =? 97)%N && (population (at_least g l) =? 60)%N && (population (short_blocks e) =? 8)%N &&
  (population (at_least h (singly m)) =? 6)%N && forallb sane (l ++ short_blocks e) && is_finite (energy_sum l) && is_finite (energy_sum (singly m)) &&
  forallb (far g) l && forallb (far h) (singly m).
Lemma gates_demo : exists e, reachable x86_64 env0 e /\ gates_check e = true.
Proof.
  destruct (passes_spec (demo x86_64 2 20 63%N [OpAdd (AI16 (wave 60)); OpAdd (AI16 (map (fun z => (z / 256)%Z) (wave 40)))]) gates_check) as (e & H & C).
  { vm_cast_no_check (eq_refl true). }
  exists e. split; auto. apply demo_reachable in H; [exact H|apply supported_dec; reflexivity|repeat constructor].
Qed.
Lemma two_real : is_finite f64_two = true /\ B2R f64_two = 2.
Proof. destruct two_finite as (A & B & _). auto. Qed.
Lemma lufs_double x : 0 < x -> lufs (2 * x) - lufs x >= 5 / 10.
Proof.
  intros H. unfold lufs. rewrite ln_mult by lra. pose proof ln10_pos as L. pose proof (ln_below 10 ltac:(lra)). pose proof (ln_above 2 ltac:(lra)).
  assert (5 / 100 <= ln 2 / ln 10) as D. { apply Rmult_le_reg_r with (ln 10); auto. replace (ln 2 / ln 10 * ln 10) with (ln 2) by (field; lra). lra. }
  replace ((ln 2 + ln x) / ln 10) with (ln 2 / ln 10 + ln x / ln 10) by (unfold Rdiv; ring). lra.
Qed.
Lemma far_apart g x : positive g -> is_finite x = true -> 0 < real x -> far g (1%N, x) = true -> 5 / 10 <= Rabs (lufs (real x) - lufs (real g)).
Proof.
  intros (Fg & Pg) Fx Px H. unfold far in H. cbn [snd] in H. apply orb_true_iff in H. destruct two_real as (F2 & E2). unfold f64_le in H.
  assert (forall y, is_finite y = true -> 0 < B2R y -> is_finite (f64_mul f64_two y) = true -> B2R (f64_mul f64_two y) = 2 * B2R y) as HD.
  { intros y Fy Py F. destruct (mul_fin _ _ F) as (_ & _ & ER). unfold real in ER. rewrite ER, E2. apply rnd64_generic.
    rewrite Rmult_comm. change 2 with (bpow radix2 1). apply Mult_error.mult_bpow_pos_exact_FLT; [|lia]. apply B2R_64. }
  assert (forall y z, is_finite y = true -> is_finite z = true -> 0 < B2R y -> 0 < B2R z -> Bleb (f64_mul f64_two y) z = true -> 2 * B2R y <= B2R z) as HL.
  { intros y z Fy Fz Py Pz L. destruct (is_finite (f64_mul f64_two y)) eqn:F.
    - rewrite Bleb_correct in L by auto. rewrite HD in L by auto. revert L. case Rle_bool_spec; [auto|discriminate].
    - exfalso. unfold f64_mul in F, L. pose proof (Bmult_correct 53 1024 Hprec64 Hmax64 mode_NE f64_two y) as X. destruct (Rlt_bool _ _) in X.
      + destruct X as (_ & X & _). rewrite F2, Fy in X. rewrite X in F. discriminate F.
      + rewrite (B2R_pos_sign f64_two), (B2R_pos_sign y) in X by (rewrite ?E2; lra). destruct (Bmult mode_NE f64_two y) as [s|s| |s m e B]; try discriminate X.
        cbn in X. injection X as ->. unfold Bleb, SpecFloat.SFleb in L. destruct z as [s|s| |s m e B]; try discriminate Fz; cbn in L; discriminate L. }
  unfold real in *. destruct H as [H|H].
  - apply HL in H; auto. pose proof (lufs_double (B2R g) Pg). assert (lufs (2 * B2R g) <= lufs (B2R x)) by (apply lufs_le; lra). rewrite Rabs_pos_eq; lra.
  - apply HL in H; auto. pose proof (lufs_double (B2R x) Px). assert (lufs (2 * B2R x) <= lufs (B2R g)) by (apply lufs_le; lra). rewrite Rabs_left; lra.
Qed.
Lemma clear_far d t l g : t < 2 / 10 -> positive g -> Rabs (lufs (real g) - (lufs (exact_mean l) - d)) <= t ->
  (forall b, In b l -> is_finite (snd b) = true) -> forallb (far g) l = true -> clear_of_gate d t l.
Proof.
  intros Ht Hg B AF H n x Hin _ Px. rewrite forallb_forall in H. specialize (H _ Hin). pose proof (far_apart g x Hg (AF _ Hin) Px H) as D.
  unfold Rabs in *. repeat destruct (Rcase_abs _); lra.
Qed.
Lemma tolerance_small n : (n <= 2000)%nat -> tolerance n < 2 / 10.
Proof.
  intros H. apply le_INR in H. rewrite (INR_IZR_INZ 2000) in H. cbn [Z.of_nat Pos.of_succ_nat Pos.succ] in H. unfold tolerance. pose proof u_small. pose proof u_pos.
  assert (/ 10 ^ 11 <= / 1000). { apply Rinv_le_contravar; [lra|]. cbn. lra. } pose proof (pos_INR n). nra.
Qed.
Lemma programme_case : exists e v w, reachable x86_64 env1 e /\ has_I (e_mode e) /\ countable (blocks e) /\ (N.of_nat (programme_effort [blocks e]) <= 2 ^ 50)%N /\
  population (blocks e) = 97%N /\ ask x86_64 env1 e QGlobal = Ret (AValue (Ok v)) /\ is_finite v = true /\
  ask x86_64 env1 e QThreshold = Ret (AValue (Ok w)) /\ is_finite w = true /\ clear_of_gate 10 (tolerance (programme_effort [blocks e])) (blocks e) /\
  ask x86_64 env1 e QCount = Ret (ACount (gated env1 [blocks e])) /\ option_map fst (gated env1 [blocks e]) = Some 60%N.
Proof.
  destruct gates_demo as (e & Hr0 & C). assert (reachable x86_64 env1 e) as Hr by now apply reachable_same. exists e.
  unfold gates_check in C. rewrite !andb_true_iff, !N.eqb_eq in C. destruct C as (((((((((HM & H97) & H60) & _) & _) & HF) & HS) & _) & Hfar) & _).
  assert (has_I (e_mode e)) as HI by (rewrite HM; split; reflexivity). assert (countable (blocks e)) as HC by (unfold countable; rewrite H97; reflexivity).
  assert (Forall (fun b => measurable (snd b) = true /\ is_finite (snd b) = true) (blocks e)) as HB.
  { apply Forall_forall. intros b Hb. rewrite forallb_forall in HF. specialize (HF b ltac:(apply in_or_app; now left)). now apply andb_true_iff in HF. }
  destruct (global_number x86_64 env1 e eq_refl env1_powf env1_log10 Hr HI HC ltac:(rewrite H97; discriminate) HS) as (_ & (v & Hv & Fv) & (w & Hw & Fw)).
  { eapply Forall_impl; [|apply HB]. cbn. tauto. }
  exists v, w. assert (programme_effort [blocks e] = 202)%nat as PE.
  { destruct (is_list x86_64 env1 e eq_refl Hr ltac:(rewrite HM; intros X; discriminate X || now destruct X)) as (b' & s' & _ & _ & _ & _ & EB & _).
    assert (length (blocks e) = 97)%nat as HL. { rewrite EB, population_singly in H97. rewrite EB. unfold singly. rewrite map_length. lia. }
    unfold programme_effort. rewrite concat_one, HL. reflexivity. }
  destruct (global_ok x86_64 env1 e eq_refl env1_powf Hr HC) as (HG & _ & HK).
  assert (has_I (e_mode e) /\ countable (blocks e)) as (HI' & HC') by auto. 
  split; auto. split; auto. split; auto. split; [rewrite PE; cbn; lia|]. split; auto. split; auto. split; auto. split; auto. split; auto. split.
  - rewrite HG in Hv by auto. injection Hv as <-. destruct (blocks_one x86_64 env1 e eq_refl Hr HC) as (Hbk & _).
    assert (countable (concat [blocks e])) as HCC by (now rewrite concat_one).
    destruct (programme_close env1 [blocks e] env1_accurate env1_powf ltac:(constructor; auto) HCC ltac:(rewrite <- effort_roundings, PE; apply few_N; cbn; lia) Fv) as (_ & PG & B & _).
    rewrite <- effort_roundings in B. rewrite concat_one in B. apply clear_far with (gate env1 [blocks e]); auto.
    + apply tolerance_small. rewrite PE. lia.
    + intros b Hb. rewrite Forall_forall in HB. apply (HB b Hb).
  - split; auto. unfold gated. rewrite concat_one, H97. cbn [N.eqb orb].
    assert (sum_all [blocks e] = energy_sum (blocks e)) as -> by (apply (blocks_one x86_64 env1 e eq_refl Hr HC)).
    assert (f64_is_nan (energy_sum (blocks e)) = false) as -> by (now apply finite_not_nan). unfold passing. rewrite concat_one.
    change (gate env1 [blocks e]) with (gate env0 [blocks e]). rewrite H60. reflexivity.
Qed.
Lemma range_case : exists e m v, reachable x86_64 env1 e /\ has_LRA (e_mode e) /\ ~ has_HISTOGRAM (e_mode e) /\ Permutation (short_blocks e) (singly m) /\ ascending m /\
  length m = 8%nat /\ is_finite (energy_sum (singly m)) = true /\ ask x86_64 env1 e QRange = Ret (AValue (Ok v)) /\ is_finite v = true /\
  clear_of_gate 20 (tolerance (range_effort (singly m))) (singly m) /\ length (List.filter (fun x => f64_ge x (f64_mul (hundredth env1) (mean_energy (singly m)))) m) = 6%nat.
Proof.
  destruct gates_demo as (e & Hr0 & C). assert (reachable x86_64 env1 e) as Hr by now apply reachable_same. set (m := fst (e_sort env0 (map snd (short_blocks e)))). exists e, m.
  unfold gates_check in C. fold m in C. rewrite !andb_true_iff, !N.eqb_eq in C. destruct C as (((((((((HM & _) & _) & H8) & H6) & HF) & _) & HS) & _) & Hfar).
  assert (has_LRA (e_mode e)) as HI by (rewrite HM; repeat split). assert (~ has_HISTOGRAM (e_mode e)) as HH by (rewrite HM; discriminate).
  assert (Forall (fun b => measurable (snd b) = true /\ is_finite (snd b) = true) (short_blocks e)) as HB.
  { apply Forall_forall. intros b Hb. rewrite forallb_forall in HF. specialize (HF b ltac:(apply in_or_app; now right)). now apply andb_true_iff in HF. }
  destruct (range_not_negative x86_64 env1 e eq_refl env1_powf env1_sort env1_bsearch env1_log10 Hr HI ltac:(rewrite H8; vm_compute; discriminate) HB) as (v & Hv & Fv & _). exists v.
  destruct (is_list x86_64 env1 e eq_refl Hr HH) as (b' & s' & _ & _ & _ & _ & _ & EB). destruct (env0_sort (map snd (short_blocks e))) as (SP & SS & _). fold m in SP, SS.
  assert (map snd (short_blocks e) = q_queue s') as EM. { rewrite EB. unfold singly. rewrite map_map. cbn. apply map_id. } rewrite EM in SP.
  assert (length m = 8)%nat as L8. { rewrite <- (Permutation_length SP). rewrite EB, population_singly in H8. lia. }
  assert (Permutation (short_blocks e) (singly m)) as HP by (rewrite EB; now apply Permutation_map).
  assert (Forall (fun x => is_finite x = true) m) as FM.
  { eapply Permutation_Forall; [exact SP|]. rewrite EB in HB. unfold singly in HB. rewrite Forall_map in HB. eapply Forall_impl; [|exact HB]. cbn. tauto. }
  assert (ascending m) as HA.
  { unfold ascending. clear - SS FM. induction SS as [|a l Hl IH Ha]; constructor; inversion_clear FM; auto. rewrite Forall_forall in *. intros y Hy.
    specialize (Ha y Hy). apply orb_true_iff in Ha. destruct Ha as [Ha|Ha]; auto. rewrite finite_not_nan in Ha; [discriminate Ha|auto]. }
  assert (Forall block_ok (singly m)) as Hbk.
  { eapply Permutation_Forall; [exact HP|]. eapply short_ok; eauto; [reflexivity|]. unfold countable. rewrite H8. reflexivity. }
  repeat (split; [assumption|]). split.
  - assert (countable (singly m)) as HC by (unfold countable; rewrite population_singly, L8; reflexivity).
    assert (population (singly m) <> 0%N) as H0 by (rewrite population_singly, L8; discriminate).
    assert (length (singly m) = 8)%nat as LS by (unfold singly; now rewrite map_length).
    rewrite (range_list x86_64 env1 e m) in Hv; auto; [|reflexivity|apply env1_powf|apply env1_sort| |rewrite L8; vm_compute; discriminate].
    2: { eapply Forall_impl; [|exact FM]. intros x. apply finite_not_nan. }
    injection Hv as <-.
    pose proof (sum_tiny env1 (singly m) env1_accurate env1_powf Hbk HC H0 HS Fv) as TL.
    destruct (range_gate env1 (singly m) env1_powf Hbk HC ltac:(apply few_N; rewrite LS; cbn; lia) H0 HS TL) as (_ & PG & B).
    eapply clear_far; [|exact PG|exact B| |exact Hfar].
    + apply tolerance_small. unfold range_effort. rewrite LS. lia.
    + intros b Hb. apply in_map_iff in Hb. destruct Hb as (x & <- & Hx). rewrite Forall_forall in FM. apply (FM x Hx).
  - change (hundredth env1) with (hundredth env0). set (h := f64_mul (hundredth env0) (mean_energy (singly m))) in *.
    rewrite <- (expand_singly m) at 1. rewrite <- expand_filter, expand_length, H6. reflexivity.
Qed.
Lemma histogram_case : exists e v, reachable x86_64 env1 e /\ has_LRA (e_mode e) /\ has_HISTOGRAM (e_mode e) /\ population (short_blocks e) = 2%N /\
  ask x86_64 env1 e QRange = Ret (AValue (Ok v)) /\ is_finite v = true.
Proof.
  destruct hist_demo as (e & t & b & s & HN & HM & _ & H2). destruct (noted_holds x86_64 env0 e t b s eq_refl HN) as (HT & _). apply taped_reachable in HT.
  assert (reachable x86_64 env1 e) as Hr by now apply reachable_same. exists e.
  assert (has_LRA (e_mode e)) as HI by (rewrite HM; repeat split). assert (has_HISTOGRAM (e_mode e)) as HH by (rewrite HM; reflexivity).
  pose proof (histogram_measured x86_64 env1 e eq_refl Hr HH) as HB. apply Forall_app in HB.
  destruct (range_not_negative x86_64 env1 e eq_refl env1_powf env1_sort env1_bsearch env1_log10 Hr HI ltac:(rewrite H2; vm_compute; discriminate) (proj2 HB)) as (v & Hv & Fv & _).
  exists v. auto 10.
Qed.
