(** Cases the comparison with the C reference code applies to, and where the two differ. *)
From Coq Require Import List Arith NArith ZArith Bool Lia Reals Lra Sorted Permutation.
From Flocq Require Import Core IEEE754.BinarySingleNaN.
From Verif Require Import Prelude Float Env Tables Utils History Filter Ebur128 Cref Spec Spec_real Spec_history Spec_accuracy Spec_cref Instance Instance_history Instance_accuracy Instance_cref Examples
  Float_proofs Reach_proofs Stream_proofs Energy_proofs History_proofs Gate_proofs Gating_proofs Range_proofs Blocks_proofs Answers_proofs Report_proofs History_examples Twin_proofs Cref_proofs Cref_same_proofs.
Import ListNotations.
Import Spec_history.
Local Open Scope nat_scope.

(** Rust's log10 as the quotient of two logarithms *)
Definition env6 : ext := with_log env5 glibc.
Definition three : list f64 := [f64_bin 1 (-2); f64_bin 1 (-5); f64_bin 3 (-4); f64_bin 1 (-60)].
Lemma three_ok : no_nan three /\ map measurable three = [true; true; true; false].
Proof. split; [repeat constructor|vm_compute; reflexivity]. Qed.
Lemma env6_ok : powf_contract env6 /\ sort_contract env6 /\ bsearch_contract env6 /\ qsort_contract glibc /\ same_pow env6 glibc /\ regenerates env6 /\ same_log env6 glibc.
Proof.
  split; [exact env5_powf|]. split; [exact env5_sort|]. split; [exact env5_bsearch|]. split; [exact glibc_qsort|]. split; [exact env5_pow|]. split; [exact env5_regenerates|].
  intros x. reflexivity.
Qed.

(** * An analyzer *)
Definition demo5 (m : mode) : outcome ebur128 :=
  match ebur128_new x86_64 env5 2 20 m with
  | Ret (Ok e) => '(_, e) <- run x86_64 env5 e [OpAdd (AI16 (wave 40))] ;; Ret e
  | _ => Panic
  end.
Definition check5 (m : mode) (e : ebur128) : bool :=
  (e_mode e =? m)%N && (population (blocks e) =? 37)%N && (population (short_blocks e) =? 2)%N &&
  forallb (fun b => negb (f64_is_nan (snd b))) (blocks e ++ short_blocks e).
Lemma demo5_noted m e : demo5 m = Ret e -> supported m 20 -> exists t b s, noted x86_64 env5 e t b s.
Proof.
  unfold demo5. destruct (ebur128_new x86_64 env5 2 20 m) as [[e0|]| | |] eqn:Hn; try discriminate.
  destruct (run x86_64 env5 e0 _) as [[rs e1]| | |] eqn:Hr; cbn [obind]; try discriminate.
  intros Heq Hs. assert (e1 = e) as <- by (injection Heq; auto).
  eapply (noted_run x86_64 env5 [OpAdd (AI16 (wave 40))]); [|repeat constructor|reflexivity|exact Hr]. eapply noted_new; eauto.
Qed.
Lemma demo5_list : exists e t b s, noted x86_64 env5 e t b s /\ e_mode e = 63%N /\ population (blocks e) = 37%N /\ population (short_blocks e) = 2%N /\
  no_nan b /\ no_nan s /\ (N.of_nat (length (List.filter measurable b)) = 37)%N /\ (N.of_nat (length (List.filter measurable s)) = 2)%N.
Proof.
  destruct (passes_spec (demo5 63%N) (check5 63%N)) as (e & H & C). { vm_cast_no_check (eq_refl true). }
  destruct (demo5_noted _ _ H) as (t & b & s & HN); [apply supported_dec; reflexivity|].
  unfold check5 in C. rewrite !andb_true_iff, !N.eqb_eq in C. destruct C as (((C1 & C2) & C3) & C4).
  assert (~ has_HISTOGRAM (e_mode e)) as Hh by (rewrite C1; discriminate).
  destruct (noted_list x86_64 env5 e t b s eq_refl HN Hh) as (E1 & E2).
  assert (forall n l xs, l = singly (latest n (List.filter measurable xs)) -> forall k, population l = k -> (k < N.of_nat n)%N -> forallb (fun b => negb (f64_is_nan (snd b))) l = true ->
    no_nan xs /\ N.of_nat (length (List.filter measurable xs)) = k) as HX.
  { intros n l xs -> k <- Hk Hf. unfold singly in Hk. rewrite population_singly in Hk.
    assert (latest n (List.filter measurable xs) = List.filter measurable xs) as EL by (apply latest_all; lia).
    unfold singly. rewrite population_singly, EL. split; auto. apply Forall_forall. intros x Hx. destruct (f64_is_nan x) eqn:Ex; auto.
    unfold singly in Hf. rewrite EL, forallb_forall in Hf. specialize (Hf (1%N, x)). cbn [snd] in Hf. rewrite Ex in Hf. symmetry. apply Hf. apply in_map_iff. exists x. split; auto. apply filter_In. split; auto.
    rewrite measurable_eq. destruct x; try discriminate Ex. reflexivity. }
  rewrite forallb_app, andb_true_iff in C4. destruct C4 as (C4 & C5).
  destruct (HX _ _ _ E1 _ C2 ltac:(rewrite N2Nat.id; vm_compute; reflexivity) C4) as (A1 & A2). destruct (HX _ _ _ E2 _ C3 ltac:(rewrite N2Nat.id; vm_compute; reflexivity) C5) as (A3 & A4).
  exists e, t, b, s. auto 10.
Qed.

(** * NaN *)
Lemma c_drops_nan L max xs : recorded_c L false max (xs ++ [f64_nan]) = recorded_c L false max xs.
Proof.
  unfold recorded_c. assert (forall hc, history_add_c (history_init_c L) hc f64_nan = Ret hc) as H.
  { intros hc. unfold history_add_c. change (st_bounds (history_init_c L)) with (c_pow L f64_ten (f64_div (f64_add (f64_of_Z (-70)) lit_0_691) f64_ten) :: map (c_bound L) (seq 1 1000)).
    cbn [cidx nth_error obind]. assert (forall z, f64_ge f64_nan z = false) as -> by (intros []; reflexivity). reflexivity. }
  generalize (history_create_c false max). induction xs as [|x xs IH]; intros hc; cbn [app ofold].
  - rewrite H. reflexivity.
  - destruct (history_add_c (history_init_c L) hc x); cbn [obind]; auto.
Qed.
Lemma add_nan x : f64_add x f64_nan = f64_nan.
Proof. destruct x; reflexivity. Qed.
Lemma nan_differs P E L max xs : (1 <= max)%N ->
  recorded_c L false max (xs ++ [f64_nan]) = recorded_c L false max xs /\
  exists h, record_all (history_new false max) (xs ++ [f64_nan]) = Ret h /\ gated_loudness P E h = Ret f64_nan /\ history_relative_threshold P E h = f64_nan.
Proof.
  intros Hm. split; [apply c_drops_nan|]. cbn [history_new]. rewrite (record_queue (queue_new max)) by (cbn; lia). cbn [queue_new q_max q_queue app].
  eexists. split; [reflexivity|]. rewrite filter_app. assert (measurable f64_nan = true) as Hn by (rewrite measurable_eq; reflexivity). cbn [List.filter]. rewrite Hn.
  assert (exists l, latest (N.to_nat max) (List.filter measurable xs ++ [f64_nan]) = l ++ [f64_nan]) as (l & ->).
  { rewrite latest_snoc by lia. destruct (length _ =? _); eauto. }
  assert (forall (l : list f64), (N.of_nat (length (l ++ [f64_nan])) =? 0)%N = false) as Hl by (intros l0; rewrite app_length; cbn [length]; apply N.eqb_neq; lia).
  assert (forall a, fold_left f64_add (l ++ [f64_nan]) a = f64_nan) as Hs by (intros a; rewrite fold_left_app; cbn [fold_left]; apply add_nan).
  split.
  - unfold gated_loudness, gated_loudness_multiple, gating_block_count_and_energy_multiple, iter_gating, total_relative_threshold. cbn [fold_left history_calc_relative_threshold].
    unfold queue_calc_relative_threshold, sum_f64. cbn [q_queue]. rewrite Hs, N.add_0_l, Hl. reflexivity.
  - unfold history_relative_threshold. cbn [history_calc_relative_threshold].
    unfold queue_calc_relative_threshold, sum_f64. cbn [q_queue]. rewrite Hs, Hl. reflexivity.
Qed.

(** * Maximum history *)
Lemma grow_differs P E L : powf_contract E -> log10_accurate E ->
  history_relative_threshold P E (history_set_max_size (history_new false 5) 7) = f64_neg f64_inf /\
  exists h, history_set_max_size_c (history_create_c false 5) 7 = Ret h /\ history_relative_threshold_c L (history_init_c L) h = Ret (f64_of_Z (-70)).
Proof.
  intros HP (_ & _ & Hz & _). split.
  - unfold history_relative_threshold. cbn [history_set_max_size history_new history_calc_relative_threshold]. unfold queue_calc_relative_threshold, queue_set_max_size, queue_new, sum_f64. cbn [q_queue q_max].
    change (N.of_nat (length (@nil f64)) <? 7)%N with true. cbv iota. change (N.to_nat 7 - length (@nil f64)) with 7. cbn [repeat app length].
    change (N.of_nat 7 =? 0)%N with false. cbv iota.
    assert (fold_left f64_add [f64_zero; f64_zero; f64_zero; f64_zero; f64_zero; f64_zero; f64_zero] (if p_sum_neg0 P then f64_neg f64_zero else f64_zero) = f64_zero) as -> by (destruct (p_sum_neg0 P); reflexivity).
    cbn [f64_is_nan]. unfold energy_to_loudness.
    assert (f64_mul (f64_div f64_zero (f64_of_N (N.of_nat 7))) (relative_gate_factor E) = f64_zero) as ->.
    { replace (f64_div f64_zero (f64_of_N (N.of_nat 7))) with f64_zero by (vm_compute; reflexivity).
      destruct (tenth_bounds E HP) as (Hf & Hr). rewrite <- tenth_eq in Hf, Hr. destruct (relative_gate_factor E) as [s|s| |s m e Hb]; try discriminate Hf.
      - exfalso. unfold real in Hr. cbn in Hr. lra.
      - destruct s; [exfalso|reflexivity]. unfold real in Hr. cbn [B2R] in Hr. assert (F2R (Float radix2 (cond_Zopp true (Z.pos m)) e) < 0)%R by (apply F2R_lt_0; reflexivity). lra. }
    rewrite Hz. change lit_0_691 with (f64_bin 6224039189899575 (-53)) || idtac. vm_compute. reflexivity.
  - eexists. split; [reflexivity|]. reflexivity.
Qed.
Definition pair2 : list f64 := [f64_bin 1 (-2); f64_bin 1 (-5)].
Lemma pair2_ok : measurable (f64_bin 1 (-2)) = true /\ measurable (f64_bin 1 (-5)) = true.
Proof. split; vm_compute; reflexivity. Qed.
Lemma pair2_ge : f64_ge (f64_bin 1 (-2)) (bnd 0) = true /\ f64_ge (f64_bin 1 (-5)) (bnd 0) = true.
Proof. split; vm_compute; reflexivity. Qed.
Lemma shrink_differs E L : same_pow E L -> regenerates E ->
  (exists h hc, record_all (history_new false 5) pair2 = Ret h /\ recorded_c L false 5 pair2 = Ret hc /\
   contents (history_set_max_size h 1) = map (fun x => (1%N, x)) pair2 /\
   exists hc', history_set_max_size_c hc 1 = Ret hc' /\ ch_list hc' = [f64_bin 1 (-5)]).
Proof.
  intros HP HR. exists (HQueue {| q_queue := pair2; q_max := 5 |}), {| ch_use := false; ch_list := pair2; ch_max := 5; ch_size := 2; ch_hist := [] |}.
  split.
  { cbn [history_new]. rewrite (record_queue (queue_new 5)) by (cbn; lia). cbn [queue_new q_max q_queue app].
    unfold pair2. cbn [List.filter]. rewrite (proj1 pair2_ok), (proj2 pair2_ok). reflexivity. }
  split.
  - unfold recorded_c. pose proof (init_tables E L HP) as X. rewrite HR in X. apply pair_equal_spec in X. destruct X as (_ & X).
    unfold pair2. cbn [ofold]. unfold history_add_c. rewrite <- X. 
    replace (cidx BOUNDARIES 0) with (Ret (bnd 0)) by reflexivity. cbn [obind].
    rewrite (proj1 pair2_ge). cbn [history_create_c ch_use ch_size ch_max obind].
    change (0 =? 5)%N with false. cbv iota. cbn [obind].
    rewrite (proj2 pair2_ge). reflexivity.
  - split; [reflexivity|]. eexists. split; reflexivity.
Qed.
