(** A C library and a Rust library for which the comparison with the C reference code applies. *)
From Coq Require Import List Arith NArith ZArith Bool Lia Reals Lra Psatz Sorted Permutation.
From Flocq Require Import Core IEEE754.BinarySingleNaN.
From Verif Require Import Prelude Float Env Tables Utils History Interp Filter Ebur128 Cref Spec Spec_real Spec_history Spec_accuracy Spec_cref Instance Instance_history Instance_accuracy
  Float_proofs Order_proofs History_proofs Accuracy_proofs Table_proofs Pass_proofs Value_proofs Lufs_proofs Calibration_proofs Rms_proofs.
Import ListNotations.
Import Spec_history.

(** * A pow that gives the tables *)
Definition energy_exponent (i : nat) : f64 := f64_div (f64_add (f64_sub (f64_div (f64_of_nat i) f64_ten) lit_69_95) lit_0_691) f64_ten.
Definition bound_exponent (i : nat) : f64 := f64_div (f64_add (f64_sub (f64_div (f64_of_nat i) f64_ten) f64_70) lit_0_691) f64_ten.
(** 100000 y rounded down *)
Definition scaled (y : f64) : Z := match y with B754_finite s m e _ => Z.shiftl ((if s then Zneg m else Zpos m) * 100000) e | _ => 0%Z end.
(** the table entry whose exponent is within 0.00002 of [y] *)
Definition slot (y : f64) : option (bool * nat) :=
  let k := (scaled y + 692592)%Z in
  if (k mod 1000 <=? 4)%Z then Some (true, Z.to_nat (k / 1000))
  else if ((k + 500) mod 1000 <=? 4)%Z then Some (false, Z.to_nat ((k + 500) / 1000))
  else None.
Definition table_pow (x y : f64) : f64 :=
  match slot y with
  | Some (true, i) => nth i ENERGIES f64_zero
  | Some (false, i) => nth i BOUNDARIES f64_zero
  | None => e_powf env0 x y
  end.
Definition is_slot (b : bool) (i : nat) (o : option (bool * nat)) : bool :=
  match o with Some (b', j) => Bool.eqb b b' && (i =? j) | None => false end.
(** the natural logarithm, rounded down to a multiple of 2^-60 and then to f64 *)
Definition exact_log (x : f64) : f64 :=
  match x with
  | B754_zero _ => f64_neg f64_inf
  | B754_infinity false => f64_inf
  | B754_finite false _ _ _ => f64_bin (Zfloor (ln (B2R x) * bpow radix2 60)) (-60)
  | _ => f64_nan
  end.
Definition glibc : libc := {|
  c_pow := table_pow; c_log := exact_log; c_tan := e_tan env0; c_sin := e_sin env0; c_cos := e_cos env0; c_qsort := fun l => fst (e_sort env0 l) |}.
(** with an independent, accurate log10 *)
Definition env5 : ext := {|
  e_tan := e_tan env0; e_sin := e_sin env0; e_cos := e_cos env0; e_log10 := exact_log10; e_powf := table_pow;
  e_bsearch := e_bsearch env0; e_sort := e_sort env0 |}.

Lemma energies_found : forallb (fun i => is_slot true i (slot (energy_exponent i))) (seq 0 1000) = true.
Proof. vm_cast_no_check (eq_refl true). Qed.
Lemma bounds_found : forallb (fun i => is_slot false i (slot (bound_exponent i))) (seq 0 1001) = true.
Proof. vm_cast_no_check (eq_refl true). Qed.
Lemma is_slot_eq b i o : is_slot b i o = true -> o = Some (b, i).
Proof. destruct o as [(b', j)|]; cbn; [|discriminate]. rewrite andb_true_iff, Bool.eqb_true_iff, Nat.eqb_eq. now intros (-> & ->). Qed.
Lemma map_nth_all {A} (d : A) : forall l, map (fun i => nth i l d) (seq 0 (length l)) = l.
Proof.
  induction l as [|x l IH]; [reflexivity|]. cbn [length seq map nth]. f_equal. rewrite <- seq_shift, map_map. exact IH.
Qed.
Lemma env5_regenerates : regenerates env5.
Proof.
  unfold regenerates, generate_histogram_bins. apply pair_equal_spec. split.
  - rewrite <- (map_nth_all f64_zero ENERGIES), ENERGIES_length. apply map_ext_in. intros i Hi. pose proof energies_found as X. rewrite forallb_forall in X.
    specialize (X i Hi). apply is_slot_eq in X.
    change (generated_energy env5 i) with (table_pow f64_ten (energy_exponent i)). unfold table_pow. rewrite X. reflexivity.
  - rewrite <- (map_nth_all f64_zero BOUNDARIES), BOUNDARIES_length. apply map_ext_in. intros i Hi. pose proof bounds_found as X. rewrite forallb_forall in X.
    specialize (X i Hi). apply is_slot_eq in X.
    change (generated_bound env5 i) with (table_pow f64_ten (bound_exponent i)). unfold table_pow. rewrite X. reflexivity.
Qed.
Lemma env5_powf : powf_contract env5.
Proof.
  assert (tenth env5 = tenth env0 /\ hundredth env5 = hundredth env0) as (E1 & E2).
  { unfold tenth, hundredth. cbn [env5 e_powf]. unfold table_pow.
    assert (slot (f64_of_Z (-1)) = None /\ slot (f64_of_Z (-2)) = None) as (-> & ->) by (split; vm_compute; reflexivity). auto. }
  unfold powf_contract. rewrite E1, E2. exact env0_powf.
Qed.
Lemma env5_pow : same_pow env5 glibc. Proof. intros x y. reflexivity. Qed.
Lemma env5_sort : sort_contract env5. Proof. exact env0_sort. Qed.
Lemma env5_bsearch : bsearch_contract env5. Proof. exact env0_bsearch. Qed.
Lemma env5_accurate : log10_accurate env5. Proof. exact env1_accurate. Qed.

Lemma glibc_qsort : qsort_contract glibc.
Proof.
  intros l Hn. destruct (env0_sort l) as (H1 & H2 & _). split; [exact H1|]. cbn [glibc c_qsort].
  assert (Forall (fun x => f64_is_nan x = false) (fst (e_sort env0 l))) as HN by (eapply Permutation_Forall; eauto).
  clear H1. induction H2 as [|a m H2 IH HF]; constructor.
  - apply IH. exact (Forall_inv_tail HN).
  - rewrite Forall_forall in *. intros x Hx. specialize (HF x Hx). pose proof (HN a (or_introl eq_refl)). pose proof (HN x (or_intror Hx)).
    unfold cmp_le in HF. destruct (f64_le a x); auto. cbn [orb] in HF. congruence.
Qed.

Local Open Scope R_scope.
Lemma exact_log_value x : positive x -> is_finite (exact_log x) = true /\ Rabs (real (exact_log x) - ln (real x)) <= u * Rabs (ln (real x)) + / 2 ^ 59.
Proof.
  intros Hx. pose proof (positive_log x Hx) as L0. destruct Hx as (F & P). assert (exact_log x = f64_bin (Zfloor (ln (B2R x) * bpow radix2 60)) (-60)) as ->.
  { destruct x as [s|s| |[] m e B]; try discriminate F; unfold real in P; try (cbn in P; lra); [|reflexivity].
    exfalso. apply Rlt_not_le in P. apply P. cbn. apply F2R_le_0. cbn. lia. }
  unfold real in *. set (y := ln (B2R x)) in *. pose proof ln10_5 as LL. pose proof ln10_upper as LU.
  assert (Rabs y <= 895) as By.
  { replace y with (y / ln 10 * ln 10) by (field; lra). rewrite Rabs_mult, (Rabs_pos_eq (ln 10)) by lra. pose proof (Rabs_pos (y / ln 10)). nra. }
  set (n := Zfloor (y * bpow radix2 60)).
  pose proof (Zfloor_lb (y * bpow radix2 60)) as B1. pose proof (Zfloor_ub (y * bpow radix2 60)) as B2. fold n in B1, B2.
  pose proof (bpow_gt_0 radix2 60) as P60. assert (bpow radix2 (-60) * bpow radix2 60 = 1) as E1 by (rewrite <- bpow_plus; reflexivity).
  pose proof (bpow_gt_0 radix2 (-60)) as P60'. set (p := bpow radix2 60) in *. set (q := bpow radix2 (-60)) in *.
  assert (Rabs (IZR n * q - y) <= q) as BN.
  { assert ((IZR n * q - y) * p = IZR n - y * p) as E2 by (replace ((IZR n * q - y) * p) with (IZR n * (q * p) - y * p) by ring; rewrite E1; ring).
    apply Rabs_le. split; apply Rmult_le_reg_r with p; auto; rewrite E2, ?Ropp_mult_distr_l_reverse, E1; lra. }
  assert (q <= / 1000) as Sq by (unfold q; cbn; lra). pose proof big_1000. apply Rabs_le_inv in By, BN.
  assert (Rabs (IZR n * q) <= 896) as BM by (apply Rabs_le; lra).
  destruct (bin_round n (-60) ltac:(fold q; lra)) as (FB & EB). split; auto. rewrite EB. fold q. pose proof (rnd_error (IZR n * q)) as R1.
  set (z := rnd64 (IZR n * q)) in *. assert (/ 2 ^ 59 = 2 * q) as -> by (unfold q; cbn; lra).
  assert (Rabs (IZR n * q) <= Rabs y + q) as BA. { replace (IZR n * q) with (y + (IZR n * q - y)) by ring. eapply Rle_trans; [apply Rabs_triang|]. apply Rplus_le_compat_l. apply Rabs_le. lra. }
  pose proof u_pos. assert (u <= / 1000) as Su. { unfold roundoff. apply Rinv_le_contravar; [lra|]. cbn. lra. }
  assert (eta <= q / 1000) as Se.
  { rewrite <- eta_bpow. unfold q. pose proof (bpow_gt_0 radix2 (-1074)). assert (bpow radix2 (-1074) <= bpow radix2 (-70)) by (apply bpow_le; lia). assert (bpow radix2 (-70) = bpow radix2 (-60) / 1024) by (cbn; lra). lra. }
  assert (u * Rabs (IZR n * q) <= u * Rabs y + u * q) by nra. assert (u * q <= q / 1000) by nra.
  apply Rabs_le_inv in R1. apply Rabs_le. lra.
Qed.
Lemma glibc_accurate : log_accurate glibc.
Proof.
  assert (/ 2 ^ 43 = 1024 * u) as E43. { unfold roundoff. replace 53%nat with (43 + 10)%nat by lia. rewrite pow_add. field. }
  assert (/ 2 ^ 51 = 4 * u) as E51. { unfold roundoff. replace 53%nat with (51 + 2)%nat by lia. rewrite pow_add. field. }
  assert (/ 2 ^ 59 = u / 64) as E59. { unfold roundoff. replace 59%nat with (53 + 6)%nat by lia. rewrite pow_add. field. }
  pose proof u_pos. pose proof ln10_5 as LL. pose proof ln10_upper as LU.
  unfold log_accurate. rewrite E43, E51. cbn [glibc c_log]. repeat split; try reflexivity.
  - now apply exact_log_value.
  - pose proof (positive_log x H0) as L0. destruct (exact_log_value x H0) as (_ & B). rewrite E59 in B. eapply Rle_trans; [exact B|].
    assert (Rabs (ln (real x)) <= 895) as By.
    { set (y := ln (real x)) in *. replace y with (y / ln 10 * ln 10) by (field; lra). rewrite Rabs_mult, (Rabs_pos_eq (ln 10)) by lra. pose proof (Rabs_pos (y / ln 10)). nra. }
    nra.
  - destruct ten_real as (F10 & E10). destruct (exact_log_value (f64_of_Z 10)) as (_ & B). { split; auto. unfold real. rewrite E10. lra. }
    unfold real in B. rewrite E10, E59 in B. unfold real. eapply Rle_trans; [exact B|]. rewrite Rabs_pos_eq by lra. nra.
Qed.
