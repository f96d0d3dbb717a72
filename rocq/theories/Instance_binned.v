(** Programmes of one block, kept in histograms, that meet the hypotheses of C77. *)
From Coq Require Import List Arith NArith ZArith Bool Lia Reals Lra Psatz Sorting.Sorted Sorting.Permutation.
From Flocq Require Import Core IEEE754.BinarySingleNaN.
From Verif Require Import Prelude Float Env Tables Utils History Interp Filter Ebur128 Spec Spec_real Spec_filter Spec_coeff Spec_history Spec_accuracy Spec_exact Spec_programme Instance Instance_history Instance_accuracy Instance_coeff Instance_interp
  Float_proofs Accuracy_proofs Coeff_proofs Loud_proofs Bound_proofs Heard_proofs Exact_proofs Instance_exact Played_proofs Instance_played.
Import ListNotations.
Import Spec_history Spec_exact.
Local Open Scope R_scope.

Lemma env4_bsearch : bsearch_contract env4. Proof. exact env0_bsearch. Qed.
Lemma env4_log10_order : log10_contract env4. Proof. exact env1_log10. Qed.
Lemma impulse_top b0 : (forall k, weighted 48000 (impulse k) = repeat 0 k ++ [b0]) -> Rabs b0 <= 19.5.
Proof.
  intros HB. specialize (HB 0%nat). unfold impulse in HB. cbn [repeat app] in HB. unfold weighted in HB. pose proof (output_19 48000 ltac:(split; vm_compute; discriminate) (map real [f64_one]) 1 ltac:(lra)) as HO.
  destruct (coefficientsR _) as (b, a). cbn [fst snd] in HO. rewrite HB in HO. rewrite <- (Rmult_1_r 19.5). apply HO; [|now left].
  intros x [<-|[]]. rewrite (proj2 one_normal : real f64_one = 1), Rabs_R1. lra.
Qed.
Lemma late_energy_top q : (1 <= q <= 30)%nat -> exists Z, / 144000 <= Z <= 900 /\ exact_energies 48000 (q * N.to_nat 4800) [Left] [late q] [(q * N.to_nat 4800)%nat] = [Z].
Proof.
  intros Hq. destruct (late_energy q Hq) as (Z & HZ & EZ). exists Z. split; auto. split; auto. destruct first_coefficient as (b0 & B1 & HB).
  assert (1 <= N.to_nat 4800)%nat as HS by lia. unfold exact_energies in EZ. cbn [map] in EZ. rewrite firstn_all2 in EZ by (rewrite late_length by lia; lia). apply (f_equal (hd 0)) in EZ. unfold hd in EZ. rewrite <- EZ. unfold late.
  rewrite (impulse_mean b0 B1 HB) by nia. pose proof (impulse_top b0 HB) as T. apply Rabs_le_inv in T. assert (1 <= INR (q * N.to_nat 4800)) as L by (apply (le_INR 1); nia).
  set (w := INR _) in *. clearbody w. unfold Rdiv. apply Rle_trans with (b0 * b0 * 1); [apply Rmult_le_compat_l; [nra|rewrite <- Rinv_1; apply Rinv_le_contravar; lra]|nra].
Qed.
Lemma one_decided_bins Z k : / 144000 <= Z -> 10 <= k -> decided k (2 * rms_error x86_64 48000 1 [Left]) (1 / 50) [Z].
Proof.
  intros HZ Hk. destruct (one_loud Z HZ) as (HM & HL & _). pose proof late_error as (D0 & D1). set (d := rms_error x86_64 48000 1 [Left]) in *. clearbody d. pose proof (one_root Z HZ) as RZ. pose proof minus_70_bounds as (M0 & M1).
  assert (sqrt minus_70 <= / 10 ^ 3) as RM. { rewrite <- (sqrt_square (/ 10 ^ 3)) by (cbn; lra). apply sqrt_le_1_alt. cbn [pow] in *. lra. }
  split.
  - constructor; [|constructor]. rewrite Rabs_pos_eq; cbn [pow] in *; lra.
  - unfold relative_gate. rewrite HL. constructor; [|constructor]. unfold average. cbn [total fold_right length INR]. rewrite Rplus_0_r. replace (Z / 1) with Z by lra.
    assert (sqrt (Z / k) <= sqrt Z / 3) as RG.
    { rewrite sqrt_div by lra. assert (3 <= sqrt k) as k3. { rewrite <- (sqrt_square 3) by lra. apply sqrt_le_1_alt. lra. } unfold Rdiv. apply Rmult_le_compat_l; [apply sqrt_pos|]. apply Rinv_le_contravar; lra. }
    rewrite Rabs_pos_eq; cbn [pow] in *; lra.
Qed.
Lemma integrated_binned_case : exists e t, played x86_64 env4 e t /\ heard_all x86_64 env4 1 e t [late 4] /\ audio_rate (e_rate e) /\ has_I (e_mode e) /\ has_HISTOGRAM (e_mode e) /\
  let l := momentary_blocks e t [late 4] in let d := rms_error x86_64 (e_rate e) 1 (e_cmap e) in
  (N.of_nat (length l) <= small_count)%N /\ decided 10 (2 * d) (1 / 50) l /\ loud l <> [] /\ Forall (fun z => z <= 900) l /\ d <= 1 /\ 5 * d <= sqrt (average (gated_blocks 10 l)).
Proof.
  destruct (late_case 69%N 4 eq_refl ltac:(lia)) as (e & t & HPl & HA & HR & HC & HM & HH & HF). exists e, t. split; [exact HPl|]. split; [exact HA|]. split; [rewrite HR; split; vm_compute; discriminate|]. rewrite HM.
  split; [split; reflexivity|]. split; [reflexivity|].
  unfold momentary_blocks. rewrite HF, one_momentary by lia. rewrite HH, HR, HC. destruct (late_energy_top 4 ltac:(lia)) as (Z & (HZ & HZ9) & ->). cbv zeta. destruct (one_loud Z HZ) as (_ & HL & HG). rewrite HL, HG by lra.
  split; [vm_compute; discriminate|]. split; [apply one_decided_bins; [auto|lra]|]. split; [discriminate|]. split; [constructor; auto|]. pose proof (one_root Z HZ). pose proof late_error. split; [cbn [pow] in *; lra|]. unfold average. cbn [total fold_right length INR]. rewrite Rplus_0_r. replace (Z / 1) with Z by lra. cbn [pow] in *. lra.
Qed.
Lemma range_binned_case : exists e t r, played x86_64 env4 e t /\ heard_all x86_64 env4 1 e t [late 30] /\ audio_rate (e_rate e) /\ has_LRA (e_mode e) /\ has_HISTOGRAM (e_mode e) /\
  let l := shortterm_blocks e t [late 30] in let d := rms_error x86_64 (e_rate e) 1 (e_cmap e) in
  (N.of_nat (length l) <= small_count)%N /\ decided 100 (2 * d) (1 / 50) l /\ loud l <> [] /\ Forall (fun z => z <= 900) l /\ d <= 1 /\
  Permutation r (gated_blocks 100 l) /\ StronglySorted Rle r /\ 5 * d <= sqrt (low_of r).
Proof.
  destruct (late_case 75%N 30 eq_refl ltac:(lia)) as (e & t & HPl & HA & HR & HC & HM & HH & HF). destruct (late_energy_top 30 ltac:(lia)) as (Z & (HZ & HZ9) & EZ). exists e, t, [Z]. split; [exact HPl|]. split; [exact HA|]. split; [rewrite HR; split; vm_compute; discriminate|]. rewrite HM.
  split; [split; [split|]; reflexivity|]. split; [reflexivity|].
  unfold shortterm_blocks. rewrite HF, one_shortterm by lia. rewrite HH, HR, HC, EZ. cbv zeta. destruct (one_loud Z HZ) as (_ & HL & HG). rewrite HL, HG by lra.
  split; [vm_compute; discriminate|]. split; [apply one_decided_bins; [auto|lra]|]. split; [discriminate|]. split; [constructor; auto|]. pose proof (one_root Z HZ). pose proof late_error. split; [cbn [pow] in *; lra|]. split; [reflexivity|]. split; [repeat constructor|]. change (low_of [Z]) with Z. cbn [pow] in *. lra.
Qed.
