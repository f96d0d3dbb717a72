(** Programmes of one block that meet the hypotheses of C73 and C74. *)
From Coq Require Import List Arith NArith ZArith Bool Lia Reals Lra Psatz Sorting.Sorted Sorting.Permutation.
From Flocq Require Import Core IEEE754.BinarySingleNaN.
From Verif Require Import Prelude Float Env Tables Utils History Interp Filter Ebur128 Spec Spec_real Spec_filter Spec_coeff Spec_history Spec_accuracy Spec_exact Spec_programme Instance Instance_history Instance_accuracy Instance_coeff Instance_interp
  Float_proofs Accuracy_proofs Ebur128_proofs Coeff_proofs Loud_proofs Heard_proofs Exact_proofs Instance_exact Played_proofs.
Import ListNotations.
Import Spec_history Spec_exact.
Local Open Scope R_scope.

Lemma ten_pow k p : k = (Z.neg p) -> (Z.pos p <= 2)%Z ->
  is_finite (e_powf env4 (f64_of_Z 10) (f64_of_Z k)) = true /\ Rabs (real (e_powf env4 (f64_of_Z 10) (f64_of_Z k)) - / 10 ^ Pos.to_nat p) <= / 2 ^ 50.
Proof.
  intros -> Hp. change (e_powf env4 (f64_of_Z 10) (f64_of_Z (Z.neg p))) with (nearby (Rpower (real (f64_of_Z 10)) (real (f64_of_Z (Z.neg p))))).
  rewrite (proj2 (exact_int 10 ltac:(lia))), (proj2 (exact_int (Z.neg p) ltac:(lia))). change (Z.neg p) with (- Z.pos p)%Z. rewrite opp_IZR, Rpower_Ropp.
  assert (IZR (Z.pos p) = INR (Pos.to_nat p)) as -> by (rewrite INR_IZR_INZ; now rewrite positive_nat_Z). rewrite Rpower_pow by lra.
  assert (1 <= 10 ^ Pos.to_nat p) as H1 by (apply pow_R1_Rle; lra). assert (0 < / 10 ^ Pos.to_nat p <= 1) as H2. { split; [apply Rinv_0_lt_compat; lra|]. rewrite <- Rinv_1. apply Rinv_le_contravar; lra. }
  set (y := / 10 ^ Pos.to_nat p) in *. clearbody y. destruct (nearby_close y ltac:(rewrite Rabs_pos_eq; lra)) as (F & C). split; auto. rewrite (Rabs_pos_eq y) in C by lra. eapply Rle_trans; [exact C|].
  assert (u * y <= u) by (pose proof u_value; assert (0 < u) by (unfold roundoff; apply Rinv_0_lt_compat, pow_lt; lra); nra). unfold roundoff in *. cbn [pow] in *. lra.
Qed.
Lemma env4_powf_values : powf_contract env4.
Proof.
  split.
  - destruct (ten_pow (-1) 1 eq_refl ltac:(lia)) as (F & B). split; [exact F|]. change (Pos.to_nat 1) with 1%nat in B. replace (1 / 10) with (/ 10 ^ 1) by (cbn [pow]; lra). exact B.
  - destruct (ten_pow (-2) 2 eq_refl ltac:(lia)) as (F & B). split; [exact F|]. change (Pos.to_nat 2) with 2%nat in B. replace (1 / 100) with (/ 10 ^ 2) by (cbn [pow]; lra). exact B.
Qed.
Lemma env4_sort : sort_contract env4. Proof. exact env0_sort. Qed.

(** * One impulse at the end of [q] tenths of a second *)
Definition late (q : nat) : list f64 := impulse (q * N.to_nat 4800 - 1).
Lemma late_length q : (1 <= q)%nat -> length (late q) = (q * N.to_nat 4800)%nat.
Proof. intros H. unfold late, impulse. rewrite app_length, repeat_length. change (length [f64_one]) with 1%nat. assert (1 <= N.to_nat 4800)%nat by lia. nia. Qed.
Lemma late_case m q : has_M m -> (1 <= q)%nat ->
  exists e t, played x86_64 env4 e t /\ heard_all x86_64 env4 1 e t [late q] /\ e_rate e = 48000%N /\ e_cmap e = [Left] /\ e_mode e = m /\ hop e = N.to_nat 4800 /\ frames_of (signals t) = (q * hop e)%nat.
Proof.
  intros Hm Hq. assert (is_64bit x86_64) as HP by (split; reflexivity).
  destruct (mono_call env4 m (late q) Hm) as (e0 & e & t & ws & HN & HS & H & HC & HR & HM & HMo). exists e, t.
  assert (samples_below 1 (late q)) as HB.
  { apply Forall_app. split.
    + apply Forall_forall. intros x Hx. apply repeat_spec in Hx. subst x. split; [reflexivity|]. unfold real. cbn. rewrite Rabs_R0. lra.
    + constructor; [|constructor]. split; [apply one_normal|]. rewrite (proj2 one_normal : real f64_one = 1), Rabs_R1. lra. }
  assert (heard_all x86_64 env4 1 e t [late q]) as HA.
  { split; [rewrite HC; reflexivity|]. split; [exact (heard_taped _ _ _ _ _ _ _ HP H)|]. intros c Hc _. rewrite HC in Hc. replace c with 0%nat by lia. split; [eauto|]. exact HB. }
  assert (hop e = N.to_nat 4800) as HH by (unfold hop; rewrite HR; vm_compute; reflexivity).
  split; [|split; [exact HA|split; [exact HR|split; [exact HM|split; [exact HMo|split; [exact HH|]]]]]].
  - exists e0, (blank 1), [OpAdd (PF64 [late q])]. split; [exact HN|]. split; [reflexivity|]. split; [exact HS|]. repeat constructor.
  - pose proof (heard_exact x86_64 env4 0 HP env4_tan env4_powf e t (late q) ws 1 H ltac:(rewrite HR; split; vm_compute; discriminate) ltac:(split; [lra|apply pow_R1_Rle; lra]) HB) as F. apply Forall2_length in F.
    assert (length (weighted (e_rate e) (late q)) = length (late q)) as L. { unfold weighted. destruct (coefficientsR _) as (b, a). unfold outputsR. rewrite Filter_proofs.filter_run_length. apply map_length. }
    rewrite L, late_length in F by auto. rewrite HH. unfold frames_of. destruct (signals t); exact F.
Qed.
Lemma one_end q s : (1 <= q)%nat -> (1 <= s)%nat -> forall p : nat -> bool, (forall k, (1 <= k < q * s)%nat -> p k = false) -> p (q * s)%nat = true ->
  List.filter p (seq 1 (q * s - 0)) = [(q * s)%nat].
Proof.
  intros Hq Hs p Hb He. rewrite Nat.sub_0_r. assert (1 <= q * s)%nat as H1 by nia. set (n := (q * s)%nat) in *. clearbody n. destruct n as [|n]; [lia|].
  rewrite seq_S, filter_app. cbn [List.filter]. replace (1 + n)%nat with (S n) by lia. rewrite He. assert (List.filter p (seq 1 n) = []) as ->; [|reflexivity].
  assert (forall l, (forall k, In k l -> p k = false) -> List.filter p l = []) as X. { clear. induction l as [|k l IH]; intros H; [reflexivity|]. cbn [List.filter]. rewrite (H k ltac:(now left)). apply IH. intros; apply H; now right. }
  apply X. intros k Hk. apply in_seq in Hk. apply Hb. lia.
Qed.
Lemma one_momentary s : (1 <= s)%nat -> block_ends s 0 (4 * s) = [(4 * s)%nat].
Proof.
  intros Hs. apply (one_end 4 s ltac:(lia) Hs).
  - intros k Hk. apply andb_false_iff. left. apply Nat.leb_gt. lia.
  - apply andb_true_iff. split; [apply Nat.leb_refl|]. rewrite Nat.mod_mul by lia. reflexivity.
Qed.
Lemma one_shortterm s : (1 <= s)%nat -> short_ends s 0 (30 * s) = [(30 * s)%nat].
Proof.
  intros Hs. apply (one_end 30 s ltac:(lia) Hs).
  - intros k Hk. apply andb_false_iff. left. apply Nat.leb_gt. lia.
  - apply andb_true_iff. split; [apply Nat.leb_refl|]. rewrite Nat.sub_diag, Nat.mod_0_l by lia. reflexivity.
Qed.
Lemma late_energy q : (1 <= q <= 30)%nat -> exists Z, / 144000 <= Z /\ exact_energies 48000 (q * N.to_nat 4800) [Left] [late q] [(q * N.to_nat 4800)%nat] = [Z].
Proof.
  intros Hq. destruct first_coefficient as (b0 & B1 & HB). assert (1 <= N.to_nat 4800)%nat as HS by lia. exists (b0 * b0 / INR (q * N.to_nat 4800)). split.
  - assert (1 <= INR (q * N.to_nat 4800) <= 144000) as (L & U).
    { split; [apply (le_INR 1); nia|]. rewrite mult_INR. apply (proj1 (Nat.le_ngt _ _)) in HS. assert (INR (N.to_nat 4800) = 4800) as -> by (rewrite INR_IZR_INZ, N_nat_Z; reflexivity). assert (INR q <= 30) by (replace 30 with (INR 30) by (cbn; lra); apply le_INR; lia). lra. }
    unfold Rdiv. apply Rle_trans with (1 * / INR (q * N.to_nat 4800)); [rewrite Rmult_1_l; apply Rinv_le_contravar; lra|]. apply Rmult_le_compat_r; [left; apply Rinv_0_lt_compat; lra|nra].
  - unfold exact_energies. cbn [map]. rewrite firstn_all2 by (rewrite late_length by lia; lia). f_equal. apply (impulse_mean b0 B1 HB). nia.
Qed.
Lemma late_error : 0 <= rms_error x86_64 48000 1 [Left] <= 4.3 / 10 ^ 6.
Proof.
  unfold rms_error, filter_error. cbn [map weight total fold_right p_ftz x86_64]. rewrite Rplus_0_r, sqrt_1. change (IZR (Z.of_N 48000)) with 48000. rewrite Rmult_1_l. replace (48000 / 48000) with 1 by lra. rewrite pow1.
  assert (0 < / 2 ^ 1000 <= / 2 ^ 30); [split; [apply Rinv_0_lt_compat, pow_lt; lra|apply Rinv_le_contravar; [apply pow_lt; lra|apply Rle_pow; [lra|lia]]]|]. lra.
Qed.
Lemma one_loud Z : / 144000 <= Z -> minus_70 <= Z /\ loud [Z] = [Z] /\ forall k, 10 <= k -> gated_blocks k [Z] = [Z].
Proof.
  intros HZ. pose proof minus_70_bounds as (M0 & M1). assert (minus_70 <= Z) as H by (cbn in M1; lra). assert (loud [Z] = [Z]) as HL by (unfold loud, not_below; cbn [List.filter]; destruct (Rle_dec minus_70 Z); [reflexivity|lra]).
  split; auto. split; auto. intros k Hk. unfold gated_blocks, relative_gate. rewrite HL. unfold not_below, average. cbn [List.filter total fold_right length INR]. destruct (Rle_dec _ Z) as [|N]; [reflexivity|]. destruct N. rewrite Rplus_0_r. replace (Z / 1) with Z by lra. apply Rmult_le_reg_r with k; [lra|]. unfold Rdiv. rewrite Rmult_assoc, Rinv_l by lra. nra.
Qed.
Lemma one_root Z : / 144000 <= Z -> 2.6 / 10 ^ 3 <= sqrt Z.
Proof. intros HZ. rewrite <- (sqrt_square (2.6 / 10 ^ 3)) by lra. apply sqrt_le_1_alt. cbn [pow]. lra. Qed.
Lemma one_decided_of d Z k n : 0 <= d <= 1 / 10 ^ 5 -> / 144000 <= Z -> 10 <= k -> (n <= 1001)%nat -> decided k (2 * d) (tolerance n / 6) [Z].
Proof.
  intros (D0 & D1) HZ Hk Hn. destruct (one_loud Z HZ) as (HM & HL & _). pose proof (one_root Z HZ) as RZ. pose proof minus_70_bounds as (M0 & M1).
  assert (sqrt minus_70 <= / 10 ^ 3) as RM. { rewrite <- (sqrt_square (/ 10 ^ 3)) by (cbn; lra). apply sqrt_le_1_alt. cbn [pow] in *. lra. }
  split.
  - constructor; [|constructor]. rewrite Rabs_pos_eq; cbn [pow] in *; lra.
  - unfold relative_gate. rewrite HL. constructor; [|constructor]. unfold average. cbn [total fold_right length INR]. rewrite Rplus_0_r. replace (Z / 1) with Z by lra. 
    assert (sqrt (Z / k) <= sqrt Z / 3) as RG.
    { rewrite sqrt_div by lra. assert (3 <= sqrt k) as k3. { rewrite <- (sqrt_square 3) by lra. apply sqrt_le_1_alt. lra. } unfold Rdiv. apply Rmult_le_compat_l; [apply sqrt_pos|]. apply Rinv_le_contravar; lra. }
    assert (0 <= tolerance n <= 1) as T.
    { unfold tolerance. apply le_INR in Hn. pose proof (pos_INR n) as P. replace (INR 1001) with 1001 in Hn by (rewrite INR_IZR_INZ; reflexivity). unfold roundoff. cbn [pow]. lra. }
    assert (tolerance n / 6 * sqrt (Z / k) <= 1 / 6 * (sqrt Z / 3)) by (apply Rmult_le_compat; [lra|apply sqrt_pos|lra|auto]).
    rewrite Rabs_pos_eq; cbn [pow] in *; lra.
Qed.
Lemma one_decided Z k n : / 144000 <= Z -> 10 <= k -> (n <= 1001)%nat -> decided k (2 * rms_error x86_64 48000 1 [Left]) (tolerance n / 6) [Z].
Proof. intros HZ Hk Hn. apply one_decided_of; auto. pose proof late_error. cbn [pow] in *. lra. Qed.

Lemma integrated_case : exists e t, played x86_64 env4 e t /\ heard_all x86_64 env4 1 e t [late 4] /\ audio_rate (e_rate e) /\ has_I (e_mode e) /\ ~ has_HISTOGRAM (e_mode e) /\
  let l := momentary_blocks e t [late 4] in let d := rms_error x86_64 (e_rate e) 1 (e_cmap e) in let n := (length l + 105)%nat in
  (N.of_nat n <= 2 ^ 50)%N /\ decided 10 (2 * d) (tolerance n / 6) l /\ loud l <> [] /\ 5 * d <= sqrt (average (gated_blocks 10 l)).
Proof.
  destruct (late_case MODE_I 4 eq_refl ltac:(lia)) as (e & t & HPl & HA & HR & HC & HM & HH & HF). exists e, t. split; [exact HPl|]. split; [exact HA|]. split; [rewrite HR; split; vm_compute; discriminate|]. rewrite HM.
  split; [split; reflexivity|]. split; [intros X; vm_compute in X; discriminate X|].
  unfold momentary_blocks. rewrite HF, one_momentary by lia. rewrite HH, HR, HC. destruct (late_energy 4 ltac:(lia)) as (Z & HZ & ->). cbv zeta. change (length [Z] + 105)%nat with 106%nat. destruct (one_loud Z HZ) as (_ & HL & HG). rewrite HL, HG by lra.
  split; [vm_compute; discriminate|]. split; [apply one_decided; [auto|lra|lia]|]. split; [discriminate|]. unfold average. cbn [total fold_right length INR]. rewrite Rplus_0_r. replace (Z / 1) with Z by lra. pose proof (one_root Z HZ). pose proof late_error. cbn [pow] in *. lra.
Qed.
Lemma range_case : exists e t r, played x86_64 env4 e t /\ heard_all x86_64 env4 1 e t [late 30] /\ audio_rate (e_rate e) /\ has_LRA (e_mode e) /\ ~ has_HISTOGRAM (e_mode e) /\
  let l := shortterm_blocks e t [late 30] in let d := rms_error x86_64 (e_rate e) 1 (e_cmap e) in
  (N.of_nat (length l) <= small_count)%N /\ decided 100 (2 * d) (tolerance (length l + 1000) / 6) l /\ loud l <> [] /\
  Permutation r (gated_blocks 100 l) /\ StronglySorted Rle r /\ 5 * d <= sqrt (low_of r).
Proof.
  destruct (late_case MODE_LRA 30 eq_refl ltac:(lia)) as (e & t & HPl & HA & HR & HC & HM & HH & HF). destruct (late_energy 30 ltac:(lia)) as (Z & HZ & EZ). exists e, t, [Z]. split; [exact HPl|]. split; [exact HA|]. split; [rewrite HR; split; vm_compute; discriminate|]. rewrite HM.
  split; [split; [split|]; reflexivity|]. split; [intros X; vm_compute in X; discriminate X|].
  unfold shortterm_blocks. rewrite HF, one_shortterm by lia. rewrite HH, HR, HC, EZ. cbv zeta. change (length [Z] + 1000)%nat with 1001%nat. destruct (one_loud Z HZ) as (_ & HL & HG). rewrite HL, HG by lra.
  split; [vm_compute; discriminate|]. split; [apply one_decided; [auto|lra|lia]|]. split; [discriminate|]. split; [reflexivity|]. split; [repeat constructor|]. change (low_of [Z]) with Z. pose proof (one_root Z HZ). pose proof late_error. cbn [pow] in *. lra.
Qed.
