(** An environment with accurate sin and cos, and analyzers at a quarter of the sample rate in it. *)
From Coq Require Import List Arith NArith ZArith Bool Lia Reals Lra Psatz.
From Flocq Require Import Core IEEE754.BinarySingleNaN.
From Verif Require Import Prelude Float Env Utils History Interp Filter Ebur128 Spec Spec_real Spec_response Spec_interp Instance Instance_coeff
  Float_proofs Ebur128_proofs Config_proofs Accuracy_proofs Lufs_proofs Coeff_proofs Peak_proofs Tone_proofs Oversample_proofs Overshoot_proofs.
Import ListNotations.
Local Open Scope R_scope.

Definition env3 : ext := {|
  e_tan := e_tan env2; e_sin := fun x => nearby (sin (real x)); e_cos := fun x => nearby (cos (real x)); e_log10 := e_log10 env2;
  e_powf := e_powf env2; e_bsearch := e_bsearch env2; e_sort := e_sort env2
|}.
Lemma nearby_unit y : Rabs y <= 1 -> is_finite (nearby y) = true /\ Rabs (real (nearby y) - y) <= / 2 ^ 50.
Proof. intros H. destruct (nearby_close y ltac:(lra)) as (F & C). split; auto. pose proof u_value. pose proof u_pos. assert (u * Rabs y <= u * 1) by (apply Rmult_le_compat_l; lra). lra. Qed.
Lemma env3_sin : sin_accurate env3.
Proof. intros x _ _. apply nearby_unit. apply sin_unit. Qed.
Lemma env3_cos : cos_accurate env3.
Proof. intros x _ _. apply nearby_unit. apply cos_unit. Qed.

(** a tone at a quarter of the sample rate whose samples are all 1 or -1 *)
Lemma quarter_step n : sinusoid 48000 12000 1 1 (S (S n)) = - sinusoid 48000 12000 1 1 n.
Proof.
  unfold sinusoid. rewrite !S_INR. set (x := 2 * PI * 12000 / 48000 * INR n). replace (2 * PI * 12000 / 48000 * (INR n + 1 + 1)) with (x + PI) by (unfold x; field). rewrite neg_cos, neg_sin. ring.
Qed.
Lemma quarter_0 : sinusoid 48000 12000 1 1 0 = 1.
Proof. unfold sinusoid. cbn [INR]. rewrite Rmult_0_r, cos_0, sin_0. ring. Qed.
Lemma quarter_1 : sinusoid 48000 12000 1 1 1 = 1.
Proof. unfold sinusoid. cbn [INR]. replace (2 * PI * 12000 / 48000 * 1) with (PI / 2) by field. rewrite cos_PI2, sin_PI2. ring. Qed.
Fixpoint quarter (n : nat) : Z := match n with O | 1%nat => 1 | S (S n) => - quarter n end.
Lemma quarter_value n : sinusoid 48000 12000 1 1 n = IZR (quarter n) /\ sinusoid 48000 12000 1 1 (S n) = IZR (quarter (S n)).
Proof.
  induction n as [|n (A & B)]; [split; [apply quarter_0|apply quarter_1]|]. split; auto. rewrite quarter_step. change (quarter (S (S n))) with (- quarter n)%Z. rewrite opp_IZR. lra.
Qed.
Lemma quarter_sign n : (quarter n = 1 \/ quarter n = -1)%Z /\ (quarter (S n) = 1 \/ quarter (S n) = -1)%Z.
Proof. induction n as [|n (A & B)]; [cbn; auto|]. split; auto. change (quarter (S (S n))) with (- quarter n)%Z. lia. Qed.
Definition seeds : list f32 := signs (map quarter (seq 0 11)).
Definition adds : list f32 := signs (map quarter (seq 11 4)).
Lemma quarter_sample n : is_finite (f32_of_Z (quarter n)) = true /\ real32 (f32_of_Z (quarter n)) = sinusoid 48000 12000 1 1 n.
Proof. destruct (sign_real (quarter n) (proj1 (quarter_sign n))) as (F & R). rewrite (proj1 (quarter_value n)). auto. Qed.
Lemma quarter_read P n : is_finite (r_64 (read P smp_f32 (f32_of_Z (quarter n)))) = true /\ real (r_64 (read P smp_f32 (f32_of_Z (quarter n)))) = sinusoid 48000 12000 1 1 n.
Proof.
  destruct (quarter_sample n) as (F & R). rewrite <- R. destruct (f64_of_f32_finite _ F) as (F' & E' & _). split; [exact F'|exact E'].
Qed.
Lemma quarter_carried P : carries_tone 11 48000 12000 1 1 0 seeds (map (read P smp_f32) adds).
Proof.
  split; [cbn; lia|]. split.
  - intros i Hi x. assert (x = f32_of_Z (quarter i)) as ->.
    { unfold x, seeds, signs. rewrite !map_length, seq_length. cbn [Nat.sub Nat.add]. rewrite (nth_indep _ f32_zero (f32_of_Z (quarter 0))) by (rewrite !map_length, seq_length; lia).
      rewrite (map_nth f32_of_Z), (map_nth quarter), seq_nth by lia. reflexivity. }
    destruct (quarter_sample i) as (F & R). split; auto. rewrite R, Rminus_eq_0, Rabs_R0. lra.
  - intros i rd Hi. unfold adds, signs in Hi. rewrite !map_map in Hi. rewrite nth_error_map in Hi. destruct (nth_error (seq 11 4) i) as [k|] eqn:Ek; [|discriminate]. cbn [option_map] in Hi.
    assert (k = 11 + i)%nat as ->. { assert (i < length (seq 11 4))%nat as Li by (apply nth_error_Some; congruence). rewrite seq_length in Li. apply (nth_error_nth _ _ 0%nat) in Ek. rewrite seq_nth in Ek by lia. auto. }
    injection Hi as <-. destruct (quarter_read P (11 + i)) as (F & R). split; [exact F|]. apply Req_le. rewrite <- Rabs_R0. f_equal. apply Rminus_diag_eq. exact R.
Qed.
Lemma quarter_amplitude : 1.4142 <= amplitude 1 1 <= 1.4143.
Proof. unfold amplitude. replace (1 * 1 + 1 * 1) with 2 by ring. pose proof Taps_proofs.sqrt2_digits. lra. Qed.

(** a new analyzer and its log *)
Lemma mono_new rate : rate_valid rate -> (18 <= rate)%N -> exists e, logged x86_64 env3 e (empty_log 1) /\ e_mode e = MODE_TRUE_PEAK /\ e_rate e = rate /\ e_channels e = 1%nat /\ (forall top, (rate < top)%N -> limited x86_64 env3 1 top e).
Proof.
  intros HR H18. assert (is_64bit x86_64) as HP by (split; reflexivity). assert (channels_valid 1) as HC by (split; vm_compute; discriminate || reflexivity).
  destruct (proj2 (proj2 (new_spec x86_64 env3 1 rate MODE_TRUE_PEAK HP)) HC HR ltac:(reflexivity)) as (e & Hn & M & R & C & _).
  assert (supported MODE_TRUE_PEAK rate) as HS by (split; [right; exact H18|intros (_ & H); vm_compute in H; discriminate H]).
  exists e. split; [exact (logged_new x86_64 env3 1 rate MODE_TRUE_PEAK e Hn HS)|]. split; auto. split; auto. split; auto. intros top Ht. eapply limited_new; eauto.
Qed.
Lemma step_exists e lg o : logged x86_64 env3 e lg -> admissible e o -> exists r e', step x86_64 env3 e o = Ret (r, e').
Proof.
  intros Hl Ha. assert (is_64bit x86_64) as HP by (split; reflexivity). destruct (logged_ok _ _ _ _ HP Hl) as (g & L & HG & _).
  destruct (Trace_proofs.step_good x86_64 env3 e g L o HP HG (Reach_proofs.admissible_op_ok _ _ Ha)) as (r & e' & g' & L' & Hs & _). eauto.
Qed.
Lemma quarter_case : exists e lg r e', logged x86_64 env3 e lg /\ e_rate e = 48000%N /\ e_channels e = 1%nat /\ has_TRUE_PEAK (e_mode e) /\
  step x86_64 env3 e (OpAdd (AF32 adds)) = Ret (r, e') /\ channel 0 (lg_past lg) = seeds.
Proof.
  assert (is_64bit x86_64) as HP by (split; reflexivity). destruct (mono_new 48000) as (e0 & L0 & M0 & R0 & C0 & _); [split; vm_compute; discriminate|vm_compute; discriminate|].
  destruct (step_exists e0 _ (OpSeed (AF32 seeds)) L0 I) as (r1 & e1 & S1). pose proof (logged_step x86_64 env3 e0 (OpSeed (AF32 seeds)) r1 e1 _ L0 I S1) as L1.
  destruct (step_exists e1 _ (OpAdd (AF32 adds)) L1 I) as (r2 & e2 & S2).
  destruct (logged_ok _ _ _ _ HP L0) as (g & L & HG & _). destruct (Trace_proofs.step_moves x86_64 env3 e0 g L (OpSeed (AF32 seeds)) r1 e1 HP HG I S1) as (g' & L' & _ & HM).
  apply moved_config in HM. destruct HM as (M1 & R1 & C1).
  exists e1, (log_after x86_64 env3 e0 (OpSeed (AF32 seeds)) (empty_log 1)), r2, e2. split; auto. split; [congruence|]. split; [congruence|]. split; [rewrite M1, M0; repeat split; reflexivity|]. split; auto.
  cbn [log_after]. assert (exists new, input x86_64 (e_channels e0) (AF32 seeds) = Some [new] /\ map r_32 new = seeds) as (new & -> & EN); [|cbn [lg_past empty_log]; cbn; rewrite EN; reflexivity].
  rewrite C0. exists (map (read x86_64 smp_f32) seeds). split; [reflexivity|]. rewrite map_map. cbn [r_32 read smp_f32 s_f32]. apply map_id.
Qed.
