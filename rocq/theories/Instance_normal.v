(** A programme and the same programme at twice the amplitude, for C76. *)
From Coq Require Import List Arith NArith ZArith Bool Lia Reals Lra Psatz.
From Flocq Require Import Core IEEE754.BinarySingleNaN.
From Verif Require Import Prelude Float Env Tables Utils History Interp Filter Ebur128 Spec Spec_real Spec_filter Spec_coeff Spec_history Spec_accuracy Spec_exact Spec_programme Spec_normal Instance Instance_history Instance_accuracy Instance_coeff Instance_interp
  Float_proofs Accuracy_proofs Ebur128_proofs Coeff_proofs Loud_proofs Heard_proofs Exact_proofs Instance_exact Played_proofs Normal_proofs Instance_played.
Import ListNotations.
Import Spec_history Spec_exact.
Local Open Scope R_scope.

Definition two : f64 := f64_of_Z 2.
Lemma two_value : is_finite two = true /\ real two = 2.
Proof. exact (exact_int 2 ltac:(lia)). Qed.
Definition loud_late (q : nat) : list f64 := repeat f64_zero (q * N.to_nat 4800 - 1) ++ [two].
Lemma loud_late_length q : (1 <= q)%nat -> length (loud_late q) = (q * N.to_nat 4800)%nat.
Proof. intros H. unfold loud_late. rewrite app_length, repeat_length. change (length [two]) with 1%nat. assert (1 <= N.to_nat 4800)%nat by lia. nia. Qed.
Lemma loud_late_case q : (1 <= q)%nat ->
  exists e t, played x86_64 env4 e t /\ heard_all x86_64 env4 2 e t [loud_late q] /\ e_rate e = 48000%N /\ e_cmap e = [Left] /\ e_mode e = MODE_I /\ hop e = N.to_nat 4800 /\ frames_of (signals t) = (q * hop e)%nat.
Proof.
  intros Hq. assert (is_64bit x86_64) as HP by (split; reflexivity).
  destruct (mono_call env4 MODE_I (loud_late q) eq_refl) as (e0 & e & t & ws & HN & HS & H & HC & HR & HM & HMo). exists e, t.
  assert (samples_below 2 (loud_late q)) as HB.
  { apply Forall_app. split.
    + apply Forall_forall. intros x Hx. apply repeat_spec in Hx. subst x. split; [reflexivity|]. unfold real. cbn. rewrite Rabs_R0. lra.
    + constructor; [|constructor]. split; [apply two_value|]. rewrite (proj2 two_value). rewrite Rabs_pos_eq; lra. }
  assert (heard_all x86_64 env4 2 e t [loud_late q]) as HA.
  { split; [rewrite HC; reflexivity|]. split; [exact (heard_taped _ _ _ _ _ _ _ HP H)|]. intros c Hc _. rewrite HC in Hc. replace c with 0%nat by lia. split; [eauto|]. exact HB. }
  assert (hop e = N.to_nat 4800) as HH by (unfold hop; rewrite HR; vm_compute; reflexivity).
  split; [|split; [exact HA|split; [exact HR|split; [exact HM|split; [exact HMo|split; [exact HH|]]]]]].
  - exists e0, (blank 1), [OpAdd (PF64 [loud_late q])]. split; [exact HN|]. split; [reflexivity|]. split; [exact HS|]. repeat constructor.
  - pose proof (heard_exact x86_64 env4 0 HP env4_tan env4_powf e t (loud_late q) ws 2 H ltac:(rewrite HR; split; vm_compute; discriminate) ltac:(split; [lra|replace 2 with (2 ^ 1) at 1 by lra; apply Rle_pow; [lra|lia]]) HB) as F. apply Forall2_length in F.
    assert (length (weighted (e_rate e) (loud_late q)) = length (loud_late q)) as L. { unfold weighted. destruct (coefficientsR _) as (b, a). unfold outputsR. rewrite Filter_proofs.filter_run_length. apply map_length. }
    rewrite L, loud_late_length in F by auto. rewrite HH. unfold frames_of. destruct (signals t); exact F.
Qed.
Lemma twice q : amplified 2 0 [Left] [late q] [loud_late q].
Proof.
  split; [reflexivity|]. intros c Hc _. change (length [Left]) with 1%nat in Hc. replace c with 0%nat by lia. cbn [nth]. unfold late, impulse, loud_late. apply Forall2_app.
  - generalize (q * N.to_nat 4800 - 1)%nat. induction n; cbn [repeat]; constructor; auto. unfold real. cbn. rewrite Rmult_0_r, Rminus_0_r, Rabs_R0. lra.
  - constructor; [|constructor]. rewrite (proj2 two_value). rewrite (proj2 one_normal : real f64_one = 1). replace (2 - 2 * 1) with 0 by ring. rewrite Rabs_R0. lra.
Qed.
Lemma twice_error : 0 <= gain_error x86_64 48000 2 0 [Left] <= 8.6 / 10 ^ 6.
Proof.
  unfold gain_error, filter_error. cbn [map weight total fold_right p_ftz x86_64]. rewrite Rplus_0_r, sqrt_1. change (IZR (Z.of_N 48000)) with 48000. rewrite Rmult_1_l. replace (48000 / 48000) with 1 by lra. rewrite pow1.
  assert (0 < / 2 ^ 1000 <= / 2 ^ 30); [split; [apply Rinv_0_lt_compat, pow_lt; lra|apply Rinv_le_contravar; [apply pow_lt; lra|apply Rle_pow; [lra|lia]]]|]. lra.
Qed.
Lemma twice_gain x : gain_of (x + 20 * (ln 2 / ln 10) - x) = 2.
Proof.
  unfold gain_of, Rpower. assert (0 < ln 10) by (rewrite <- ln_1; apply ln_increasing; lra). replace ((x + 20 * (ln 2 / ln 10) - x) / 20 * ln 10) with (ln 2) by (field; lra). apply exp_ln. lra.
Qed.
Lemma normal_case : exists e t f t2 T v, played x86_64 env4 e t /\ heard_all x86_64 env4 1 e t [late 4] /\ played x86_64 env4 f t2 /\ heard_all x86_64 env4 2 f t2 [loud_late 4] /\
  e_rate f = e_rate e /\ e_cmap f = e_cmap e /\ frames_of (signals t2) = frames_of (signals t) /\ audio_rate (e_rate e) /\
  has_I (e_mode e) /\ ~ has_HISTOGRAM (e_mode e) /\ has_I (e_mode f) /\ ~ has_HISTOGRAM (e_mode f) /\
  ask x86_64 env4 e QGlobal = Ret (AValue (Ok v)) /\ let g := gain_of (T - real v) in amplified g 0 (e_cmap e) [late 4] [loud_late 4] /\
  let l := momentary_blocks e t [late 4] in let d := rms_error x86_64 (e_rate e) 1 (e_cmap e) in let d2 := gain_error x86_64 (e_rate e) 2 0 (e_cmap e) in let n := (length l + 105)%nat in
  (N.of_nat n <= 2 ^ 50)%N /\ decided 10 (2 * d) (tolerance n / 6) l /\ decided 10 (2 * d2) (tolerance n / 6) (louder g l) /\ loud l <> [] /\ not_below (minus_70 / (g * g)) l = loud l /\
  let r := sqrt (average (gated_blocks 10 l)) in 5 * d <= r /\ 5 * d2 <= g * r.
Proof.
  destruct (late_case MODE_I 4 eq_refl ltac:(lia)) as (e & t & HPl & HA & HR & HC & HM & HH & HF).
  destruct (loud_late_case 4 ltac:(lia)) as (f & t2 & HPl2 & HA2 & HR2 & HC2 & HM2 & HH2 & HF2).
  assert (is_64bit x86_64) as HP by (split; reflexivity). assert (audio_rate (e_rate e)) as HAR by (rewrite HR; split; vm_compute; discriminate).
  assert (has_I (e_mode e)) as HI by (rewrite HM; split; reflexivity). assert (~ has_HISTOGRAM (e_mode e)) as Hh by (rewrite HM; intros X; vm_compute in X; discriminate X).
  destruct (late_energy 4 ltac:(lia)) as (Z & HZ & EZ).
  assert (momentary_blocks e t [late 4] = [Z]) as EB. { unfold momentary_blocks. rewrite HF, one_momentary by lia. now rewrite HH, HR, HC. }
  assert (exists v, ask x86_64 env4 e QGlobal = Ret (AValue (Ok v))) as (v & HV).
  { destruct (integrated_exact x86_64 env4 1 e t [late 4] HP env4_powf_values env4_log10 env4_tan env4_powf HPl HA HAR ltac:(split; [lra|apply pow_R1_Rle; lra]) HI Hh) as (v & HV & _); [..|eauto]; rewrite ?EB, ?HR, ?HC; destruct (one_loud Z HZ) as (_ & HL & HG).
    - vm_compute; discriminate.
    - apply one_decided; [auto|lra|cbn; lia].
    - rewrite HL. discriminate.
    - rewrite HG by lra. unfold average. cbn [total fold_right length INR]. rewrite Rplus_0_r. replace (Z / 1) with Z by lra. pose proof (one_root Z HZ). pose proof late_error. cbn [pow] in *. lra. }
  exists e, t, f, t2, (real v + 20 * (ln 2 / ln 10)), v. split; [exact HPl|]. split; [exact HA|]. split; [exact HPl2|]. split; [exact HA2|]. split; [congruence|]. split; [congruence|]. split; [rewrite HF, HF2, HH, HH2; reflexivity|]. split; [exact HAR|].
  split; [exact HI|]. split; [exact Hh|]. split; [rewrite HM2; split; reflexivity|]. split; [rewrite HM2; intros X; vm_compute in X; discriminate X|]. split; [exact HV|].
  rewrite twice_gain, EB, HC, HR. cbv zeta. split; [apply twice|]. change (length [Z] + 105)%nat with 106%nat. assert (/ 144000 <= 2 * 2 * Z) as HZ2 by lra. destruct (one_loud Z HZ) as (HM0 & HL & HG). rewrite HL, HG by lra.
  split; [vm_compute; discriminate|]. split; [apply one_decided; [auto|lra|lia]|]. split.
  { change (louder 2 [Z]) with [2 * 2 * Z]. apply one_decided_of; [|auto|lra|lia]. pose proof twice_error. cbn [pow] in *. lra. }
  split; [discriminate|]. split.
  { unfold not_below. cbn [List.filter]. destruct (Rle_dec (minus_70 / (2 * 2)) Z) as [|N0]; [reflexivity|]. destruct N0. pose proof minus_70_bounds as (M0 & _). assert (0 < / 10 ^ 7) by (apply Rinv_0_lt_compat, pow_lt; lra). lra. }
  unfold average. cbn [total fold_right length INR]. rewrite Rplus_0_r. replace (Z / 1) with Z by lra. pose proof (one_root Z HZ). pose proof late_error. pose proof twice_error. cbn [pow] in *. lra.
Qed.
Lemma reading_case : exists e t q w v, heard_all x86_64 env4 2 e t [loud_late 4] /\ audio_rate (e_rate e) /\ amplified 2 0 (e_cmap e) [late 4] [loud_late 4] /\
  reads_last e q w /\ ask x86_64 env4 e q = Ret (AValue (Ok v)) /\
  let Z := exact_mean_square (e_rate e) w (e_cmap e) [late 4] in / 10 ^ 30 <= 2 * 2 * Z /\ 4 * gain_error x86_64 (e_rate e) 2 0 (e_cmap e) <= 2 * sqrt Z.
Proof.
  destruct (loud_late_case 4 ltac:(lia)) as (e & t & _ & HA & HR & HC & _ & HH & _). exists e, t, QMomentary, (4 * hop e)%nat. eexists.
  split; [exact HA|]. split; [rewrite HR; split; vm_compute; discriminate|]. split; [rewrite HC; apply twice|]. split; [now left|]. split; [apply (Loud_proofs.ask_momentary x86_64 env4 e t ltac:(split; reflexivity)); apply HA|].
  destruct (late_energy 4 ltac:(lia)) as (Z & HZ & EZ). unfold exact_energies in EZ. cbn [map] in EZ. rewrite firstn_all2 in EZ by (rewrite late_length by lia; lia). apply (f_equal (hd 0)) in EZ. unfold hd in EZ.
  rewrite HR, HC, HH, EZ. cbv zeta. split.
  - apply Rle_trans with (/ 144000); [apply Rinv_le_contravar; cbn; lra|lra].
  - pose proof (one_root Z HZ). pose proof twice_error. cbn [pow] in *. lra.
Qed.
