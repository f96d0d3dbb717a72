(** An environment with precise tan, powf and log10, and an analyzer that heard an impulse in it. *)
From Coq Require Import List Arith NArith ZArith Bool Lia Reals Lra Psatz.
From Flocq Require Import Core IEEE754.BinarySingleNaN.
From Verif Require Import Prelude Float Env Tables Utils History Interp Filter Ebur128 Spec Spec_real Spec_filter Spec_coeff Spec_history Spec_accuracy Spec_exact Instance Instance_history Instance_accuracy Instance_coeff Instance_interp
  Float_proofs Accuracy_proofs Filter_proofs Ebur128_proofs Config_proofs Lufs_proofs Kweight_proofs Coeff_proofs Calibration_proofs Stream_proofs Trace_proofs Parallel_proofs Noise_proofs Heard_proofs Tight_proofs Exact_proofs.
Import ListNotations.
Import Spec_history.
Local Open Scope R_scope.

Definition env4 : ext := {|
  e_tan := e_tan env2; e_sin := e_sin env3; e_cos := e_cos env3; e_log10 := e_log10 env1;
  e_powf := e_powf env2; e_bsearch := e_bsearch env0; e_sort := e_sort env0
|}.
Lemma env4_log10 : log10_accurate env4. Proof. exact env1_accurate. Qed.
Lemma env4_powf : powf_accurate env4. Proof. exact env2_powf. Qed.
Lemma env4_tan : tan_precise env4.
Proof.
  intros x _ Hx. change (e_tan env4 x) with (nearby (tan (real x))). set (y := tan (real x)).
  assert (0 <= y <= 4) as HY.
  { pose proof (tan_lipschitz (real x) 0 ltac:(lra) ltac:(lra)) as L. rewrite tan_0, Rminus_0_r in L. rewrite (Rabs_pos_eq (real x - 0)) in L by lra. apply Rabs_le_inv in L. unfold y. split; [|lra].
    left. pose proof PI_digits. apply tan_gt_0; lra. }
  destruct (nearby_close y ltac:(rewrite Rabs_pos_eq; lra)) as (F & C). split; auto. rewrite (Rabs_pos_eq y) in C by lra. eapply Rle_trans; [exact C|].
  assert (u <= / 2 ^ 51) as U by (unfold roundoff; apply Rinv_le_contravar; [apply pow_lt; lra|apply Rle_pow; [lra|lia]]).
  assert (u * y <= / 2 ^ 51 * y) by (apply Rmult_le_compat_r; lra). assert (2 * / 2 ^ 60 <= / 2 ^ 58) by lra. lra.
Qed.

(** one channel at 48 kHz, one call *)
Section Mono.
Variables (E : ext) (m : N) (l : list f64).
Hypothesis Hm : has_M m.
Lemma mono_call : exists e0 e t ws, noted x86_64 E e0 (blank 1) [] [] /\ taped_session x86_64 E e0 (blank 1) [OpAdd (PF64 [l])] e t /\
  heard x86_64 E 0 e t l ws /\ e_channels e = 1%nat /\ e_rate e = 48000%N /\ e_cmap e = [Left] /\ e_mode e = m.
Proof.
  assert (is_64bit x86_64) as HP by (split; reflexivity).
  assert (channels_valid 1) as HC by (split; vm_compute; discriminate || reflexivity). assert (rate_valid 48000) as HR by (split; vm_compute; discriminate).
  destruct (proj2 (proj2 (new_spec x86_64 E 1 48000 m HP)) HC HR Hm) as (e & Hn & M & R & C & CM & _).
  assert (supported m 48000) as HS by (split; [right; vm_compute; discriminate|intros _; vm_compute; reflexivity]).
  assert (heard x86_64 E 0 e (blank 1) [] []) as H0 by (apply (heard_new x86_64 E 0 1 48000 m e Hn HS); vm_compute; lia).
  assert (admissible e (OpAdd (PF64 [l]))) as HA by (cbn [admissible]; unfold planes_match; rewrite C; reflexivity).
  destruct (proj2 (shortterm_available x86_64 E e HP (reach_new _ _ _ _ _ _ Hn HS)) _ HA) as (r & e' & Hs & _).
  assert (input x86_64 (e_channels e) (PF64 [l]) = Some [map (read x86_64 smp_f64) l]) as Hi by (cbn [input planar_input forallb]; rewrite Nat.eqb_refl; reflexivity).
  assert (nth 0 (e_cmap e) Unused <> Unused) as Hu by (rewrite CM; discriminate).
  pose proof (heard_add x86_64 E 0 e _ _ _ _ r e' _ H0 HA Hs Hi Hu) as H1. cbn [app nth] in H1. rewrite map_map in H1. change (map (fun x => r_64 (read x86_64 smp_f64 x)) l) with (map (fun x : f64 => x) l) in H1. rewrite map_id in H1.
  destruct (Capi_proofs.kept_config x86_64 E e _ r e' HP (reach_new _ _ _ _ _ _ Hn HS) HA Hs ltac:(discriminate)) as (K1 & K2).
  exists e, e', (tape_after x86_64 E e (OpAdd (PF64 [l])) (blank 1)). eexists.
  split; [apply (noted_new x86_64 E 1 48000 m e Hn HS)|]. split; [econstructor; eauto; constructor|]. split; [exact H1|]. split; [rewrite K1; exact C|]. split; [rewrite K2; exact R|].
  destruct (Loud_proofs.session_records x86_64 E HP e (blank 1) [OpAdd (PF64 [l])] e' (tape_after x86_64 E e (OpAdd (PF64 [l])) (blank 1))) as (_ & _ & HSt & _).
  - econstructor; eauto. constructor.
  - exact (heard_taped x86_64 E 0 e _ _ _ HP H0).
  - repeat constructor.
  - unfold settings in HSt. injection HSt. intros. split; [rewrite CM in *; auto|congruence].
Qed.
End Mono.

(** the impulse after [k] zeros *)
Definition impulse (k : nat) : list f64 := repeat f64_zero k ++ [f64_one].
Lemma first_coefficient : exists b0, 1 <= b0 /\ forall k, weighted 48000 (impulse k) = repeat 0 k ++ [b0].
Proof.
  set (c := coeff_inputsR (IZR (Z.of_N 48000))). exists (v0 (fst (coefficientsR c))). split.
  - destruct (rate_proper 48000) as (HP & _ & _). destruct (stable_rate 48000 ltac:(lra)) as (K0 & _). fold c in HP. change (coeff_inputsR 48000) with c in *.
    destruct (sections_ok c HP) as (B0 & _ & _ & _ & _ & _ & R0 & _). pose proof Vh_digits as V. pose proof Vb_digits as W. assert (1 <= Vb) as W1. { assert (0 < Vb) by apply exp_pos. nra. }
    change (v0 (fst (coefficientsR c))) with (pb0 (filter_sections arR c) * rb0 (filter_sections arR c)). rewrite B0, R0.
    change (c_Vh c) with Vh. change (c_Vb c) with Vb. change (c_Q1 c) with 0.7071752369554196. set (K := c_K1 c) in *. clearbody K. clear - K0 V W1.
    assert (0 < K / 0.7071752369554196) as Q0 by (apply Rdiv_lt_0_compat; lra). replace (Vb * K / 0.7071752369554196) with (Vb * (K / 0.7071752369554196)) by (unfold Rdiv; ring). set (q := K / 0.7071752369554196) in *. clearbody q.
    assert (0 < 1 + q + K * K) by nra. rewrite Rmult_1_r. apply Rmult_le_reg_r with (1 + q + K * K); auto. unfold Rdiv. rewrite Rmult_assoc, Rinv_l by lra. nra.
  - intros k. unfold weighted. fold c. destruct (coefficientsR c) as (b, a). cbn [fst]. unfold impulse. rewrite map_app.
    assert (map real (repeat f64_zero k) = repeat 0 k) as -> by (clear; induction k; cbn; auto; now f_equal). rewrite outputs_delay. f_equal.
    unfold outputsR. cbn [map filter_run]. unfold filter_step, rest. cbn [v0 v1 v2 v3 v4 ar_add ar_mul ar_sub arR snd]. rewrite (proj2 one_normal : real f64_one = 1). f_equal. ring.
Qed.
Lemma impulse_recent w k b0 : (1 <= w)%nat -> total (map (fun y => y * y) (recentR w (repeat 0 k ++ [b0]))) = b0 * b0.
Proof.
  intros Hw. unfold recentR. rewrite app_length, repeat_length. cbn [length]. rewrite app_assoc, <- repeat_app.
  replace (w + k)%nat with ((k + 1) + (w - 1))%nat by lia. rewrite repeat_app, <- app_assoc. rewrite skipn_app, skipn_all2 by (rewrite repeat_length; lia). rewrite repeat_length, Nat.sub_diag. cbn [skipn app].
  rewrite map_app, total_app. cbn [map total fold_right]. assert (forall n, total (map (fun y => y * y) (repeat 0 n)) = 0) as ->; [|ring].
  induction n; cbn [repeat map]; [reflexivity|]. change (total (?x :: ?l)) with (x + total l). rewrite IHn. ring.
Qed.
Lemma impulse_mean b0 : 1 <= b0 -> (forall k, weighted 48000 (impulse k) = repeat 0 k ++ [b0]) -> forall w k, (1 <= w)%nat -> exact_mean_square 48000 w [Left] [impulse k] = b0 * b0 / INR w.
Proof.
  intros H1 HB w k Hw. unfold exact_mean_square. cbn [combine map total fold_right weight]. rewrite HB, impulse_recent by auto. unfold Rdiv. ring.
Qed.
Lemma impulse_case : exists e t, heard_all x86_64 env4 1 e t [impulse 1000] /\ audio_rate (e_rate e) /\
  (exists v, ask x86_64 env4 e QMomentary = Ret (AValue (Ok v))) /\
  let Z := exact_mean_square (e_rate e) (4 * hop e) (e_cmap e) [impulse 1000] in / 10 ^ 30 <= Z /\ 4 * rms_error x86_64 (e_rate e) 1 (e_cmap e) <= sqrt Z.
Proof.
  assert (is_64bit x86_64) as HP by (split; reflexivity).
  destruct (mono_call env4 MODE_M (impulse 1000) eq_refl) as (e0 & e & t & ws & _ & _ & H & HC & HR & HM & _). exists e, t.
  pose proof (heard_taped _ _ _ _ _ _ _ HP H) as HT. split; [|split; [|split]].
  - split; [rewrite HC; reflexivity|]. split; auto. intros c Hc _. rewrite HC in Hc. replace c with 0%nat by lia. split; [eauto|]. cbn [nth]. apply Forall_app. split.
    + apply Forall_forall. intros x Hx. apply repeat_spec in Hx. subst x. split; [reflexivity|]. unfold real. cbn. rewrite Rabs_R0. lra.
    + constructor; [|constructor]. split; [apply one_normal|]. rewrite (proj2 one_normal : real f64_one = 1), Rabs_R1. lra.
  - rewrite HR. split; vm_compute; discriminate.
  - eexists. apply (Loud_proofs.ask_momentary x86_64 env4 e t HP HT).
  - assert (4 * hop e = N.to_nat 19200)%nat as -> by (unfold hop; rewrite HR; vm_compute; reflexivity).
    rewrite HR, HM. destruct first_coefficient as (b0 & B1 & HB). cbv zeta. rewrite (impulse_mean b0 B1 HB) by lia.
    assert (INR (N.to_nat 19200) = 19200) as -> by (rewrite INR_IZR_INZ, N_nat_Z; reflexivity).
    assert (/ 19200 <= b0 * b0 / 19200) as HZ by nra. split.
    + apply Rle_trans with (/ 19200); auto. apply Rinv_le_contravar; [lra|]. cbn. lra.
    + unfold rms_error, filter_error. cbn [map weight total fold_right p_ftz x86_64]. rewrite Rplus_0_r, sqrt_1. change (IZR (Z.of_N 48000)) with 48000.
      apply Rle_trans with (4 * (4.3 / 10 ^ 6)).
      * apply Rmult_le_compat_l; [lra|]. rewrite Rmult_1_l. replace (48000 / 48000) with 1 by lra. rewrite pow1. assert (/ 2 ^ 1000 <= / 2 ^ 30); [apply Rinv_le_contravar; [apply pow_lt; lra|apply Rle_pow; [lra|lia]]|]. lra.
      * rewrite <- (sqrt_square (4 * (4.3 / 10 ^ 6))) by lra. apply sqrt_le_1_alt. lra.
Qed.
