(** Cases for C84. *)
From Coq Require Import List Arith NArith ZArith Bool Reals Lra Lia.
From Flocq Require Import IEEE754.BinarySingleNaN.
From Verif Require Import Prelude Float Env Utils Filter Cref Cref_filter Cref_interp Ebur128 Spec Spec_real Spec_interp Spec_cref_interp
  Format_proofs Config_proofs Overshoot_proofs Cref_filter_examples Cref_peak_proofs Cref_session_proofs Instance Instance_interp.
Import ListNotations.
Local Open Scope R_scope.

Definition L3 : libc := libc_of env3.
Lemma L3_sin : csin_accurate L3. Proof. exact env3_sin. Qed.
Lemma L3_cos : ccos_accurate L3. Proof. exact env3_cos. Qed.
(** a mono signal as frames *)
Definition mono (l : list f32) : list (list f32) := map (fun x => [x]) l.
Lemma mono_sizes l : Forall (fun fr => length fr = 1%nat) (mono l).
Proof. unfold mono. apply Forall_map, Forall_forall. reflexivity. Qed.
Lemma mono_channel l : channel_of 0 (mono l) = l.
Proof. unfold channel_of, mono. rewrite map_map. apply map_id. Qed.
Lemma sign_resampled z : z = 1%Z \/ z = (-1)%Z -> resampled_c x86_64 c_float (f32_of_Z z) = f32_of_Z z.
Proof. intros H. rewrite (resampled_f32 x86_64); [reflexivity|]. intros _. destruct H as [->| ->]; vm_compute; reflexivity. Qed.
Lemma signs_resampled l : forallb (fun z => (z =? 1) || (z =? -1))%Z l = true -> map (map (resampled_c x86_64 c_float)) (mono (signs l)) = mono (signs l).
Proof.
  induction l as [|z l IH]; intros H; [reflexivity|]. cbn [forallb] in H. apply andb_true_iff in H. destruct H as (H1 & H2). unfold signs, mono in *. cbn [map]. rewrite IH by auto. rewrite sign_resampled; [reflexivity|].
  apply orb_true_iff in H1. rewrite !Z.eqb_eq in H1. exact H1.
Qed.
Lemma seeds_same : map (map (resampled_c x86_64 c_float)) (mono seeds) = mono seeds.
Proof. apply signs_resampled. reflexivity. Qed.
Lemma adds_same : map (map (resampled_c x86_64 c_float)) (mono adds) = mono adds.
Proof. apply signs_resampled. reflexivity. Qed.
Lemma fed_case : exists tp, fed_c x86_64 L3 48000 1 tp (mono seeds).
Proof.
  destruct (true_peak_create_c L3 48000 1) as [tp0|] eqn:E0; [|apply create_none in E0; discriminate E0].
  pose proof (fed_create x86_64 L3 48000 1 tp0 E0) as F0.
  destruct (true_peak_near x86_64 L3 c_float 48000 12 4 1 tp0 [] (mono seeds) [f64_zero] 1 F0 eq_refl L3_sin L3_cos) as (tp & pks & _ & F & _).
  - split; [lra|]. apply pow_R1_Rle. lra.
  - apply mono_sizes.
  - unfold mono, seeds, signs. rewrite !map_length, seq_length. apply Nat.leb_le. vm_compute. reflexivity.
  - exists tp. cbn [app] in F. now rewrite seeds_same in F.
Qed.
Lemma room_case : (length (mono adds) <= N.to_nat ((48000 + 5) / 10) * 4)%nat.
Proof. unfold mono, adds, signs. rewrite !map_length, seq_length. apply Nat.leb_le. vm_compute. reflexivity. Qed.
Lemma metered_case : exists tp peaks, metered_c x86_64 L3 48000 1 tp (mono seeds) peaks.
Proof.
  destruct (true_peak_create_c L3 48000 1) as [tp0|] eqn:E0; [|apply create_none in E0; discriminate E0].
  pose proof (fed_create x86_64 L3 48000 1 tp0 E0) as F0. pose proof (metered_create x86_64 L3 48000 1 tp0 E0) as M0.
  destruct (true_peak_near x86_64 L3 c_float 48000 12 4 1 tp0 [] (mono seeds) (repeat f64_zero 1) 1 F0 eq_refl L3_sin L3_cos) as (tp & pks & E & _ & _).
  - split; [lra|]. apply pow_R1_Rle. lra.
  - apply mono_sizes.
  - unfold mono, seeds, signs. rewrite !map_length, seq_length. apply Nat.leb_le. vm_compute. reflexivity.
  - exists tp, pks. pose proof (metered_check x86_64 L3 48000 1 tp0 [] f32 c_float (mono seeds) _ tp pks M0 (mono_sizes seeds) E) as F. cbn [app] in F. now rewrite seeds_same in F.
Qed.
Lemma added_case : exists e lg, added x86_64 env3 e lg /\ e_rate e = 48000%N /\ e_channels e = 1%nat /\ has_TRUE_PEAK (e_mode e) /\ channel 0 (lg_heard lg) = map (read x86_64 smp_f32) seeds.
Proof.
  assert (is_64bit x86_64) as HP by (split; reflexivity). assert (channels_valid 1) as HC by (split; vm_compute; discriminate || reflexivity).
  assert (rate_valid 48000) as HR by (split; vm_compute; discriminate).
  destruct (proj2 (proj2 (new_spec x86_64 env3 1 48000 MODE_TRUE_PEAK HP)) HC HR ltac:(reflexivity)) as (e0 & Hn & M0 & R0 & C0 & _).
  assert (supported MODE_TRUE_PEAK 48000) as HS by (split; [right; vm_compute; discriminate|intros (_ & H); vm_compute in H; discriminate H]).
  pose proof (added_new x86_64 env3 1 48000 MODE_TRUE_PEAK e0 Hn HS) as A0. pose proof (added_logged _ _ _ _ A0) as L0.
  destruct (step_exists e0 _ (OpAdd (AF32 seeds)) L0 I) as (r1 & e1 & S1). pose proof (added_step x86_64 env3 e0 (AF32 seeds) r1 e1 _ A0 I S1) as A1.
  destruct (add_config x86_64 env3 e0 _ (AF32 seeds) r1 e1 HP L0 I S1) as (_ & M1 & C1 & R1). eexists e1, _. split; [exact A1|]. split; [congruence|]. split; [rewrite C1, C0; reflexivity|]. split; [rewrite M1, M0; repeat split; reflexivity|].
  cbn [log_after]. rewrite C0. change (N.to_nat 1) with 1%nat. pose proof (mono_input x86_64 seeds) as I1. unfold channel_input in I1. change (input x86_64 1 (AF32 seeds)) with (Some [map (read x86_64 smp_f32) seeds]). reflexivity.
Qed.
