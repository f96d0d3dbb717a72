(** Cases for C85. *)
From Coq Require Import List Arith NArith ZArith Bool Reals Lra Lia.
From Verif Require Import Prelude Float Env Spec Spec_history Spec_cref Utils Filter Cref Cref_filter Cref_interp Cref_meter Spec_real Spec_interp Spec_cref_filter Spec_cref_interp Spec_cref_meter
  Overshoot_proofs Cref_format_proofs Cref_peak_proofs Instance Instance_interp Instance_cref Cref_interp_examples.
Import ListNotations.

Lemma one_plane {T} (l : list T) : same_audio 1 (length l) l [l].
Proof.
  split; [lia|]. split; [reflexivity|]. split; [repeat constructor|]. intros c i Hc Hi. assert (c = 0) as -> by lia. destruct (nth_error l i) as [x|] eqn:E; [|apply nth_error_None in E; lia].
  exists l, x. split; [reflexivity|]. split; [exact E|]. now rewrite Nat.mul_1_r, Nat.add_0_r.
Qed.
Lemma signs_suitable l i : forallb (fun z => (z =? 1) || (z =? -1))%Z l = true -> i + length l <= 32 -> suitable x86_64 smp_f32 c_float 48000 1 32 1 true (Process (mono (signs l)) i).
Proof.
  intros H Hl. assert (length (mono (signs l)) = length l) as El by (unfold mono, signs; now rewrite !map_length). cbn [suitable]. rewrite El. split; [exact Hl|]. split; [|intros _; split].
  - unfold mono. apply Forall_map. apply Forall_forall. intros x _. split; [reflexivity|]. constructor; [apply reads_f32|constructor].
  - assert (32 <= N.to_nat ((48000 + 5) / 10) * 4) as K by (apply Nat.leb_le; vm_compute; reflexivity). lia.
  - unfold mono. apply Forall_map. unfold signs. apply Forall_map. apply Forall_forall. intros z Hz. constructor; [|constructor].
    assert (resampled_c x86_64 c_float (f32_of_Z z) = f32_of_Z z) as R.
    { apply sign_resampled. rewrite forallb_forall in H. specialize (H _ Hz). apply orb_true_iff in H. rewrite !Z.eqb_eq in H. exact H. }
    split; [exact R|]. cbn [smp_f32 s_f32]. pose proof (signs_moderate _ (signs_checked _ H)) as Q. rewrite Forall_forall in Q. apply Q. unfold signs. apply in_map. exact Hz.
Qed.
Lemma evs_case : Forall (suitable x86_64 smp_f32 c_float 48000 1 32 1 true) [Process (mono seeds) 0; ResetPeaks; Process (mono adds) 11].
Proof.
  apply Forall_cons; [apply signs_suitable; [reflexivity|rewrite map_length, seq_length; lia]|]. apply Forall_cons; [exact I|].
  apply Forall_cons; [apply signs_suitable; [reflexivity|rewrite map_length, seq_length; lia]|]. apply Forall_nil.
Qed.
Definition demo_chain : list (stage f32) :=
  [Handle (Process (mono seeds) 0); Measure 8 11; Handle ResetPeaks; Handle (Process (mono adds) 11); Measure 15 15].
Lemma demo_chain_suitable : Forall (stage_suitable x86_64 smp_f32 c_float 48000 1 32 1 true) demo_chain.
Proof.
  pose proof evs_case as H. apply Forall_cons_iff in H. destruct H as (H1 & H). apply Forall_cons_iff in H. destruct H as (H2 & H). apply Forall_cons_iff in H. destruct H as (H3 & _). unfold demo_chain.
  apply Forall_cons; [exact H1|]. apply Forall_cons; [split; lia|]. apply Forall_cons; [exact H2|]. apply Forall_cons; [exact H3|]. apply Forall_cons; [split; lia|]. apply Forall_nil.
Qed.
(** its two energies *)
Definition demo_energies : list f64 :=
  match (f0 <- filter_new env5 48000 1 true true ;; ofold (rust_stage x86_64 smp_f32 1 [Center]) (f0, concat [repeat f64_zero 32], []) demo_chain) with
  | Ret (_, _, xs) => xs
  | _ => []
  end.
Lemma demo_energies_ok : length demo_energies = 2 /\ forallb (fun x => negb (f64_is_nan x) && measurable x) demo_energies = true.
Proof. split; vm_compute; reflexivity. Qed.
