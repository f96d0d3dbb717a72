(** Concrete recordings for the example programs (C78, C79). *)
From Coq Require Import List Arith NArith ZArith Reals Lia.
From Flocq Require Import IEEE754.BinarySingleNaN.
From Verif Require Import Prelude Float Env Utils Interp History TruePeak Filter Ebur128 Programs Spec Spec_real Spec_coeff Spec_history Spec_accuracy Spec_programs Instance Instance_accuracy
  Examples Stream_examples Instance_history Programs_proofs.
Import ListNotations.
Local Open Scope nat_scope.

(** 400 ms at 20 Hz, mono, of amplitude up to 300 [k] *)
Definition tune (k : Z) : recording := {| w_channels := 1; w_rate := 20; w_samples := map (Z.mul k) [300; -200; 250; -300; 100; 300; -250; 150]%Z |}.
(** 300 ms of it *)
Definition short_tune (k : Z) : recording := {| w_channels := 1; w_rate := 20; w_samples := map (Z.mul k) [300; -200; 250; -300; 100; 300]%Z |}.
Lemma proper_tune k : (-100 <= k <= 100)%Z -> proper_recording (tune k) /\ proper_recording (short_tune k).
Proof.
  intros Hk. assert (channels_valid 1 /\ rate_valid 20) as (H1 & H2) by (cbv; repeat split; discriminate).
  assert (supported 127%N 20) as H3 by (apply supported_dec; reflexivity).
  split; refine (conj H1 (conj H2 (conj H3 (conj eq_refl (conj eq_refl _))))); cbn [w_samples tune short_tune map]; repeat (constructor; [lia|]); constructor.
Qed.
(** the analyzer that got it in one piece *)
Definition analyze_whole (E : ext) (w : recording) : outcome (result unit * ebur128) :=
  r <- ebur128_new x86_64 E (w_channels w) (w_rate w) 127%N ;; e <- expect r ;; add_frames_interleaved x86_64 smp_f32 e (map sample_value (w_samples w)).
Lemma whole_analyzed E w e : length (w_samples w) mod N.to_nat (w_channels w) = 0 -> analyze_whole E w = Ret (Ok tt, e) -> analyzed x86_64 E w e.
Proof.
  unfold analyze_whole, analyzed. intros Hm. destruct (ebur128_new x86_64 E (w_channels w) (w_rate w) 127%N) as [[e0|]| | |]; try discriminate. cbn [obind expect]. intros H.
  exists e0, [map sample_value (w_samples w)]. split; auto. split; [apply app_nil_r|]. split; [constructor; [now rewrite map_length|constructor]|].
  cbn [map run length repeat step]. rewrite H. reflexivity.
Qed.
Lemma heard_whole E w : proper_recording w -> match analyze_whole E w with Ret (Ok tt, e) => match ask x86_64 E e QCount with Ret (ACount (Some _)) => true | _ => false end | _ => false end = true -> audible x86_64 E w.
Proof.
  intros HW H e He. destruct (analyze_whole E w) as [[[[]|] e']| | |] eqn:EA; try discriminate.
  assert (analyzed x86_64 E w e') as He' by (apply whole_analyzed; auto; apply HW).
  rewrite (analyzed_same x86_64 E w e e' QCount eq_refl eq_refl HW He He' eq_refl). intros X. rewrite X in H. discriminate.
Qed.
Lemma tune_audible : audible x86_64 env1 (tune 100) /\ audible x86_64 env1 (tune 1).
Proof. split; apply heard_whole; try (apply proper_tune; lia); vm_compute; reflexivity. Qed.
Lemma tune_album : Forall proper_recording [tune 100; tune 1] /\ Forall (audible x86_64 env1) [tune 100; tune 1].
Proof.
  destruct tune_audible. split; (constructor; [|constructor; [|constructor]]); auto; apply proper_tune; lia.
Qed.
Lemma pulled {G} (a b : outcome (result unit * ebur128)) (r : outcome (G * (f64 * f64))) (m : list ebur128 -> outcome (result f64)) (c : f64 -> f64 -> bool) :
  match a, b, r with
  | Ret (Ok tt, e1), Ret (Ok tt, e2), Ret (_, (g, _)) => match m [e1; e2] with Ret (Ok l) => c l g | _ => false end
  | _, _, _ => false end = true ->
  exists e1 e2 gs g p l, a = Ret (Ok tt, e1) /\ b = Ret (Ok tt, e2) /\ r = Ret (gs, (g, p)) /\ m [e1; e2] = Ret (Ok l) /\ c l g = true.
Proof.
  destruct a as [[[[]|] e1]| | |]; try discriminate. destruct b as [[[[]|] e2]| | |]; try discriminate. destruct r as [[gs [g p]]| | |]; try discriminate.
  destruct (m [e1; e2]) as [[l|]| | |] eqn:E4; try discriminate. intros H. exists e1, e2, gs, g, p, l. auto.
Qed.
Lemma pulled_tune : match analyze_whole env0 (tune 100), analyze_whole env0 (tune 1), replaygain x86_64 env0 [tune 100; tune 1] with
    | Ret (Ok tt, e1), Ret (Ok tt, e2), Ret (_, (g, _)) => match loudness_global_multiple x86_64 env0 [e1; e2] with Ret (Ok l) => f64_lt (f64_add (f64_sub (f64_of_Z (-18)) l) (f64_of_Z 3)) g | _ => false end
    | _, _, _ => false end = true.
Proof. vm_compute. reflexivity. Qed.
(** loud and soft: 3 LU apart *)
Lemma album_apart : exists e1 e2 gains gain peak l, analyzed x86_64 env0 (tune 100) e1 /\ analyzed x86_64 env0 (tune 1) e2 /\
  replaygain x86_64 env0 [tune 100; tune 1] = Ret (gains, (gain, peak)) /\ loudness_global_multiple x86_64 env0 [e1; e2] = Ret (Ok l) /\
  f64_lt (f64_add (f64_sub (f64_of_Z (-18)) l) (f64_of_Z 3)) gain = true.
Proof.
  destruct (pulled (analyze_whole env0 (tune 100)) (analyze_whole env0 (tune 1)) (replaygain x86_64 env0 [tune 100; tune 1]) (loudness_global_multiple x86_64 env0) (fun l g => f64_lt (f64_add (f64_sub (f64_of_Z (-18)) l) (f64_of_Z 3)) g) pulled_tune) as (e1 & e2 & gs & g & p & l & E1 & E2 & E3 & E4 & E5).
  exists e1, e2, gs, g, p, l. exact (conj (whole_analyzed env0 (tune 100) e1 eq_refl E1) (conj (whole_analyzed env0 (tune 1) e2 eq_refl E2) (conj E3 (conj E4 E5)))).
Qed.
Lemma short_case : Forall proper_recording [tune 100; short_tune 100] /\ too_short (short_tune 100).
Proof. split; [constructor; [|constructor; [|constructor]]; apply proper_tune; lia|reflexivity]. Qed.
Lemma silent_case : powf_contract env0 /\ bsearch_contract env0 /\ sort_contract env0 /\ Forall proper_recording [tune 100; tune 0] /\
  Forall (fun s => s = 0%Z) (w_samples (tune 0)) /\ finite_filter env0 (w_rate (tune 0)) /\ finite_taps env0 (w_rate (tune 0)).
Proof.
  split; [exact env0_powf|]. split; [exact env0_bsearch|]. split; [exact env0_sort|]. split; [constructor; [|constructor; [|constructor]]; apply proper_tune; lia|].
  split; [cbn; repeat constructor|]. exact env0_finite.
Qed.
