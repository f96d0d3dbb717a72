(** C69, C70, C71: the true peak against the exact oversampled signal. *)
From Coq Require Import List Arith NArith ZArith Reals Lra Lia.
From Flocq Require IEEE754.BinarySingleNaN.
From Verif Require Import Prelude Float Env Utils Filter Ebur128 Spec Spec_real Spec_response Spec_interp
  Peak_proofs Oversample_proofs Overshoot_proofs Instance Instance_interp.
Import ListNotations.
Local Open Scope R_scope.
Local Notation is_finite := BinarySingleNaN.is_finite.

(** * C69: the interpolation filter is a windowed sinc *)
(** [hann_sinc] are the taps in f32 that C33 is about, [tapR] the exact ones. *)
Theorem C69_taps : forall E factor j, sin_accurate E -> cos_accurate E -> factor = 4%nat \/ factor = 2%nat -> (j < 48)%nat ->
  is_finite (hann_sinc E factor j) = true /\ Rabs (real32 (hann_sinc E factor j) - tapR factor j) <= / 2 ^ 23.
Proof. exact tap32_near. Qed.
(** The last call: no sample and no exact oversampled value of its frames exceeds the reading (by more than the noise), and the reading
    is zero, the level of a sample or one of these values. *)
Theorem C69_last_call : forall P E e lg a r e' c new taps factor M, is_64bit P -> sin_accurate E -> cos_accurate E ->
  logged P E e lg -> admissible e (OpAdd a) -> step P E e (OpAdd a) = Ret (r, e') ->
  has_TRUE_PEAK (e_mode e) -> oversampling (e_rate e) = Some (taps, factor) -> channel_input P (e_channels e) c a = Some new -> new <> [] -> 0 <= M <= 2 ^ 100 ->
  let past := channel c (lg_past lg) in let xs := past ++ map r_32 new in
  Forall (moderate M) xs -> Forall (fun r => is_finite (r_level r) = true) new ->
  exists x, ask P E e' (QPrevTruePeak c) = Ret (AValue (Ok x)) /\ is_finite x = true /\ Forall (fun r => real (r_level r) <= real x) new /\
    (forall n f, (length past <= n < length xs)%nat -> (f < factor)%nat -> Rabs (interpolatedR taps factor xs n f) <= real x + fir_noise M) /\
    (real x = 0 \/ In x (levels_of new) \/
     exists n f, (length past <= n < length xs)%nat /\ (f < factor)%nat /\ Rabs (real x - Rabs (interpolatedR taps factor xs n f)) <= fir_noise M).
Proof. exact last_call_near. Qed.
Example C69_example : sin_accurate env3 /\ cos_accurate env3 /\ exists e lg r e' new, logged x86_64 env3 e lg /\ admissible e (OpAdd (AF32 adds)) /\ step x86_64 env3 e (OpAdd (AF32 adds)) = Ret (r, e') /\
  has_TRUE_PEAK (e_mode e) /\ oversampling (e_rate e) = Some (12, 4)%nat /\ channel_input x86_64 (e_channels e) 0 (AF32 adds) = Some new /\ new <> [] /\
  Forall (moderate 1) (channel 0 (lg_past lg) ++ map r_32 new) /\ Forall (fun r => is_finite (r_level r) = true) new.
Proof.
  split; [exact env3_sin|]. split; [exact env3_cos|]. destruct quarter_case as (e & lg & r & e' & L & R & C & M & S & E). exists e, lg, r, e', (map (read x86_64 smp_f32) adds).
  split; [exact L|]. split; [exact I|]. split; [exact S|]. split; [exact M|]. split; [rewrite R; reflexivity|]. split; [rewrite C; apply mono_input|]. split; [discriminate|]. split.
  - rewrite E. apply Forall_app. split; [|rewrite map_map; cbn [r_32 read smp_f32 s_f32]; rewrite map_id]; apply signs_moderate; apply signs_checked; reflexivity.
  - rewrite Forall_map. apply Forall_forall. intros y Hy. assert (moderate 1 y) as (F & _) by (revert y Hy; apply Forall_forall, signs_moderate, signs_checked; reflexivity).
    rewrite level_f32. apply magnitude_real. exact F.
Qed.

(** * C70: overshoot *)
(** Whatever the history of an analyzer, if no sample exceeds [M], the true peak exceeds [M] by at most 5.42 dB at sample rates below
    96 kHz, by at most 7.27 dB in any case. *)
Theorem C70_overshoot : forall P E M top e c, is_64bit P -> sin_accurate E -> cos_accurate E -> 0 <= M <= 2 ^ 90 -> limited P E M top e -> has_TRUE_PEAK (e_mode e) -> (c < N.of_nat (e_channels e))%N ->
  exists x, ask P E e (QTruePeak c) = Ret (AValue (Ok x)) /\ is_finite x = true /\ real x <= (if (top <=? 96000)%N then 1.866 else 2.308) * M + / 2 ^ 115.
Proof. exact overshoot. Qed.
(** These factors cannot be improved much: signals of full scale that reach them. *)
Theorem C70_attained_below_96000 : forall P E e lg r e', is_64bit P -> sin_accurate E -> cos_accurate E -> logged P E e lg -> e_channels e = 1%nat -> has_TRUE_PEAK (e_mode e) ->
  (e_rate e < 96000)%N -> Forall (moderate 1) (channel 0 (lg_past lg)) ->
  step P E e (OpAdd (AF32 loud4)) = Ret (r, e') -> exists x, ask P E e' (QPrevTruePeak 0) = Ret (AValue (Ok x)) /\ 1.864 <= real x.
Proof. exact attained_4. Qed.
Theorem C70_attained_from_96000 : forall P E e lg r e', is_64bit P -> sin_accurate E -> cos_accurate E -> logged P E e lg -> e_channels e = 1%nat -> has_TRUE_PEAK (e_mode e) ->
  (96000 <= e_rate e < 192000)%N -> Forall (moderate 1) (channel 0 (lg_past lg)) ->
  step P E e (OpAdd (AF32 loud2)) = Ret (r, e') -> exists x, ask P E e' (QPrevTruePeak 0) = Ret (AValue (Ok x)) /\ 2.306 <= real x.
Proof. exact attained_2. Qed.
Example C70_example : exists e, limited x86_64 env3 1 48001 e /\ has_TRUE_PEAK (e_mode e) /\ e_channels e = 1%nat /\
  exists r e', step x86_64 env3 e (OpAdd (AF32 loud4)) = Ret (r, e') /\ limited x86_64 env3 1 48001 e' /\
    exists x, ask x86_64 env3 e' (QPrevTruePeak 0) = Ret (AValue (Ok x)) /\ 1.864 <= real x.
Proof.
  destruct (mono_new 48000) as (e & L & M & R & C & H); [split; vm_compute; discriminate|vm_compute; discriminate|]. assert (has_TRUE_PEAK (e_mode e)) as HM by (rewrite M; repeat split; reflexivity).
  exists e. specialize (H 48001%N ltac:(reflexivity)). split; [exact H|]. split; [exact HM|]. split; [exact C|].
  destruct (step_exists e _ (OpAdd (AF32 loud4)) L I) as (r & e' & S). exists r, e'. split; [exact S|]. split.
  - refine (limited_step _ _ _ _ e (OpAdd (AF32 loud4)) r e' H I _ S). split; [exact I|]. intros cols Hc. rewrite C in Hc.
    refine (interleaved_all x86_64 _ _ _ _ _ _ Hc). apply Forall_forall. intros y Hy.
    assert (moderate 1 y) as (F & B) by (revert y Hy; apply Forall_forall, signs_moderate, signs_checked; reflexivity). change (r_64 (read x86_64 smp_f32 y)) with (f64_of_f32 y).
    destruct (Float_proofs.f64_of_f32_finite y F) as (F' & E' & _). split; [exact F'|]. unfold real. rewrite E'. exact B.
  - refine (C70_attained_below_96000 x86_64 env3 e _ r e' _ env3_sin env3_cos L C HM _ _ S); [split; reflexivity|rewrite R; reflexivity|apply Forall_nil].
Qed.

(** * C71: sinusoids *)
(** The last samples before the call and all of its samples follow a sinusoid of amplitude [A] up to [d].  The reading exceeds [A] by
    little more than the ripple of the interpolation filter and, if the call covers half a period, falls short of it by little more than
    that and half a step of the oversampled signal. *)
Theorem C71_tone : forall P E e lg a r e' c new taps factor f p q d eps, is_64bit P -> sin_accurate E -> cos_accurate E ->
  logged P E e lg -> admissible e (OpAdd a) -> step P E e (OpAdd a) = Ret (r, e') ->
  has_TRUE_PEAK (e_mode e) -> oversampling (e_rate e) = Some (taps, factor) -> integers_fit a -> channel_input P (e_channels e) c a = Some new -> new <> [] ->
  let rate := IZR (Z.of_N (e_rate e)) in let A := amplitude p q in
  0 < f -> ripple (e_rate e) f eps -> 0 <= d -> A + d <= 2 ^ 90 -> carries_tone (taps - 1) rate f p q d (channel c (lg_past lg)) new ->
  exists x, ask P E e' (QPrevTruePeak c) = Ret (AValue (Ok x)) /\ is_finite x = true /\ real x <= (1 + eps) * A + 2.4 * d + / 2 ^ 115 /\
    (rate <= 2 * f * (INR (length new) - 1) -> A * (cos (PI * f / (INR factor * rate)) - eps) - 2.4 * d - / 2 ^ 115 <= real x).
Proof. exact tone_call. Qed.
(** The tolerance of EBU Tech 3341, +0.2 and -0.4 dB, is met up to a quarter of the sample rate. *)
Theorem C71_tolerance : forall P E e lg a r e' c new f p q d, is_64bit P -> sin_accurate E -> cos_accurate E ->
  logged P E e lg -> admissible e (OpAdd a) -> step P E e (OpAdd a) = Ret (r, e') ->
  has_TRUE_PEAK (e_mode e) -> (e_rate e < 96000)%N -> integers_fit a -> channel_input P (e_channels e) c a = Some new ->
  let rate := IZR (Z.of_N (e_rate e)) in let A := amplitude p q in
  0 < f <= rate / 4 -> 0 <= d <= 0.007 * A -> / 2 ^ 100 <= A <= 2 ^ 80 -> carries_tone 11 rate f p q d (channel c (lg_past lg)) new -> rate <= 2 * f * (INR (length new) - 1) ->
  exists x, ask P E e' (QPrevTruePeak c) = Ret (AValue (Ok x)) /\ A * Rpower 10 (- 0.4 / 20) <= real x <= A * Rpower 10 (0.2 / 20).
Proof. exact tone_tolerance. Qed.
(** a tone at a quarter of the sample rate whose samples are all 1 or -1, but whose amplitude is the square root of 2 *)
Example C71_example : exists e lg r e', logged x86_64 env3 e lg /\ e_rate e = 48000%N /\ step x86_64 env3 e (OpAdd (AF32 adds)) = Ret (r, e') /\
  carries_tone 11 48000 12000 1 1 0 (channel 0 (lg_past lg)) (map (read x86_64 smp_f32) adds) /\
  exists x, ask x86_64 env3 e' (QPrevTruePeak 0) = Ret (AValue (Ok x)) /\ 1.35 <= real x <= 1.45.
Proof.
  destruct quarter_case as (e & lg & r & e' & L & R & C & M & S & E). exists e, lg, r, e'. split; [exact L|]. split; [exact R|]. split; [exact S|].
  assert (carries_tone 11 48000 12000 1 1 0 (channel 0 (lg_past lg)) (map (read x86_64 smp_f32) adds)) as HT by (rewrite E; apply quarter_carried). split; [exact HT|].
  pose proof quarter_amplitude as A. assert (IZR (Z.of_N (e_rate e)) = 48000) as ER by (rewrite R; reflexivity).
  destruct (C71_tone x86_64 env3 e lg (AF32 adds) r e' 0%N (map (read x86_64 smp_f32) adds) 12 4 12000 1 1 0 0.0041) as (x & Q & _ & U & B).
  - split; reflexivity. - exact env3_sin. - exact env3_cos. - exact L. - exact I. - exact S. - exact M. - rewrite R. reflexivity. - exact I. - rewrite C. apply mono_input. - discriminate.
  - lra. - left. rewrite R. split; [reflexivity|]. split; [cbn; lra|reflexivity]. - lra.
  - assert (2 ^ 2 <= 2 ^ 90) by (apply Rle_pow; [lra|lia]). lra.
  - rewrite ER. exact HT.
  - exists x. split; [exact Q|]. rewrite ER in B. assert (/ 2 ^ 115 <= / 2 ^ 30) as T by (apply Rinv_le_contravar; [apply pow_lt; lra|apply Rle_pow; [lra|lia]]). set (y := / 2 ^ 115) in *. clearbody y.
    assert (INR (length (map (read x86_64 smp_f32) adds)) = 4) as LN by (cbn; lra). rewrite LN in B. specialize (B ltac:(lra)).
    assert (PI * 12000 / (INR 4 * 48000) = PI / 16) as EA by (assert (INR 4 = 4) as -> by (cbn; lra); field). rewrite EA in B. pose proof cos_sixteenth as CS.
    set (am := amplitude 1 1) in *. clearbody am. assert (1.4142 * (0.9807 - 0.0041) <= am * (cos (PI / 16) - 0.0041)) by (apply Rmult_le_compat; lra). split; lra.
Qed.

(** * Assumptions *)
Print Assumptions C69_taps.
Print Assumptions C69_last_call.
Print Assumptions C70_overshoot.
Print Assumptions C70_attained_below_96000.
Print Assumptions C70_attained_from_96000.
Print Assumptions C71_tone.
Print Assumptions C71_tolerance.
