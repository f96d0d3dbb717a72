(** C84: the Rust interpolator and true peak against the C reference code of tests/c. *)
From Coq Require Import List Arith NArith ZArith Reals Lra Lia.
From Flocq Require IEEE754.BinarySingleNaN.
From Verif Require Import Prelude Float Env Utils Filter Cref Cref_filter Cref_interp Ebur128 Spec Spec_real Spec_response Spec_interp Spec_cref_filter
  Spec_cref_interp Peak_proofs Oversample_proofs Overshoot_proofs Cref_peak_proofs Cref_session_proofs Instance Instance_interp Cref_interp_examples.
Import ListNotations.
Local Open Scope R_scope.
Local Notation is_finite := BinarySingleNaN.is_finite.

(** * C84: the interpolator and the true peak *)
(** A new C interpolator is given the frames [past] and then [new].  For each new frame and channel it writes [factor] values, each
    within [fir_noise_c] of the exact value and within [fir_noise + fir_noise_c] of the one that the Rust code computes. *)
Theorem C84_interpolator : forall P L taps factor C, (taps = 12 /\ factor = 4 \/ taps = 24 /\ factor = 2)%nat -> forall past new M E,
  sin_accurate E -> cos_accurate E -> csin_accurate L -> ccos_accurate L -> 0 <= M <= 2 ^ 100 ->
  Forall (fun fr => length fr = C /\ Forall (moderate M) fr) (past ++ new) ->
  exists ci out0 ci' out, interp_process_c P (interp_create_c L 49 factor C) past = Ret (ci, out0) /\ interp_process_c P ci new = Ret (ci', out) /\
    length out = (length new * factor)%nat /\
    forall n f c, (n < length new)%nat -> (f < factor)%nat -> (c < C)%nat ->
      exists row y, nth_error out (n * factor + f) = Some row /\ length row = C /\ nth_error row c = Some y /\ is_finite y = true /\
      let xs := channel_of c (past ++ new) in
      Rabs (real32 y - interpolatedR taps factor xs (length past + n) f) <= fir_noise_c M /\
      Rabs (real32 y - real32 (interpolated P E taps factor xs (length past + n) f)) <= fir_noise M + fir_noise_c M.
Proof. exact interp_create_process. Qed.
Example C84_interpolator_example : csin_accurate L3 /\ ccos_accurate L3 /\ sin_accurate env3 /\ cos_accurate env3 /\
  Forall (fun fr => length fr = 1%nat /\ Forall (moderate 1) fr) (mono seeds ++ mono adds).
Proof.
  split; [exact L3_sin|]. split; [exact L3_cos|]. split; [exact env3_sin|]. split; [exact env3_cos|]. apply Forall_app. split; unfold mono; apply Forall_map; apply Forall_forall; intros x Hx; (split; [reflexivity|]); constructor; auto;
    revert x Hx; apply Forall_forall; apply signs_moderate; apply signs_checked; reflexivity.
Qed.
(** There is a C object exactly at the sample rates at which the Rust code oversamples. *)
Theorem C84_rates : forall L rate C, true_peak_create_c L rate C = None <-> oversampling rate = None.
Proof. exact create_none. Qed.
(** Both convert the samples to the same f32 values, except subnormal ones with flush-to-zero. *)
Theorem C84_formats : forall P,
  (forall z, in_i16 z -> resampled_c P c_short z = s_f32 smp_i16 P z) /\ (forall z, in_i32 z -> resampled_c P c_int z = s_f32 smp_i32 P z) /\
  (forall x, (p_ftz P = true -> subnormal32 x = false) -> resampled_c P c_float x = s_f32 smp_f32 P x) /\
  (forall x, (p_ftz P = true -> subnormal64 x = false) -> resampled_c P c_double x = s_f32 smp_f64 P x).
Proof. exact (fun P => conj (resampled_i16 P) (conj (resampled_i32 P) (conj (resampled_f32 P) (resampled_f64 P)))). Qed.
(** A call with at most 400 ms of audio, after any earlier calls: it runs, the peaks do not fall, no exact oversampled value of the new
    frames exceeds them by more than [fir_noise_c], and each is the old one or such a value, up to [fir_noise_c]. *)
Theorem C84_true_peak : forall T P L (t : ctype T) rate taps factor C tp past frames peaks M, fed_c P L rate C tp past -> oversampling rate = Some (taps, factor) ->
  csin_accurate L -> ccos_accurate L -> 0 <= M <= 2 ^ 100 ->
  Forall (fun fr => length fr = C) frames -> (length frames <= N.to_nat ((rate + 5) / 10) * 4)%nat ->
  let all := past ++ map (map (resampled_c P t)) frames in
  exists tp' peaks', true_peak_check_c P t tp (length frames) (concat frames) peaks = Ret (tp', peaks') /\ fed_c P L rate C tp' all /\
    forall c pk, (c < C)%nat -> nth_error peaks c = Some pk -> is_finite pk = true -> 0 <= real pk -> let xs := channel_of c all in Forall (moderate M) xs ->
      exists y, nth_error peaks' c = Some y /\ is_finite y = true /\ real pk <= real y /\
        (forall n f, (length past <= n < length xs)%nat -> (f < factor)%nat -> Rabs (interpolatedR taps factor xs n f) <= real y + fir_noise_c M) /\
        (y = pk \/ exists n f, (length past <= n < length xs)%nat /\ (f < factor)%nat /\ Rabs (real y - Rabs (interpolatedR taps factor xs n f)) <= fir_noise_c M).
Proof. exact @true_peak_near. Qed.
(** The last call to an analyzer, and to a C object that heard the same samples: the two readings differ by at most
    [fir_noise + fir_noise_c], unless the Rust one is the level of a sample (which the C function does not look at). *)
Theorem C84_last_call : forall T P E L (t : ctype T) e lg a r e' c new taps factor M tp past frames peaks, is_64bit P ->
  sin_accurate E -> cos_accurate E -> csin_accurate L -> ccos_accurate L ->
  logged P E e lg -> admissible e (OpAdd a) -> step P E e (OpAdd a) = Ret (r, e') ->
  has_TRUE_PEAK (e_mode e) -> oversampling (e_rate e) = Some (taps, factor) -> channel_input P (e_channels e) c a = Some new -> new <> [] -> 0 <= M <= 2 ^ 100 ->
  Forall (moderate M) (channel c (lg_past lg) ++ map r_32 new) -> Forall (fun r => is_finite (r_level r) = true) new ->
  fed_c P L (e_rate e) (e_channels e) tp past -> Forall (fun fr => length fr = e_channels e) frames -> (length frames <= N.to_nat ((e_rate e + 5) / 10) * 4)%nat ->
  channel_of (N.to_nat c) past = channel c (lg_past lg) -> channel_of (N.to_nat c) (map (map (resampled_c P t)) frames) = map r_32 new ->
  nth_error peaks (N.to_nat c) = Some f64_zero ->
  exists x tp' peaks' y, ask P E e' (QPrevTruePeak c) = Ret (AValue (Ok x)) /\
    true_peak_check_c P t tp (length frames) (concat frames) peaks = Ret (tp', peaks') /\ nth_error peaks' (N.to_nat c) = Some y /\
    is_finite x = true /\ is_finite y = true /\ real y <= real x + (fir_noise M + fir_noise_c M) /\
    (real x <= real y + (fir_noise M + fir_noise_c M) \/ In x (levels_of new)).
Proof. exact @last_call_same. Qed.
Example C84_last_call_example : exists e lg r e' new tp, logged x86_64 env3 e lg /\ admissible e (OpAdd (AF32 adds)) /\ step x86_64 env3 e (OpAdd (AF32 adds)) = Ret (r, e') /\
  has_TRUE_PEAK (e_mode e) /\ oversampling (e_rate e) = Some (12, 4)%nat /\ channel_input x86_64 (e_channels e) 0 (AF32 adds) = Some new /\ new <> [] /\
  Forall (moderate 1) (channel 0 (lg_past lg) ++ map r_32 new) /\ Forall (fun r => is_finite (r_level r) = true) new /\
  fed_c x86_64 L3 (e_rate e) (e_channels e) tp (mono seeds) /\ Forall (fun fr => length fr = e_channels e) (mono adds) /\
  (length (mono adds) <= N.to_nat ((e_rate e + 5) / 10) * 4)%nat /\ channel_of 0 (mono seeds) = channel 0 (lg_past lg) /\
  channel_of 0 (map (map (resampled_c x86_64 c_float)) (mono adds)) = map r_32 new.
Proof.
  destruct quarter_case as (e & lg & r & e' & L & R & C & M & S & E). destruct fed_case as (tp & F). exists e, lg, r, e', (map (read x86_64 smp_f32) adds), tp.
  split; [exact L|]. split; [exact I|]. split; [exact S|]. split; [exact M|]. split; [rewrite R; reflexivity|]. split; [rewrite C; apply mono_input|]. split; [discriminate|]. split; [|split].
  - rewrite E. apply Forall_app. split; [|rewrite map_map; cbn [r_32 read smp_f32 s_f32]; rewrite map_id]; apply signs_moderate; apply signs_checked; reflexivity.
  - rewrite Forall_map. apply Forall_forall. intros y Hy. assert (moderate 1 y) as (Fy & _) by (revert y Hy; apply Forall_forall, signs_moderate, signs_checked; reflexivity).
    rewrite level_f32. apply magnitude_real. exact Fy.
  - rewrite R, C. split; [exact F|]. split; [apply mono_sizes|]. split; [exact room_case|]. split; [rewrite mono_channel; symmetry; exact E|].
    rewrite adds_same, mono_channel, map_map. cbn [r_32 read smp_f32 s_f32]. symmetry. apply map_id.
Qed.
(** The C peaks do not depend on how the frames are divided among calls (of any formats). *)
Theorem C84_chunking : forall P L rate C tp tp' past peaks peaks', metered_c P L rate C tp past peaks -> metered_c P L rate C tp' past peaks' -> peaks = peaks'.
Proof. exact metered_same. Qed.
(** The peak of a whole session: an analyzer to which frames were only added, and a C object that was given the same samples, in
    whatever chunks. *)
Theorem C84_session : forall P E L e lg c taps factor M tp past peaks, is_64bit P -> sin_accurate E -> cos_accurate E -> csin_accurate L -> ccos_accurate L ->
  added P E e lg -> has_TRUE_PEAK (e_mode e) -> oversampling (e_rate e) = Some (taps, factor) -> (c < N.of_nat (e_channels e))%N -> 0 <= M <= 2 ^ 100 ->
  let heard := channel c (lg_heard lg) in Forall (moderate M) (map r_32 heard) -> Forall (fun r => is_finite (r_level r) = true) heard ->
  metered_c P L (e_rate e) (e_channels e) tp past peaks -> channel_of (N.to_nat c) past = map r_32 heard ->
  exists x y, ask P E e (QTruePeak c) = Ret (AValue (Ok x)) /\ nth_error peaks (N.to_nat c) = Some y /\
    is_finite x = true /\ is_finite y = true /\ real y <= real x + (fir_noise M + fir_noise_c M) /\
    (real x <= real y + (fir_noise M + fir_noise_c M) \/ In x (levels_of heard)).
Proof. exact session_same. Qed.
Example C84_session_example : exists e lg tp peaks, added x86_64 env3 e lg /\ has_TRUE_PEAK (e_mode e) /\ oversampling (e_rate e) = Some (12, 4)%nat /\ (0 < N.of_nat (e_channels e))%N /\
  Forall (moderate 1) (map r_32 (channel 0 (lg_heard lg))) /\ Forall (fun r => is_finite (r_level r) = true) (channel 0 (lg_heard lg)) /\
  metered_c x86_64 L3 (e_rate e) (e_channels e) tp (mono seeds) peaks /\ channel_of 0 (mono seeds) = map r_32 (channel 0 (lg_heard lg)).
Proof.
  destruct added_case as (e & lg & A & R & C & M & H). destruct metered_case as (tp & pks & F). exists e, lg, tp, pks. split; [exact A|]. split; [exact M|]. split; [rewrite R; reflexivity|]. split; [rewrite C; reflexivity|].
  rewrite H, R, C. split; [rewrite map_map; cbn [r_32 read smp_f32 s_f32]; rewrite map_id; apply signs_moderate; apply signs_checked; reflexivity|]. split.
  - rewrite Forall_map. apply Forall_forall. intros y Hy. assert (moderate 1 y) as (Fy & _) by (revert y Hy; apply Forall_forall, signs_moderate, signs_checked; reflexivity).
    rewrite level_f32. apply magnitude_real. exact Fy.
  - split; [exact F|]. rewrite mono_channel, map_map. cbn [r_32 read smp_f32 s_f32]. symmetry. apply map_id.
Qed.

(** * Assumptions *)
Print Assumptions C84_interpolator.
Print Assumptions C84_rates.
Print Assumptions C84_formats.
Print Assumptions C84_true_peak.
Print Assumptions C84_last_call.
Print Assumptions C84_chunking.
Print Assumptions C84_session.
