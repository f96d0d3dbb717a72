(** C76: gains, and normalisation to a target. *)
From Coq Require Import List Arith NArith ZArith Reals.
From Flocq Require Import IEEE754.BinarySingleNaN.
From Verif Require Import Prelude Float Env Filter Ebur128 Spec Spec_real Spec_filter Spec_coeff Spec_history Spec_accuracy Spec_exact Spec_programme Spec_normal
  Instance Instance_exact Instance_played Instance_normal Normal_proofs.
Import ListNotations.
Local Open Scope R_scope.

(** * C76: a gain of x dB is a change of x LU *)
(** Of the readings: an analyzer that heard the samples [yss], which are [g] times [xss] up to [delta], reports the loudness
    of [xss] and 20 log10 [g]. *)
Theorem C76_reading : forall P E M g delta e t xss yss q w v, is_64bit P -> log10_accurate E -> tan_precise E -> powf_accurate E ->
  audio_rate (e_rate e) -> 0 <= M <= 2 ^ 370 -> 0 <= delta <= M -> heard_all P E M e t yss -> 0 < g -> amplified g delta (e_cmap e) xss yss ->
  reads_last e q w -> ask P E e q = Ret (AValue (Ok v)) ->
  let Z := exact_mean_square (e_rate e) w (e_cmap e) xss in let d := gain_error P (e_rate e) M delta (e_cmap e) in
  / 10 ^ 30 <= g * g * Z -> 4 * d <= g * sqrt Z ->
  is_finite v = true /\ Rabs (real v - (lufs Z + 20 * (ln g / ln 10))) <= 12 * (d / (g * sqrt Z)) + tolerance (w + e_channels e + 4).
Proof. exact reading_amplified. Qed.
(** an impulse of amplitude 1, and one of amplitude 2 *)
Example C76_reading_example : log10_accurate env4 /\ tan_precise env4 /\ powf_accurate env4 /\
  exists e t q w v, heard_all x86_64 env4 2 e t [loud_late 4] /\ audio_rate (e_rate e) /\ amplified 2 0 (e_cmap e) [late 4] [loud_late 4] /\
  reads_last e q w /\ ask x86_64 env4 e q = Ret (AValue (Ok v)) /\
  let Z := exact_mean_square (e_rate e) w (e_cmap e) [late 4] in / 10 ^ 30 <= 2 * 2 * Z /\ 4 * gain_error x86_64 (e_rate e) 2 0 (e_cmap e) <= 2 * sqrt Z.
Proof. exact (conj env4_log10 (conj env4_tan (conj env4_powf reading_case))). Qed.
(** Of the integrated loudness over the real numbers, if the gain takes no block over -70 LUFS, in either direction. *)
Theorem C76_exact : forall g l, 0 < g -> loud l <> [] -> not_below (minus_70 / (g * g)) l = loud l ->
  integrated (louder g l) = integrated l + 20 * (ln g / ln 10).
Proof. exact integrated_louder. Qed.
(** Of the integrated loudness as reported. *)
Theorem C76_integrated : forall P E M g delta e t xss yss, is_64bit P -> powf_contract E -> log10_accurate E -> tan_precise E -> powf_accurate E ->
  played P E e t -> heard_all P E M e t yss -> amplified g delta (e_cmap e) xss yss -> audio_rate (e_rate e) -> 0 <= M <= 2 ^ 370 -> 0 <= delta <= M ->
  has_I (e_mode e) -> ~ has_HISTOGRAM (e_mode e) ->
  let l := louder g (momentary_blocks e t xss) in let d := gain_error P (e_rate e) M delta (e_cmap e) in let n := (length l + 105)%nat in
  (N.of_nat n <= 2 ^ 50)%N -> decided 10 (2 * d) (tolerance n / 6) l -> loud l <> [] -> 5 * d <= sqrt (average (gated_blocks 10 l)) ->
  exists v, ask P E e QGlobal = Ret (AValue (Ok v)) /\ is_finite v = true /\
    Rabs (real v - integrated l) <= 14 * (d / sqrt (average (gated_blocks 10 l))) + tolerance n.
Proof. exact integrated_amplified. Qed.
(** Normalisation: measure a programme, apply the gain from the reported loudness to the target, round the samples, measure
    again: the target. *)
Theorem C76_normalise : forall P E M M2 delta e t xss f t2 yss T v, is_64bit P -> powf_contract E -> log10_accurate E -> tan_precise E -> powf_accurate E ->
  played P E e t -> heard_all P E M e t xss -> played P E f t2 -> heard_all P E M2 f t2 yss ->
  e_rate f = e_rate e -> e_cmap f = e_cmap e -> frames_of (signals t2) = frames_of (signals t) ->
  audio_rate (e_rate e) -> 0 <= M <= 2 ^ 400 -> 0 <= M2 <= 2 ^ 370 -> 0 <= delta <= M2 ->
  has_I (e_mode e) -> ~ has_HISTOGRAM (e_mode e) -> has_I (e_mode f) -> ~ has_HISTOGRAM (e_mode f) ->
  ask P E e QGlobal = Ret (AValue (Ok v)) -> let g := gain_of (T - real v) in amplified g delta (e_cmap e) xss yss ->
  let l := momentary_blocks e t xss in let d := rms_error P (e_rate e) M (e_cmap e) in let d2 := gain_error P (e_rate e) M2 delta (e_cmap e) in
  let n := (length l + 105)%nat in
  (N.of_nat n <= 2 ^ 50)%N -> decided 10 (2 * d) (tolerance n / 6) l -> decided 10 (2 * d2) (tolerance n / 6) (louder g l) ->
  loud l <> [] -> not_below (minus_70 / (g * g)) l = loud l ->
  let r := sqrt (average (gated_blocks 10 l)) in 5 * d <= r -> 5 * d2 <= g * r ->
  exists w, ask P E f QGlobal = Ret (AValue (Ok w)) /\ is_finite w = true /\ Rabs (real w - T) <= 14 * (d / r + d2 / (g * r)) + 2 * tolerance n.
Proof. exact normalised. Qed.
(** an impulse at the end of 400 ms at 48 kHz, and one of twice the amplitude; the target is 20 log10 2 above the reading *)
Example C76_example : powf_contract env4 /\ log10_accurate env4 /\ tan_precise env4 /\ powf_accurate env4 /\
  exists e t f t2 T v, played x86_64 env4 e t /\ heard_all x86_64 env4 1 e t [late 4] /\ played x86_64 env4 f t2 /\ heard_all x86_64 env4 2 f t2 [loud_late 4] /\
  e_rate f = e_rate e /\ e_cmap f = e_cmap e /\ frames_of (signals t2) = frames_of (signals t) /\ audio_rate (e_rate e) /\
  has_I (e_mode e) /\ ~ has_HISTOGRAM (e_mode e) /\ has_I (e_mode f) /\ ~ has_HISTOGRAM (e_mode f) /\
  ask x86_64 env4 e QGlobal = Ret (AValue (Ok v)) /\ let g := gain_of (T - real v) in amplified g 0 (e_cmap e) [late 4] [loud_late 4] /\
  let l := momentary_blocks e t [late 4] in let d := rms_error x86_64 (e_rate e) 1 (e_cmap e) in let d2 := gain_error x86_64 (e_rate e) 2 0 (e_cmap e) in
  let n := (length l + 105)%nat in
  (N.of_nat n <= 2 ^ 50)%N /\ decided 10 (2 * d) (tolerance n / 6) l /\ decided 10 (2 * d2) (tolerance n / 6) (louder g l) /\
  loud l <> [] /\ not_below (minus_70 / (g * g)) l = loud l /\
  let r := sqrt (average (gated_blocks 10 l)) in 5 * d <= r /\ 5 * d2 <= g * r.
Proof. exact (conj env4_powf_values (conj env4_log10 (conj env4_tan (conj env4_powf normal_case)))). Qed.

(** * Assumptions *)
Print Assumptions C76_reading.
Print Assumptions C76_exact.
Print Assumptions C76_integrated.
Print Assumptions C76_normalise.
