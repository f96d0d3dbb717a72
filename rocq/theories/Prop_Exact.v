(** C72: the weighted signal and the readings against the measurement of the input samples in exact arithmetic. *)
From Coq Require Import List Arith NArith ZArith Reals.
From Flocq Require Import IEEE754.BinarySingleNaN.
From Verif Require Import Prelude Float Env Filter Ebur128 Spec Spec_real Spec_filter Spec_coeff Spec_accuracy Spec_exact Instance_exact Exact_proofs.
Import ListNotations.
Local Open Scope R_scope.

(** * C72: from the samples to the reading *)
(** No sample of the weighted signal is off by more than 4.2e-6 of the largest input sample (at 48 kHz), however long the
    programme is; nothing is assumed about the values the filter keeps. *)
Theorem C72_filter : forall P E c, is_64bit P -> tan_precise E -> powf_accurate E ->
  forall e t xs ws M, heard P E c e t xs ws -> audio_rate (e_rate e) -> 0 <= M <= 2 ^ 400 -> samples_below M xs ->
  Forall2 (fun y Y => is_finite y = true /\ Rabs (real y - Y) <= filter_error P (e_rate e) M /\ Rabs Y <= 19.5 * M)
    (nth c (signals t) []) (weighted (e_rate e) xs).
Proof. exact heard_exact. Qed.
Theorem C72_momentary : forall P E M e t xss v, is_64bit P -> log10_accurate E -> tan_precise E -> powf_accurate E ->
  audio_rate (e_rate e) -> 0 <= M <= 2 ^ 400 -> heard_all P E M e t xss ->
  ask P E e QMomentary = Ret (AValue (Ok v)) -> measured_over P M e xss v (4 * hop e).
Proof. exact momentary_exact. Qed.
Theorem C72_shortterm : forall P E M e t xss v, is_64bit P -> log10_accurate E -> tan_precise E -> powf_accurate E ->
  audio_rate (e_rate e) -> 0 <= M <= 2 ^ 400 -> heard_all P E M e t xss ->
  ask P E e QShortterm = Ret (AValue (Ok v)) -> measured_over P M e xss v (30 * hop e).
Proof. exact shortterm_exact. Qed.
Theorem C72_window : forall P E M e t xss v, is_64bit P -> log10_accurate E -> tan_precise E -> powf_accurate E ->
  audio_rate (e_rate e) -> 0 <= M <= 2 ^ 400 -> heard_all P E M e t xss -> forall ms, (ms <= 4294967295)%N ->
  ask P E e (QWindow ms) = Ret (AValue (Ok v)) -> (1 <= N.to_nat (e_rate e * ms / 1000))%nat ->
  measured_over P M e xss v (N.to_nat (e_rate e * ms / 1000)).
Proof. exact any_window_exact. Qed.
(** an impulse after 1000 zeros at 48 kHz *)
Example C72_example : log10_accurate env4 /\ tan_precise env4 /\ powf_accurate env4 /\
  exists e t, heard_all x86_64 env4 1 e t [impulse 1000] /\ audio_rate (e_rate e) /\
  (exists v, ask x86_64 env4 e QMomentary = Ret (AValue (Ok v))) /\
  let Z := exact_mean_square (e_rate e) (4 * hop e) (e_cmap e) [impulse 1000] in / 10 ^ 30 <= Z /\ 4 * rms_error x86_64 (e_rate e) 1 (e_cmap e) <= sqrt Z.
Proof. exact (conj env4_log10 (conj env4_tan (conj env4_powf impulse_case))). Qed.

(** * Assumptions *)
Print Assumptions C72_filter.
Print Assumptions C72_momentary.
Print Assumptions C72_shortterm.
Print Assumptions C72_window.
