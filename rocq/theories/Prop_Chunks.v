(** C75: the documented way to measure one programme in parallel, against the measurement of the whole in exact arithmetic. *)
From Coq Require Import List Arith NArith ZArith Reals.
From Flocq Require Import IEEE754.BinarySingleNaN.
From Verif Require Import Prelude Float Env Filter Ebur128 Spec Spec_real Spec_filter Spec_coeff Spec_history Spec_accuracy Spec_exact Spec_programme Spec_chunks
  Instance Instance_exact Instance_played Instance_chunks Recipe_proofs.
Import ListNotations.
Import Spec_chunks.
Local Open Scope R_scope.

(** * C75: chunks *)
(** What the documentation says about 100 ms, in exact arithmetic: once the weighting filter has been given 100 ms, what it
    heard before makes a difference of no more than 1/10^6 of the largest earlier sample. *)
Theorem C75_enough : forall rate past seed xs M, audio_rate rate -> 0 <= M -> samples_below M past ->
  0.0999 * IZR (Z.of_N rate) <= INR (length seed) ->
  Forall2 (fun Y Z => Rabs (Y - Z) <= M / 10 ^ 6)
    (skipn (length seed) (weighted rate (seed ++ xs))) (skipn (length past + length seed) (weighted rate (past ++ seed ++ xs))).
Proof. exact settled_after. Qed.
(** The signal an analyzer measures that was seeded with the 100 ms before frame [a] and then given the frames up to [b]:
    that of the whole programme from [a] on. *)
Theorem C75_signal : forall P E c M e t a b x, is_64bit P -> tan_precise E -> powf_accurate E -> audio_rate (e_rate e) ->
  0 <= M <= 2 ^ 397 -> samples_below M x -> (a = 0 \/ hop e <= a)%nat -> (a <= b <= length x)%nat ->
  fed P E c e t (span (a - hop e) (Nat.min a (hop e)) x) (span a (b - a) x) ->
  Forall2 (fun y Y => is_finite y = true /\ Rabs (real y - Y) <= filter_error P (e_rate e) M + 1.05 / 10 ^ 6 * M)
    (nth c (signals t) []) (skipn a (weighted (e_rate e) (firstn b x))).
Proof. exact chunk_signal_near. Qed.
(** Any number of chunks, overlapping by 400 ms, all but the first seeded with their first 100 ms, in calls of any size: what
    loudness_global_multiple reports for their analyzers is the integrated loudness of the whole programme. *)
Theorem C75_integrated : forall P E rate M roles whole N0, is_64bit P -> tan_precise E -> powf_accurate E -> audio_rate rate ->
  0 <= M <= 2 ^ 397 -> programme_of M roles N0 whole ->
  let s := N.to_nat (hundred_ms rate) in forall n cuts et ets, powf_contract E -> log10_accurate E ->
  measures P E whole 0 n (fst et) (snd et) -> in_chunks P E whole s n cuts ets -> last cuts n = N0 ->
  Forall (fun et => integrating rate roles (fst et)) (et :: ets) ->
  let l := exact_energies rate (4 * s) roles whole (block_ends s 0 N0) in
  let d := chunk_error P rate M roles in let k := (length l + 3 * length (et :: ets) + 102)%nat in
  (N.of_nat k <= 2 ^ 50)%N -> decided 10 (2 * d) (tolerance k / 6) l -> loud l <> [] -> 5 * d <= sqrt (average (gated_blocks 10 l)) ->
  exists v, loudness_global_multiple P E (map fst (et :: ets)) = Ret (Ok v) /\ is_finite v = true /\
    Rabs (real v - integrated l) <= 14 * (d / sqrt (average (gated_blocks 10 l))) + tolerance k.
Proof. exact chunked_exact. Qed.
(** half a second of one channel at 48 kHz with an impulse at its end, in two chunks: the second is seeded with the first
    100 ms and measures the other 400 ms *)
Example C75_example : tan_precise env4 /\ powf_accurate env4 /\ powf_contract env4 /\ log10_accurate env4 /\
  exists et et', measures x86_64 env4 [late 5] 0 (4 * N.to_nat 4800) (fst et) (snd et) /\
  in_chunks x86_64 env4 [late 5] (N.to_nat 4800) (4 * N.to_nat 4800) [(5 * N.to_nat 4800)%nat] [et'] /\
  programme_of 1 [Left] (5 * N.to_nat 4800) [late 5] /\ Forall (fun et => integrating 48000 [Left] (fst et)) [et; et'] /\
  let l := exact_energies 48000 (4 * N.to_nat 4800) [Left] [late 5] (block_ends (N.to_nat 4800) 0 (5 * N.to_nat 4800)) in
  let d := chunk_error x86_64 48000 1 [Left] in let k := (length l + 3 * 2 + 102)%nat in
  (N.of_nat k <= 2 ^ 50)%N /\ decided 10 (2 * d) (tolerance k / 6) l /\ loud l <> [] /\ 5 * d <= sqrt (average (gated_blocks 10 l)).
Proof. exact (conj env4_tan (conj env4_powf (conj env4_powf_values (conj env4_log10 chunks_case)))). Qed.

(** * Assumptions *)
Print Assumptions C75_enough.
Print Assumptions C75_signal.
Print Assumptions C75_integrated.
