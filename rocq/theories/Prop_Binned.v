(** C77: integrated loudness and loudness range from histograms, against the measurement of the input samples in exact arithmetic. *)
From Coq Require Import List Arith NArith ZArith Reals Sorting.Sorted Sorting.Permutation.
From Flocq Require Import IEEE754.BinarySingleNaN.
From Verif Require Import Prelude Float Env Filter Ebur128 Spec Spec_real Spec_filter Spec_coeff Spec_history Spec_accuracy Spec_exact Spec_programme
  Instance Instance_exact Instance_played Instance_binned Binned_proofs.
Import ListNotations.
Local Open Scope R_scope.

(** * C77: histograms *)
(** As C73, in histogram mode.  A bin is 0.1 LU wide and its centre stands for every block in it, which costs at most 0.05 LU
    if no block is louder than the last bin (an energy of 900 is 28.8 LUFS) and none is within 0.17 LU of the relative gate. *)
Theorem C77_integrated : forall P E M e t xss, is_64bit P -> powf_contract E -> sort_contract E -> bsearch_contract E -> log10_contract E ->
  log10_accurate E -> tan_precise E -> powf_accurate E ->
  played P E e t -> heard_all P E M e t xss -> audio_rate (e_rate e) -> 0 <= M <= 2 ^ 400 ->
  has_I (e_mode e) -> has_HISTOGRAM (e_mode e) ->
  let l := momentary_blocks e t xss in let d := rms_error P (e_rate e) M (e_cmap e) in
  (N.of_nat (length l) <= small_count)%N -> decided 10 (2 * d) (1 / 50) l -> loud l <> [] -> Forall (fun z => z <= 900) l -> d <= 1 ->
  5 * d <= sqrt (average (gated_blocks 10 l)) ->
  exists v, ask P E e QGlobal = Ret (AValue (Ok v)) /\ is_finite v = true /\
    Rabs (real v - integrated l) <= 5 / 100 + 14 * (d / sqrt (average (gated_blocks 10 l))) + / 10 ^ 8.
Proof. exact integrated_binned. Qed.
(** an impulse at the end of 400 ms at 48 kHz *)
Example C77_integrated_example : powf_contract env4 /\ sort_contract env4 /\ bsearch_contract env4 /\ log10_contract env4 /\
  log10_accurate env4 /\ tan_precise env4 /\ powf_accurate env4 /\
  exists e t, played x86_64 env4 e t /\ heard_all x86_64 env4 1 e t [late 4] /\ audio_rate (e_rate e) /\ has_I (e_mode e) /\ has_HISTOGRAM (e_mode e) /\
  let l := momentary_blocks e t [late 4] in let d := rms_error x86_64 (e_rate e) 1 (e_cmap e) in
  (N.of_nat (length l) <= small_count)%N /\ decided 10 (2 * d) (1 / 50) l /\ loud l <> [] /\ Forall (fun z => z <= 900) l /\ d <= 1 /\
  5 * d <= sqrt (average (gated_blocks 10 l)).
Proof. exact (conj env4_powf_values (conj env4_sort (conj env4_bsearch (conj env4_log10_order (conj env4_log10 (conj env4_tan (conj env4_powf integrated_binned_case))))))). Qed.
(** As C74, in histogram mode: 0.05 LU at either end. *)
Theorem C77_range : forall P E M e t xss, is_64bit P -> powf_contract E -> sort_contract E -> bsearch_contract E -> log10_contract E ->
  log10_accurate E -> tan_precise E -> powf_accurate E ->
  played P E e t -> heard_all P E M e t xss -> audio_rate (e_rate e) -> 0 <= M <= 2 ^ 400 ->
  has_LRA (e_mode e) -> has_HISTOGRAM (e_mode e) ->
  let l := shortterm_blocks e t xss in let d := rms_error P (e_rate e) M (e_cmap e) in
  (N.of_nat (length l) <= small_count)%N -> decided 100 (2 * d) (1 / 50) l -> loud l <> [] -> Forall (fun z => z <= 900) l -> d <= 1 ->
  forall r, Permutation r (gated_blocks 100 l) -> StronglySorted Rle r -> 5 * d <= sqrt (low_of r) ->
  exists v, ask P E e QRange = Ret (AValue (Ok v)) /\ is_finite v = true /\
    Rabs (real v - (lufs (high_of r) - lufs (low_of r))) <= 1 / 10 + 28 * (d / sqrt (low_of r)) + / 10 ^ 8.
Proof. exact range_binned. Qed.
(** an impulse at the end of 3 s at 48 kHz *)
Example C77_range_example : exists e t r, played x86_64 env4 e t /\ heard_all x86_64 env4 1 e t [late 30] /\ audio_rate (e_rate e) /\
  has_LRA (e_mode e) /\ has_HISTOGRAM (e_mode e) /\
  let l := shortterm_blocks e t [late 30] in let d := rms_error x86_64 (e_rate e) 1 (e_cmap e) in
  (N.of_nat (length l) <= small_count)%N /\ decided 100 (2 * d) (1 / 50) l /\ loud l <> [] /\ Forall (fun z => z <= 900) l /\ d <= 1 /\
  Permutation r (gated_blocks 100 l) /\ StronglySorted Rle r /\ 5 * d <= sqrt (low_of r).
Proof. exact range_binned_case. Qed.

(** * Assumptions *)
Print Assumptions C77_integrated.
Print Assumptions C77_range.
