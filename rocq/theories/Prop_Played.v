(** C73, C74: integrated loudness and loudness range against the measurement of the input samples in exact arithmetic. *)
From Coq Require Import List Arith NArith ZArith Reals Sorting.Sorted Sorting.Permutation.
From Flocq Require Import IEEE754.BinarySingleNaN.
From Verif Require Import Prelude Float Env Filter Ebur128 Spec Spec_real Spec_filter Spec_coeff Spec_history Spec_accuracy Spec_exact Spec_programme
  Instance Instance_exact Instance_played Played_proofs Span_proofs.
Import ListNotations.
Local Open Scope R_scope.

(** * C73: integrated loudness *)
(** After nothing but add calls, in any number and of any size, the integrated loudness that is reported is that of the
    samples: weighted, cut into 400 ms blocks every 100 ms, gated at -70 LUFS and at 10 LU below the mean of what is left,
    all over the real numbers.  [decided]: no block lies so near a gate that the error could put it on the other side. *)
Theorem C73_integrated : forall P E M e t xss, is_64bit P -> powf_contract E -> log10_accurate E -> tan_precise E -> powf_accurate E ->
  played P E e t -> heard_all P E M e t xss -> audio_rate (e_rate e) -> 0 <= M <= 2 ^ 400 ->
  has_I (e_mode e) -> ~ has_HISTOGRAM (e_mode e) ->
  let l := momentary_blocks e t xss in let d := rms_error P (e_rate e) M (e_cmap e) in let n := (length l + 105)%nat in
  (N.of_nat n <= 2 ^ 50)%N -> decided 10 (2 * d) (tolerance n / 6) l -> loud l <> [] -> 5 * d <= sqrt (average (gated_blocks 10 l)) ->
  exists v, ask P E e QGlobal = Ret (AValue (Ok v)) /\ is_finite v = true /\
    Rabs (real v - integrated l) <= 14 * (d / sqrt (average (gated_blocks 10 l))) + tolerance n.
Proof. exact integrated_exact. Qed.
(** an impulse at the end of 400 ms at 48 kHz *)
Example C73_example : powf_contract env4 /\ log10_accurate env4 /\ tan_precise env4 /\ powf_accurate env4 /\
  exists e t, played x86_64 env4 e t /\ heard_all x86_64 env4 1 e t [late 4] /\ audio_rate (e_rate e) /\ has_I (e_mode e) /\ ~ has_HISTOGRAM (e_mode e) /\
  let l := momentary_blocks e t [late 4] in let d := rms_error x86_64 (e_rate e) 1 (e_cmap e) in let n := (length l + 105)%nat in
  (N.of_nat n <= 2 ^ 50)%N /\ decided 10 (2 * d) (tolerance n / 6) l /\ loud l <> [] /\ 5 * d <= sqrt (average (gated_blocks 10 l)).
Proof. exact (conj env4_powf_values (conj env4_log10 (conj env4_tan (conj env4_powf integrated_case)))). Qed.

(** * C74: loudness range *)
(** The same for the loudness range: 3 s blocks every second, gated at -70 LUFS and at 20 LU below the mean of what is left;
    the difference between the loudness of the block at 95 % and that of the block at 10 % of what is left then. *)
Theorem C74_range : forall P E M e t xss, is_64bit P -> powf_contract E -> sort_contract E -> log10_accurate E -> tan_precise E -> powf_accurate E ->
  played P E e t -> heard_all P E M e t xss -> audio_rate (e_rate e) -> 0 <= M <= 2 ^ 400 ->
  has_LRA (e_mode e) -> ~ has_HISTOGRAM (e_mode e) ->
  let l := shortterm_blocks e t xss in let d := rms_error P (e_rate e) M (e_cmap e) in
  (N.of_nat (length l) <= small_count)%N -> decided 100 (2 * d) (tolerance (length l + 1000) / 6) l -> loud l <> [] ->
  forall r, Permutation r (gated_blocks 100 l) -> StronglySorted Rle r -> 5 * d <= sqrt (low_of r) ->
  exists v, ask P E e QRange = Ret (AValue (Ok v)) /\ is_finite v = true /\
    Rabs (real v - (lufs (high_of r) - lufs (low_of r))) <= 28 * (d / sqrt (low_of r)) + / 10 ^ 10.
Proof. exact range_exact. Qed.
(** an impulse at the end of 3 s at 48 kHz *)
Example C74_example : powf_contract env4 /\ sort_contract env4 /\ log10_accurate env4 /\ tan_precise env4 /\ powf_accurate env4 /\
  exists e t r, played x86_64 env4 e t /\ heard_all x86_64 env4 1 e t [late 30] /\ audio_rate (e_rate e) /\ has_LRA (e_mode e) /\ ~ has_HISTOGRAM (e_mode e) /\
  let l := shortterm_blocks e t [late 30] in let d := rms_error x86_64 (e_rate e) 1 (e_cmap e) in
  (N.of_nat (length l) <= small_count)%N /\ decided 100 (2 * d) (tolerance (length l + 1000) / 6) l /\ loud l <> [] /\
  Permutation r (gated_blocks 100 l) /\ StronglySorted Rle r /\ 5 * d <= sqrt (low_of r).
Proof. exact (conj env4_powf_values (conj env4_sort (conj env4_log10 (conj env4_tan (conj env4_powf range_case))))). Qed.

(** * Assumptions *)
Print Assumptions C73_integrated.
Print Assumptions C74_range.
