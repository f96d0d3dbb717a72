(** C58 - C60: reported values against exact real arithmetic. *)
From Coq Require Import List Arith NArith ZArith Bool Reals Sorted Permutation.
From Flocq Require Import IEEE754.BinarySingleNaN.
From Verif Require Import Prelude Float Env Tables Utils History Filter Ebur128 Spec Spec_real Spec_history Spec_accuracy Instance Instance_history Instance_accuracy
  Lufs_proofs Programme_proofs Accuracy_examples.
Import ListNotations.
Import Spec_history.
Local Open Scope R_scope.

(** * C58: momentary, short-term and window loudness *)
Theorem C58_momentary : forall P E e t v, is_64bit P -> log10_accurate E -> taped P E e t ->
  ask P E e QMomentary = Ret (AValue (Ok v)) -> is_finite v = true -> -300 <= real v ->
  let w := (4 * hop e)%nat in
  0 < mean_square w (e_cmap e) (signals t) /\ close (w + e_channels e + 4) v (lufs (mean_square w (e_cmap e) (signals t))).
Proof. exact momentary_close. Qed.
Theorem C58_shortterm : forall P E e t v, is_64bit P -> log10_accurate E -> taped P E e t ->
  ask P E e QShortterm = Ret (AValue (Ok v)) -> is_finite v = true -> -300 <= real v ->
  let w := (30 * hop e)%nat in
  0 < mean_square w (e_cmap e) (signals t) /\ close (w + e_channels e + 4) v (lufs (mean_square w (e_cmap e) (signals t))).
Proof. exact shortterm_close. Qed.
Theorem C58_window : forall P E e t ms v, is_64bit P -> log10_accurate E -> taped P E e t -> (ms <= 4294967295)%N ->
  ask P E e (QWindow ms) = Ret (AValue (Ok v)) -> is_finite v = true -> -300 <= real v ->
  let w := N.to_nat (e_rate e * ms / 1000) in
  0 < mean_square w (e_cmap e) (signals t) /\ close (w + e_channels e + 4) v (lufs (mean_square w (e_cmap e) (signals t))).
Proof. exact any_window_close. Qed.
Example C58_example : log10_accurate env1 /\ exists e t v, taped x86_64 env1 e t /\ ask x86_64 env1 e QMomentary = Ret (AValue (Ok v)) /\ is_finite v = true /\ -300 <= real v.
Proof. exact (conj env1_accurate momentary_case). Qed.

(** * C59: programme loudness and relative threshold *)
Theorem C59_one_analyzer : forall P E e v, is_64bit P -> powf_contract E -> log10_accurate E -> reachable P E e -> has_I (e_mode e) -> countable (blocks e) ->
  (N.of_nat (programme_effort [blocks e]) <= 2 ^ 50)%N -> ask P E e QGlobal = Ret (AValue (Ok v)) -> is_finite v = true ->
  let l := blocks e in let n := programme_effort [blocks e] in
  exists g, 0 < exact_mean l /\ positive g /\ Rabs (lufs (real g) - (lufs (exact_mean l) - 10)) <= tolerance n /\
    0 < exact_mean (at_least g l) /\ close n v (lufs (exact_mean (at_least g l))).
Proof. exact global_close. Qed.
Theorem C59_several : forall P E es v, is_64bit P -> powf_contract E -> log10_accurate E -> Forall (reachable P E) es -> Forall (fun e => has_I (e_mode e)) es ->
  countable (concat (map blocks es)) -> (N.of_nat (programme_effort (map blocks es)) <= 2 ^ 50)%N ->
  loudness_global_multiple P E es = Ret (Ok v) -> is_finite v = true ->
  let l := concat (map blocks es) in let n := programme_effort (map blocks es) in
  exists g, 0 < exact_mean l /\ positive g /\ Rabs (lufs (real g) - (lufs (exact_mean l) - 10)) <= tolerance n /\
    0 < exact_mean (at_least g l) /\ close n v (lufs (exact_mean (at_least g l))).
Proof. exact several_close. Qed.
(** the textbook value, unless a block is within the error of the gate *)
Theorem C59_textbook : forall P E e v, is_64bit P -> powf_contract E -> log10_accurate E -> reachable P E e -> has_I (e_mode e) -> countable (blocks e) ->
  (N.of_nat (programme_effort [blocks e]) <= 2 ^ 50)%N -> ask P E e QGlobal = Ret (AValue (Ok v)) -> is_finite v = true ->
  let n := programme_effort [blocks e] in
  clear_of_gate 10 (tolerance n) (blocks e) -> close n v (textbook_programme (blocks e)).
Proof. exact global_textbook. Qed.
Theorem C59_textbook_several : forall P E es v, is_64bit P -> powf_contract E -> log10_accurate E -> Forall (reachable P E) es -> Forall (fun e => has_I (e_mode e)) es ->
  countable (concat (map blocks es)) -> (N.of_nat (programme_effort (map blocks es)) <= 2 ^ 50)%N ->
  loudness_global_multiple P E es = Ret (Ok v) -> is_finite v = true ->
  let l := concat (map blocks es) in let n := programme_effort (map blocks es) in
  clear_of_gate 10 (tolerance n) l -> close n v (textbook_programme l).
Proof. exact several_textbook. Qed.
Theorem C59_threshold : forall P E e v, is_64bit P -> powf_contract E -> log10_accurate E -> reachable P E e -> has_I (e_mode e) -> countable (blocks e) ->
  (N.of_nat (programme_effort [blocks e]) <= 2 ^ 50)%N -> population (blocks e) <> 0%N -> ask P E e QThreshold = Ret (AValue (Ok v)) -> is_finite v = true ->
  0 < exact_mean (blocks e) /\ close (programme_effort [blocks e]) v (lufs (exact_mean (blocks e)) - 10).
Proof. exact ask_threshold_close. Qed.
(** 60 of 97 blocks pass, none is near the gate *)
Example C59_example : powf_contract env1 /\ log10_accurate env1 /\
  exists e v w, reachable x86_64 env1 e /\ has_I (e_mode e) /\ countable (blocks e) /\ (N.of_nat (programme_effort [blocks e]) <= 2 ^ 50)%N /\
  population (blocks e) = 97%N /\ ask x86_64 env1 e QGlobal = Ret (AValue (Ok v)) /\ is_finite v = true /\
  ask x86_64 env1 e QThreshold = Ret (AValue (Ok w)) /\ is_finite w = true /\ clear_of_gate 10 (tolerance (programme_effort [blocks e])) (blocks e) /\
  ask x86_64 env1 e QCount = Ret (ACount (gated env1 [blocks e])) /\ option_map fst (gated env1 [blocks e]) = Some 60%N.
Proof. exact (conj env1_powf (conj env1_accurate programme_case)). Qed.

(** * C60: loudness range *)
Theorem C60_list : forall P E e m v, is_64bit P -> powf_contract E -> sort_contract E -> log10_accurate E -> reachable P E e -> has_LRA (e_mode e) -> ~ has_HISTOGRAM (e_mode e) ->
  Permutation (short_blocks e) (singly m) -> ascending m -> (N.of_nat (length m) <= small_count)%N -> m <> [] -> is_finite (energy_sum (singly m)) = true ->
  ask P E e QRange = Ret (AValue (Ok v)) -> is_finite v = true ->
  (exists g, let r := List.filter (fun x => f64_ge x g) m in
    0 < exact_mean (singly m) /\ positive g /\ Rabs (lufs (real g) - (lufs (exact_mean (singly m)) - 20)) <= tolerance (range_effort (singly m)) /\
    positive (high_percentile r) /\ positive (low_percentile r) /\
    Rabs (real v - (lufs (real (high_percentile r)) - lufs (real (low_percentile r)))) <= / 10 ^ 10) /\
  (clear_of_gate 20 (tolerance (range_effort (singly m))) (singly m) -> Rabs (real v - textbook_range (singly m)) <= / 10 ^ 10).
Proof. exact list_range_close. Qed.
Theorem C60_histogram : forall P E e v, is_64bit P -> powf_contract E -> bsearch_contract E -> log10_accurate E -> reachable P E e -> has_LRA (e_mode e) -> has_HISTOGRAM (e_mode e) ->
  (population (short_blocks e) <= small_count)%N -> population (short_blocks e) <> 0%N ->
  ask P E e QRange = Ret (AValue (Ok v)) -> is_finite v = true ->
  let l := short_blocks e in
  (exists g, let r := expand (at_least g l) in
    0 < exact_mean l /\ positive g /\ Rabs (lufs (real g) - (lufs (exact_mean l) - 20)) <= tolerance (range_effort l) /\
    positive (high_percentile r) /\ positive (low_percentile r) /\
    Rabs (real v - (lufs (real (high_percentile r)) - lufs (real (low_percentile r)))) <= / 10 ^ 10) /\
  (clear_of_gate 20 (tolerance (range_effort l)) l -> Rabs (real v - textbook_range l) <= / 10 ^ 10).
Proof. exact histogram_range_close. Qed.
(** 6 of 8 blocks pass, none is near the gate *)
Example C60_example : sort_contract env1 /\
  exists e m v, reachable x86_64 env1 e /\ has_LRA (e_mode e) /\ ~ has_HISTOGRAM (e_mode e) /\ Permutation (short_blocks e) (singly m) /\ ascending m /\
  length m = 8%nat /\ is_finite (energy_sum (singly m)) = true /\ ask x86_64 env1 e QRange = Ret (AValue (Ok v)) /\ is_finite v = true /\
  clear_of_gate 20 (tolerance (range_effort (singly m))) (singly m) /\ length (List.filter (fun x => f64_ge x (f64_mul (hundredth env1) (mean_energy (singly m)))) m) = 6%nat.
Proof. exact (conj env1_sort range_case). Qed.
Example C60_histogram_example : bsearch_contract env1 /\ exists e v, reachable x86_64 env1 e /\ has_LRA (e_mode e) /\ has_HISTOGRAM (e_mode e) /\ population (short_blocks e) = 2%N /\
  ask x86_64 env1 e QRange = Ret (AValue (Ok v)) /\ is_finite v = true.
Proof. exact (conj env1_bsearch histogram_case). Qed.

(** * Assumptions *)
Print Assumptions C58_momentary.
Print Assumptions C58_shortterm.
Print Assumptions C58_window.
Print Assumptions C59_one_analyzer.
Print Assumptions C59_several.
Print Assumptions C59_textbook.
Print Assumptions C59_textbook_several.
Print Assumptions C59_threshold.
Print Assumptions C60_list.
Print Assumptions C60_histogram.
