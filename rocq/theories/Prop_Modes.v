(** C64, C65: analyzers of different modes that get the same calls. *)
From Coq Require Import List Arith NArith ZArith Bool Reals.
From Flocq Require Import IEEE754.BinarySingleNaN.
From Verif Require Import Prelude Float Env Tables Utils History Filter Ebur128 Spec Spec_real Spec_history Spec_accuracy Spec_modes Instance Instance_history Instance_accuracy
  Modes_proofs Twin_proofs Modes_examples.
Import ListNotations.
Import Spec_history.
Local Open Scope R_scope.

(** * C64: measurements are independent of each other *)
Theorem C64_independent : forall P E channels rate m m' e f os rs e', is_64bit P -> ebur128_new P E channels rate m = Ret (Ok e) ->
  ebur128_new P E channels rate m' = Ret (Ok f) -> supported m rate -> supported m' rate -> N.testbit m 1 = N.testbit m' 1 ->
  all_admissible P E e os -> all_admissible P E f os -> run P E e os = Ret (rs, e') ->
  exists f', run P E f os = Ret (rs, f') /\ forall q, both_measure m m' q -> ask P E e' q = ask P E f' q.
Proof. exact independent. Qed.
(** with and without loudness range *)
Example C64_example : exists e f rs e', ebur128_new x86_64 env0 2 20 63%N = Ret (Ok e) /\ ebur128_new x86_64 env0 2 20 55%N = Ret (Ok f) /\
  all_admissible x86_64 env0 e mixed_calls /\ all_admissible x86_64 env0 f mixed_calls /\ run x86_64 env0 e mixed_calls = Ret (rs, e') /\
  population (blocks e') = 17%N /\ both_measure 63%N 55%N QGlobal /\ both_measure 63%N 55%N (QTruePeak 1) /\ ~ measures 55%N QRange.
Proof. exact modes_case. Qed.

(** * C65: a histogram against a list of blocks *)
Theorem C65_blocks : forall P E e f, is_64bit P -> list_and_histogram P E e f ->
  (has_I (e_mode e) -> has_I (e_mode f) -> (population (blocks e) < p_usize_max P / 100)%N -> blocks f = binned (blocks e)) /\
  (has_LRA (e_mode e) -> has_LRA (e_mode f) -> (population (short_blocks e) < p_usize_max P / 3000)%N -> short_blocks f = binned (short_blocks e)).
Proof. exact twin_blocks. Qed.
(** 0.05 LU, half the width of a bin *)
Theorem C65_programme : forall P E e f, is_64bit P -> powf_contract E -> sort_contract E -> bsearch_contract E -> log10_contract E -> log10_accurate E -> list_and_histogram P E e f ->
  has_I (e_mode e) -> has_I (e_mode f) -> ordinary (blocks e) -> (population (blocks e) <= small_count)%N -> population (blocks e) <> 0%N ->
  let t := tolerance (programme_effort [blocks e]) in
  (exists v w, ask P E e QThreshold = Ret (AValue (Ok v)) /\ ask P E f QThreshold = Ret (AValue (Ok w)) /\
     is_finite v = true /\ is_finite w = true /\ Rabs (real v - real w) <= 5 / 100 + / 10 ^ 8 + t) /\
  (clear_of_gate 10 (1 / 10 + / 10 ^ 7 + t) (blocks e) ->
   exists v w, ask P E e QGlobal = Ret (AValue (Ok v)) /\ ask P E f QGlobal = Ret (AValue (Ok w)) /\
     is_finite v = true /\ is_finite w = true /\ Rabs (real v - real w) <= 5 / 100 + / 10 ^ 8 + t).
Proof. exact agree_programme. Qed.
(** 0.1 LU, half a bin at either end *)
Theorem C65_range : forall P E e f, is_64bit P -> powf_contract E -> sort_contract E -> bsearch_contract E -> log10_contract E -> log10_accurate E -> list_and_histogram P E e f ->
  has_LRA (e_mode e) -> has_LRA (e_mode f) -> ordinary (short_blocks e) -> (population (short_blocks e) <= small_count)%N -> population (short_blocks e) <> 0%N ->
  clear_of_gate 20 (1 / 10 + / 10 ^ 7 + tolerance (range_effort (short_blocks e))) (short_blocks e) ->
  exists v w, ask P E e QRange = Ret (AValue (Ok v)) /\ ask P E f QRange = Ret (AValue (Ok w)) /\
    is_finite v = true /\ is_finite w = true /\ Rabs (real v - real w) <= 1 / 10 + / 10 ^ 8.
Proof. exact agree_range. Qed.
(** loud, then quiet: both gates exclude some blocks, and none is near them *)
Example C65_example : is_64bit x86_64 /\ powf_contract env1 /\ sort_contract env1 /\ bsearch_contract env1 /\ log10_contract env1 /\ log10_accurate env1 /\
  exists e f, list_and_histogram x86_64 env1 e f /\
  has_I (e_mode e) /\ has_I (e_mode f) /\ has_LRA (e_mode e) /\ has_LRA (e_mode f) /\ ordinary (blocks e) /\ ordinary (short_blocks e) /\
  population (blocks e) = 97%N /\ population (short_blocks e) = 8%N /\
  clear_of_gate 10 (1 / 10 + / 10 ^ 7 + tolerance (programme_effort [blocks e])) (blocks e) /\
  clear_of_gate 20 (1 / 10 + / 10 ^ 7 + tolerance (range_effort (short_blocks e))) (short_blocks e).
Proof. exact (conj eq_refl (conj env1_powf (conj env1_sort (conj env1_bsearch (conj env1_log10 (conj env1_accurate twin_case)))))). Qed.

(** * Assumptions *)
Print Assumptions C64_independent.
Print Assumptions C65_blocks.
Print Assumptions C65_programme.
Print Assumptions C65_range.
