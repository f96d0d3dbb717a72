(** C81: the Rust history against the C reference code of tests/c. *)
From Coq Require Import List Arith NArith ZArith Reals.
From Verif Require Import Prelude Float Env Tables Utils History Ebur128 Cref Spec Spec_real Spec_history Spec_accuracy Spec_cref
  Instance_cref Twin_proofs Cref_proofs Cref_same_proofs Cref_examples.
Import ListNotations.
Local Open Scope nat_scope.

(** * C81: the C reference code and the Rust code agree *)
(** The tables the C code computes when it starts are the tables the Rust code contains: the generator of the latter writes
    exactly the numbers of the former. *)
Theorem C81_tables : forall E L, same_pow E L ->
  generate_histogram_bins E = (st_energies (history_init_c L), st_bounds (history_init_c L)).
Proof. exact init_tables. Qed.
Example C81_tables_example : same_pow env5 glibc /\ generate_histogram_bins env5 = (ENERGIES, BOUNDARIES).
Proof. exact (conj env5_pow env5_regenerates). Qed.
(** With the logarithm the C code uses (as when the crate is compiled for its tests) both implementations record any sequence of
    energies and give, to the bit, the same gated loudness, relative threshold and loudness range; for list and histogram. *)
Theorem C81_exact : forall P E L us max xs, is_64bit P -> powf_contract E -> sort_contract E -> bsearch_contract E -> qsort_contract L ->
  same_pow E L -> regenerates E -> same_log E L -> no_nan xs -> (1 <= max)%N -> (N.of_nat (length (List.filter measurable xs)) <= small_count)%N ->
  exists h hc g t r, record_all (history_new us max) xs = Ret h /\ recorded_c L us max xs = Ret hc /\
    gated_loudness P E h = Ret g /\ history_gated_loudness_c L (history_init_c L) hc = Ret g /\
    history_relative_threshold P E h = t /\ history_relative_threshold_c L (history_init_c L) hc = Ret t /\
    history_loudness_range P E h = Ret r /\ history_loudness_range_c P L (history_init_c L) hc = Ret r.
Proof. exact same_histories. Qed.
Example C81_exact_example : (powf_contract env6 /\ sort_contract env6 /\ bsearch_contract env6 /\ qsort_contract glibc /\ same_pow env6 glibc /\ regenerates env6 /\ same_log env6 glibc) /\
  no_nan three /\ map measurable three = [true; true; true; false].
Proof. exact (conj env6_ok three_ok). Qed.
(** With log10 as released, and any accurate log in the C library, the readings are the same or finite and 6e-11 LU apart. *)
Theorem C81_close : forall P E L us max xs, is_64bit P -> powf_contract E -> sort_contract E -> bsearch_contract E -> qsort_contract L ->
  same_pow E L -> regenerates E -> log10_accurate E -> log_accurate L -> no_nan xs -> (1 <= max)%N -> (N.of_nat (length (List.filter measurable xs)) <= small_count)%N ->
  exists h hc g gc t tc r rc, record_all (history_new us max) xs = Ret h /\ recorded_c L us max xs = Ret hc /\
    gated_loudness P E h = Ret g /\ history_gated_loudness_c L (history_init_c L) hc = Ret gc /\ same_reading g gc /\
    history_relative_threshold P E h = t /\ history_relative_threshold_c L (history_init_c L) hc = Ret tc /\ same_reading t tc /\
    history_loudness_range P E h = Ret r /\ history_loudness_range_c P L (history_init_c L) hc = Ret rc /\ same_reading r rc.
Proof. exact close_histories. Qed.
(** What an analyzer answers is what the C code answers, given the energies of the analyzer's blocks one by one. *)
Theorem C81_session : forall P E L us e t b s, is_64bit P -> (us = true <-> has_HISTOGRAM (e_mode e)) -> powf_contract E -> sort_contract E -> bsearch_contract E -> qsort_contract L ->
  same_pow E L -> regenerates E -> log10_accurate E -> log_accurate L -> noted P E e t b s -> no_nan b -> no_nan s ->
  (N.of_nat (length (List.filter measurable b)) <= small_count)%N -> (N.of_nat (length (List.filter measurable s)) <= small_count)%N ->
  exists hb hs, recorded_c L us (p_usize_max P / 100) b = Ret hb /\ recorded_c L us (p_usize_max P / 3000) s = Ret hs /\
    (has_I (e_mode e) -> exists v w, ask P E e QGlobal = Ret (AValue (Ok v)) /\ history_gated_loudness_c L (history_init_c L) hb = Ret w /\ same_reading v w) /\
    (has_I (e_mode e) -> exists v w, ask P E e QThreshold = Ret (AValue (Ok v)) /\ history_relative_threshold_c L (history_init_c L) hb = Ret w /\ same_reading v w) /\
    (has_LRA (e_mode e) -> exists v w, ask P E e QRange = Ret (AValue (Ok v)) /\ history_loudness_range_c P L (history_init_c L) hs = Ret w /\ same_reading v w).
Proof. exact same_session. Qed.
Example C81_session_example : (powf_contract env5 /\ sort_contract env5 /\ bsearch_contract env5 /\ qsort_contract glibc /\ same_pow env5 glibc /\ regenerates env5 /\ log10_accurate env5 /\ log_accurate glibc) /\
  exists e t b s, noted x86_64 env5 e t b s /\ e_mode e = 63%N /\ population (blocks e) = 37%N /\ population (short_blocks e) = 2%N /\
    no_nan b /\ no_nan s /\ (N.of_nat (length (List.filter measurable b)) = 37)%N /\ (N.of_nat (length (List.filter measurable s)) = 2)%N.
Proof. exact (conj (conj env5_powf (conj env5_sort (conj env5_bsearch (conj glibc_qsort (conj env5_pow (conj env5_regenerates (conj env5_accurate glibc_accurate))))))) demo5_list). Qed.
(** The hypothesis that no energy is NaN is needed: the C code does not record a NaN, the Rust list does, and reads NaN from then on. *)
Theorem C81_nan_refuted : forall P E L max xs, (1 <= max)%N ->
  recorded_c L false max (xs ++ [f64_nan]) = recorded_c L false max xs /\
  exists h, record_all (history_new false max) (xs ++ [f64_nan]) = Ret h /\ gated_loudness P E h = Ret f64_nan /\ history_relative_threshold P E h = f64_nan.
Proof. exact nan_differs. Qed.
(** The maximum size: with a larger one the C history is unchanged and the Rust history gains blocks of energy zero; with a smaller
    one the C history drops its oldest blocks and the Rust history keeps them. *)
Theorem C81_set_max_refuted : forall P E L, powf_contract E -> log10_accurate E -> same_pow E L -> regenerates E ->
  (history_relative_threshold P E (history_set_max_size (history_new false 5) 7) = f64_neg f64_inf /\
   exists h, history_set_max_size_c (history_create_c false 5) 7 = Ret h /\ history_relative_threshold_c L (history_init_c L) h = Ret (f64_of_Z (-70))) /\
  (exists h hc, record_all (history_new false 5) pair2 = Ret h /\ recorded_c L false 5 pair2 = Ret hc /\
   contents (history_set_max_size h 1) = map (fun x => (1%N, x)) pair2 /\
   exists hc', history_set_max_size_c hc 1 = Ret hc' /\ ch_list hc' = [f64_bin 1 (-5)]).
Proof. exact (fun P E L H1 H2 H3 H4 => conj (grow_differs P E L H1 H2) (shrink_differs E L H3 H4)). Qed.

(** * Assumptions *)
Print Assumptions C81_tables.
Print Assumptions C81_exact.
Print Assumptions C81_close.
Print Assumptions C81_session.
Print Assumptions C81_nan_refuted.
Print Assumptions C81_set_max_refuted.
