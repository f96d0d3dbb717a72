(** Model of src/history.rs (lines 22-497) *)
From Coq Require Import ZArith NArith List Bool Arith.
From Verif Require Import Prelude Float Env Tables Utils.
Import ListNotations.

Definition u64_max : N := 18446744073709551615%N.

(** src/history.rs 31-50: find_histogram_index.  The loop, with a bound on the
    number of iterations (1000 always suffices, proved). *)
Fixpoint find_loop (fuel : nat) (energy : f64) (min max : nat) : outcome nat :=
  match fuel with
  | O => OutOfFuel
  | S fuel =>
      let mid := (min + max) / 2 in
      b <- idx BOUNDARIES mid ;;
      let min' := if f64_ge energy b then mid else min in
      let max' := if f64_ge energy b then max else mid in
      d <- sub_usize max' min' ;;
      if d =? 1 then Ret min' else find_loop fuel energy min' max'
  end.
Definition find_histogram_index (energy : f64) : outcome nat :=
  find_loop 1000 energy 0 1000.

(** src/history.rs 54: struct Histogram(Box<[u64; 1000]>): 1000 counters.
    Simplification: counters are unbounded (u64 in the code: overflow needs
    2^64 recorded blocks). *)
Definition histogram := list N.

(** src/history.rs 57-59: Histogram::new *)
Definition histogram_new : histogram := repeat 0%N 1000.

(** src/history.rs 61-64: Histogram::add *)
Definition histogram_add (h : histogram) (energy : f64) : outcome histogram :=
  i <- find_histogram_index energy ;;
  c <- idx h i ;;
  set_idx h i (c + 1)%N.

(** src/history.rs 66-68: Histogram::reset *)
Definition histogram_reset (h : histogram) : histogram := map (fun _ => 0%N) h.

(** src/history.rs 70-80: Histogram::calc_relative_threshold *)
Definition histogram_calc_relative_threshold (h : histogram) : N * f64 :=
  fold_left
    (fun '(n, t) '(count, energy) =>
       ((n + count)%N, f64_add t (f64_mul (f64_of_N count) energy)))
    (combine h ENERGIES) (0%N, f64_zero).

(** src/history.rs 87-94: running counts, total count and power *)
Definition histogram_sums (h : histogram) : list N * N * f64 :=
  fold_left
    (fun '(hs, size, power) '(count, energy) =>
       let size := (size + count)%N in
       (hs ++ [size], size, f64_add power (f64_mul (f64_of_N count) energy)))
    (combine h ENERGIES) ([], 0%N, f64_zero).

(** src/history.rs 325-334 and 108-117 (the same code twice): first bin whose
    energy is not below the threshold *)
Definition start_index (threshold : f64) : outcome nat :=
  b0 <- idx BOUNDARIES 0 ;;
  if f64_lt threshold b0 then Ret 0
  else
    i <- find_histogram_index threshold ;;
    e <- idx ENERGIES i ;;
    Ret (if f64_gt threshold e then i + 1 else i).

(** `s.iter().rposition(p)` *)
Fixpoint rposition_from {A} (p : A -> bool) (l : list A) (i : nat) (acc : option nat) : option nat :=
  match l with
  | [] => acc
  | a :: t => rposition_from p t (S i) (if p a then Some i else acc)
  end.
Definition rposition {A} (p : A -> bool) (l : list A) : option nat := rposition_from p l 0 None.

(** constants of src/history.rs 128-129, 212-213 *)
Definition lit_0_1 : f64 := f64_bin 7205759403792794 (-56).
Definition lit_0_95 : f64 := f64_bin 8556839292003942 (-53).
Definition lit_0_5 : f64 := f64_bin 1 (-1).

(** src/history.rs 105, 204: f64::powf(10.0, -20.0 / 10.0) *)
Definition minus_twenty_decibels (E : ext) : f64 :=
  e_powf E f64_ten (f64_div (f64_of_Z (-20)) f64_ten).
(** src/history.rs 320-321, 411-412: f64::powf(10.0, -10.0 / 10.0) *)
Definition relative_gate_factor (E : ext) : f64 :=
  e_powf E f64_ten (f64_div (f64_of_Z (-10)) f64_ten).

(** src/history.rs 131-141 (and 143-153): from a percentile to the bin index *)
Definition percentile_bin (E : ext) (h_sum : list N) (index : nat) (percentile : N) : outcome nat :=
  tail <- slice_from h_sum index ;;
  let j := e_bsearch E tail (percentile + 1)%N in
  pre <- slice h_sum 0 (index + j) ;;
  Ret (match rposition (fun v => (v <=? percentile)%N) pre with
       | Some j => j + 1
       | None => 0
       end).

(** `a - b` on u64 *)
Definition sub_u64 (a b : N) : outcome N :=
  if (b <=? a)%N then Ret (a - b)%N else Panic.

(** src/history.rs 82-156: Histogram::loudness_range *)
Definition histogram_loudness_range (E : ext) (h : histogram) : outcome f64 :=
  let '(h_sum, size, power) := histogram_sums h in
  if (size =? 0)%N then Ret f64_zero
  else if f64_is_nan power then Ret f64_nan
  else
    let power := f64_div power (f64_of_N size) in
    let integrated := f64_mul (minus_twenty_decibels E) power in
    index <- start_index integrated ;;
    let before :=
      match index with
      | O => 0%N
      | S prev => match nth_error h_sum prev with Some v => v | None => 0%N end
      end in
    size <- sub_u64 size before ;;
    if (size =? 0)%N then Ret f64_zero
    else
      let s1 := f64_of_N (size - 1) in
      let percentile_low :=
        (f64_to_N u64_max (f64_add (f64_mul s1 lit_0_1) lit_0_5) + before)%N in
      let percentile_high :=
        (f64_to_N u64_max (f64_add (f64_mul s1 lit_0_95) lit_0_5) + before)%N in
      j <- percentile_bin E h_sum index percentile_low ;;
      l_en <- idx ENERGIES j ;;
      j <- percentile_bin E h_sum index percentile_high ;;
      h_en <- idx ENERGIES j ;;
      Ret (f64_sub (energy_to_loudness E h_en) (energy_to_loudness E l_en)).

(** src/history.rs 160-163: struct Queue (the VecDeque as a list, front first) *)
Record queue := { q_queue : list f64; q_max : N }.

(** src/history.rs 166-171: Queue::new (the capacity hint is not modelled) *)
Definition queue_new (max : N) : queue := {| q_queue := []; q_max := max |}.

(** src/history.rs 173-179: Queue::add *)
Definition queue_add (q : queue) (energy : f64) : queue :=
  let l := if (q_max q =? N.of_nat (length (q_queue q)))%N then tl (q_queue q) else q_queue q in
  {| q_queue := l ++ [energy]; q_max := q_max q |}.

(** src/history.rs 181-188: Queue::set_max_size *)
Definition queue_set_max_size (q : queue) (max : N) : queue :=
  {| q_queue :=
       if (N.of_nat (length (q_queue q)) <? max)%N
       then q_queue q ++ repeat f64_zero (N.to_nat max - length (q_queue q))
       else q_queue q;
     q_max := max |}.

(** src/history.rs 190-192: Queue::reset *)
Definition queue_reset (q : queue) : queue := {| q_queue := []; q_max := q_max q |}.

(** src/history.rs 194-196: Queue::calc_relative_threshold *)
Definition queue_calc_relative_threshold (P : platform) (q : queue) : N * f64 :=
  (N.of_nat (length (q_queue q)), sum_f64 P (q_queue q)).

Fixpoint take_while_count {A} (p : A -> bool) (l : list A) : nat :=
  match l with
  | [] => 0
  | a :: t => if p a then S (take_while_count p t) else 0
  end.

(** src/history.rs 198-219: Queue::loudness_range *)
Definition queue_loudness_range (P : platform) (E : ext) (q : list f64) : outcome f64 :=
  match q with
  | [] => Ret f64_zero
  | _ =>
    let power := f64_div (sum_f64 P q) (f64_of_nat (length q)) in
    let integrated := f64_mul (minus_twenty_decibels E) power in
    let relgated := take_while_count (fun v => f64_lt v integrated) q in
    relgated_size <- sub_usize (length q) relgated ;;
    match relgated_size with
    | O => Ret f64_zero
    | S n =>
        let s1 := f64_of_nat n in
        let ih := f64_to_N (p_usize_max P) (f64_add (f64_mul s1 lit_0_95) lit_0_5) in
        let il := f64_to_N (p_usize_max P) (f64_add (f64_mul s1 lit_0_1) lit_0_5) in
        h_en <- idx q (relgated + N.to_nat ih) ;;
        l_en <- idx q (relgated + N.to_nat il) ;;
        Ret (f64_sub (energy_to_loudness E h_en) (energy_to_loudness E l_en))
    end
  end.

(** src/history.rs 223-226: enum HistoryError *)
Inductive history_error := NoBlocksAboveThreshold | RelativeThresholdIsNan.

(** src/history.rs 241-244: enum History *)
Inductive history := HQueue (q : queue) | HHistogram (h : histogram).

(** src/history.rs 256-262: History::new *)
Definition history_new (use_histogram : bool) (max : N) : history :=
  if use_histogram then HHistogram histogram_new else HQueue (queue_new max).

(** src/history.rs 264-273: History::add *)
Definition history_add (h : history) (energy : f64) : outcome history :=
  b0 <- idx BOUNDARIES 0 ;;
  if f64_lt energy b0 then Ret h
  else match h with
       | HHistogram h => h' <- histogram_add h energy ;; Ret (HHistogram h')
       | HQueue q => Ret (HQueue (queue_add q energy))
       end.

(** src/history.rs 275-280: History::set_max_size *)
Definition history_set_max_size (h : history) (max : N) : history :=
  match h with
  | HHistogram h => HHistogram h
  | HQueue q => HQueue (queue_set_max_size q max)
  end.

(** src/history.rs 282-287: History::reset *)
Definition history_reset (h : history) : history :=
  match h with
  | HHistogram h => HHistogram (histogram_reset h)
  | HQueue q => HQueue (queue_reset q)
  end.

(** src/history.rs 289-294: History::calc_relative_threshold *)
Definition history_calc_relative_threshold (P : platform) (h : history) : N * f64 :=
  match h with
  | HHistogram h => histogram_calc_relative_threshold h
  | HQueue q => queue_calc_relative_threshold P q
  end.

(** src/history.rs 304-310: the fold over all histories *)
Definition total_relative_threshold (P : platform) (s : list history) : N * f64 :=
  fold_left
    (fun '(n, t) h =>
       let '(n', t') := history_calc_relative_threshold P h in
       ((n + n')%N, f64_add t t'))
    s (0%N, f64_zero).

(** src/history.rs 336-366: the (count, energy) pairs one history contributes *)
Definition gated_items (threshold : f64) (start : nat) (h : history) : outcome (list (N * f64)) :=
  match h with
  | HHistogram h =>
      hs <- slice_from h start ;;
      es <- slice_from ENERGIES start ;;
      Ret (map (fun '(count, energy) => (count, f64_mul (f64_of_N count) energy)) (combine hs es))
  | HQueue q =>
      Ret (map (fun l => (1%N, l)) (filter (fun l => f64_ge l threshold) (q_queue q)))
  end.

(** src/history.rs 301-367: iter_gating_block_count_and_energy, the iterator as
    the list of its items *)
Definition iter_gating (P : platform) (E : ext) (s : list history)
  : outcome (list (N * f64) + history_error) :=
  let '(n, t) := total_relative_threshold P s in
  if (n =? 0)%N then Ret (inr NoBlocksAboveThreshold)
  else if f64_is_nan t then Ret (inr RelativeThresholdIsNan)
  else
    let threshold := f64_mul (f64_div t (f64_of_N n)) (relative_gate_factor E) in
    start <- start_index threshold ;;
    items <- omap (gated_items threshold start) s ;;
    Ret (inl (concat items)).

(** src/history.rs 383-398: gating_block_count_and_energy_multiple *)
Definition gating_block_count_and_energy_multiple (P : platform) (E : ext) (s : list history)
  : outcome ((N * f64) + history_error) :=
  it <- iter_gating P E s ;;
  Ret (match it with
       | inr e => inr e
       | inl items =>
           let '(n, l) :=
             fold_left (fun '(tn, tl) '(count, loudness) => ((tn + count)%N, f64_add tl loudness))
                       items (0%N, f64_zero) in
           if (n =? 0)%N then inr NoBlocksAboveThreshold else inl (n, l)
       end).

(** src/history.rs 369-377: gated_loudness_multiple *)
Definition gated_loudness_multiple (P : platform) (E : ext) (s : list history) : outcome f64 :=
  r <- gating_block_count_and_energy_multiple P E s ;;
  Ret (match r with
       | inl (n, l) => energy_to_loudness E (f64_div l (f64_of_N n))
       | inr NoBlocksAboveThreshold => f64_neg f64_inf
       | inr RelativeThresholdIsNan => f64_nan
       end).

(** src/history.rs 296-298: gated_loudness *)
Definition gated_loudness (P : platform) (E : ext) (h : history) : outcome f64 :=
  gated_loudness_multiple P E [h].

(** src/history.rs 379-381: gating_block_count_and_energy *)
Definition history_gating_block_count_and_energy (P : platform) (E : ext) (h : history)
  : outcome ((N * f64) + history_error) :=
  gating_block_count_and_energy_multiple P E [h].

(** src/history.rs 400-417: relative_threshold *)
Definition history_relative_threshold (P : platform) (E : ext) (h : history) : f64 :=
  let '(n, t) := history_calc_relative_threshold P h in
  if (n =? 0)%N then f64_neg (f64_of_Z 70)
  else if f64_is_nan t then f64_nan
  else energy_to_loudness E (f64_mul (f64_div t (f64_of_N n)) (relative_gate_factor E)).

(** src/history.rs 437-448: element-wise sum of the histograms; None for a queue *)
Fixpoint combine_histograms (s : list history) (acc : list N) : option (list N) :=
  match s with
  | [] => Some acc
  | HHistogram h :: t => combine_histograms t (map2 (fun i o => (o + i)%N) h acc)
  | HQueue _ :: _ => None
  end.

(** src/history.rs 456-476: concatenation of the queues; None for a histogram *)
Fixpoint combine_queues (s : list history) (acc : list f64) : option (list f64) :=
  match s with
  | [] => Some acc
  | HQueue q :: t => combine_queues t (acc ++ q_queue q)
  | HHistogram _ :: _ => None
  end.

(** src/history.rs 425-496: loudness_range_multiple *)
Definition history_loudness_range_multiple (P : platform) (E : ext) (s : list history)
  : outcome (result f64) :=
  match s with
  | [] => Ret (Ok f64_zero)
  | HHistogram h :: rest =>
      let combined :=
        match rest with
        | [] => Some h
        | _ => combine_histograms s (repeat 0%N 1000)
        end in
      match combined with
      | None => Ret (Err InvalidMode)
      | Some c => r <- histogram_loudness_range E c ;; Ret (Ok r)
      end
  | HQueue _ :: _ =>
      match combine_queues s [] with
      | None => Ret (Err InvalidMode)
      | Some c =>
          let '(sorted, contains_nan) := e_sort E c in
          if contains_nan then Ret (Ok f64_nan)
          else r <- queue_loudness_range P E sorted ;; Ret (Ok r)
      end
  end.

(** src/history.rs 419-423: loudness_range; `.unwrap()` panics on Err *)
Definition history_loudness_range (P : platform) (E : ext) (h : history) : outcome f64 :=
  r <- history_loudness_range_multiple P E [h] ;;
  match r with Ok v => Ret v | Err _ => Panic end.
