(** Model of the C reference code in tests/c: the functions of libebur128 the Rust code was ported from and is
    tested against.  [UB] is an access outside an array, a null pointer, or a conversion out of range.
    Memory allocation does not fail and is not modelled; `free` is not modelled. *)
From Coq Require Import ZArith NArith List Bool Arith.
From Flocq Require Import IEEE754.BinarySingleNaN.
From Verif Require Import Prelude Float Env Utils History Interp Filter.
Import ListNotations.

(** The C library: pow, log, tan, sin, cos of <math.h>, and qsort with the comparison of tests/c/history.c 206-210
    (history_double_cmp). *)
Record libc := {
  c_pow : f64 -> f64 -> f64;
  c_log : f64 -> f64;
  c_tan : f64 -> f64;
  c_sin : f64 -> f64;
  c_cos : f64 -> f64;
  c_qsort : list f64 -> list f64;
}.

(** `a[i]` *)
Definition cidx {A} (l : list A) (i : nat) : outcome A :=
  match nth_error l i with Some a => Ret a | None => UB end.

(** `(size_t) x`: undefined unless the truncated value fits *)
Definition c_size_t (P : platform) (x : f64) : outcome N :=
  if is_finite x && (0 <=? Btrunc x)%Z && (Btrunc x <=? Z.of_N (p_usize_max P))%Z
  then Ret (Z.to_N (Btrunc x)) else UB.

(** * tests/c/history.c *)

(** tests/c/history.c 16-20: the static variables *)
Record statics := {
  st_twenty : f64;       (* minus_twenty_decibels *)
  st_gate : f64;         (* relative_gate_factor *)
  st_energies : list f64;
  st_bounds : list f64;
}.

(** 69.95 of tests/c/history.c 62 and examples/generate_histogram_bins.rs 35 *)
Definition lit_69_95 : f64 := f64_bin 4922293655227597 (-46).
Definition f64_70 : f64 := f64_of_Z 70.

(** tests/c/history.c 60-63: energy number i *)
Definition c_energy (L : libc) (i : nat) : f64 :=
  c_pow L f64_ten (f64_div (f64_add (f64_sub (f64_div (f64_of_nat i) f64_ten) lit_69_95) lit_0_691) f64_ten).
(** tests/c/history.c 64-67: boundary number i for i >= 1 *)
Definition c_bound (L : libc) (i : nat) : f64 :=
  c_pow L f64_ten (f64_div (f64_add (f64_sub (f64_div (f64_of_nat i) f64_ten) f64_70) lit_0_691) f64_ten).
(** tests/c/history.c 53-68: history_init_c *)
Definition history_init_c (L : libc) : statics := {|
  st_gate := c_pow L f64_ten (f64_div (f64_of_Z (-10)) f64_ten);
  st_twenty := c_pow L f64_ten (f64_div (f64_of_Z (-20)) f64_ten);
  st_bounds := c_pow L f64_ten (f64_div (f64_add (f64_of_Z (-70)) lit_0_691) f64_ten)
               :: map (c_bound L) (seq 1 1000);
  st_energies := map (c_energy L) (seq 0 1000);
|}.

(** tests/c/history.c 22-30: struct history.  The list is the sequence of its entries; a null
    block_energy_histogram is the empty list.  Simplification: the counters (unsigned long, size_t) are unbounded. *)
Record chistory := {
  ch_use : bool;
  ch_list : list f64;
  ch_max : N;
  ch_size : N;
  ch_hist : list N;
}.

(** tests/c/history.c 32-34: ebur128_energy_to_loudness *)
Definition energy_to_loudness_c (L : libc) (energy : f64) : f64 :=
  f64_sub (f64_mul f64_ten (f64_div (c_log L energy) (c_log L f64_ten))) lit_0_691.

(** tests/c/history.c 36-51: find_histogram_index, with a bound on the number of iterations *)
Fixpoint find_loop_c (S0 : statics) (fuel : nat) (energy : f64) (index_min index_max : nat) : outcome nat :=
  match fuel with
  | O => OutOfFuel
  | S fuel =>
      let index_mid := (index_min + index_max) / 2 in
      b <- cidx (st_bounds S0) index_mid ;;
      let index_min' := if f64_ge energy b then index_mid else index_min in
      let index_max' := if f64_ge energy b then index_max else index_mid in
      if index_max' - index_min' =? 1 then Ret index_min' else find_loop_c S0 fuel energy index_min' index_max'
  end.
Definition find_histogram_index_c (S0 : statics) (energy : f64) : outcome nat :=
  find_loop_c S0 1000 energy 0 1000.

(** tests/c/history.c 70-91: history_create_c *)
Definition history_create_c (use_histogram : bool) (max : N) : chistory :=
  {| ch_use := use_histogram; ch_list := []; ch_max := max; ch_size := 0;
     ch_hist := if use_histogram then repeat 0%N 1000 else [] |}.

(** tests/c/history.c 93-111: history_add_c.  With a full list the first entry is reused for the new energy; a full
    list without entries gives a null pointer. *)
Definition history_add_c (S0 : statics) (h : chistory) (energy : f64) : outcome chistory :=
  b0 <- cidx (st_bounds S0) 0 ;;
  if f64_ge energy b0 then
    if ch_use h then
      i <- find_histogram_index_c S0 energy ;;
      n <- cidx (ch_hist h) i ;;
      Ret {| ch_use := ch_use h; ch_list := ch_list h; ch_max := ch_max h; ch_size := ch_size h;
             ch_hist := upd (ch_hist h) i (n + 1)%N |}
    else if (ch_size h =? ch_max h)%N then
      match ch_list h with
      | [] => UB
      | _ :: rest => Ret {| ch_use := ch_use h; ch_list := rest ++ [energy]; ch_max := ch_max h;
                            ch_size := ch_size h; ch_hist := ch_hist h |}
      end
    else Ret {| ch_use := ch_use h; ch_list := ch_list h ++ [energy]; ch_max := ch_max h;
                ch_size := (ch_size h + 1)%N; ch_hist := ch_hist h |}
  else Ret h.

(** tests/c/history.c 113-121: history_set_max_size_c *)
Fixpoint drop_blocks_c (l : list f64) (size max : N) : outcome (list f64 * N) :=
  if (max <? size)%N then
    match l with
    | [] => UB
    | _ :: l => drop_blocks_c l (size - 1)%N max
    end
  else Ret (l, size).
Definition history_set_max_size_c (h : chistory) (max : N) : outcome chistory :=
  '(l, n) <- drop_blocks_c (ch_list h) (ch_size h) max ;;
  Ret {| ch_use := ch_use h; ch_list := l; ch_max := max; ch_size := n; ch_hist := ch_hist h |}.

(** tests/c/history.c 123-139: history_calc_relative_threshold: the counter and the threshold, both started at zero
    by the callers (143-145, 190-191) *)
Definition calc_relative_threshold_c (S0 : statics) (h : chistory) : outcome (N * f64) :=
  if ch_use h then
    ofold (fun '(n, t) i =>
             c <- cidx (ch_hist h) i ;;
             e <- cidx (st_energies S0) i ;;
             Ret ((n + c)%N, f64_add t (f64_mul (f64_of_N c) e)))
          (0%N, f64_zero) (seq 0 1000)
  else Ret (fold_left (fun '(n, t) z => ((n + 1)%N, f64_add t z)) (ch_list h) (0%N, f64_zero)).

(** tests/c/history.c 157-164 and 243-250 (the same code twice) *)
Definition start_index_c (S0 : statics) (threshold : f64) : outcome nat :=
  b0 <- cidx (st_bounds S0) 0 ;;
  if f64_lt threshold b0 then Ret 0
  else
    i <- find_histogram_index_c S0 threshold ;;
    e <- cidx (st_energies S0) i ;;
    Ret (if f64_gt threshold e then i + 1 else i).

(** tests/c/history.c 141-187: history_gated_loudness_c *)
Definition history_gated_loudness_c (L : libc) (S0 : statics) (h : chistory) : outcome f64 :=
  '(n, t) <- calc_relative_threshold_c S0 h ;;
  if (n =? 0)%N then Ret (f64_neg f64_inf)
  else
    let threshold := f64_mul (f64_div t (f64_of_N n)) (st_gate S0) in
    start <- start_index_c S0 threshold ;;
    '(n, g) <-
      (if ch_use h then
         ofold (fun '(n, g) j =>
                  c <- cidx (ch_hist h) j ;;
                  e <- cidx (st_energies S0) j ;;
                  Ret ((n + c)%N, f64_add g (f64_mul (f64_of_N c) e)))
               (0%N, f64_zero) (seq start (1000 - start))
       else
         Ret (fold_left (fun '(n, g) z => if f64_ge z threshold then ((n + 1)%N, f64_add g z) else (n, g))
                        (ch_list h) (0%N, f64_zero))) ;;
    if (n =? 0)%N then Ret (f64_neg f64_inf)
    else Ret (energy_to_loudness_c L (f64_div g (f64_of_N n))).

(** tests/c/history.c 189-204: history_relative_threshold_c *)
Definition history_relative_threshold_c (L : libc) (S0 : statics) (h : chistory) : outcome f64 :=
  '(n, t) <- calc_relative_threshold_c S0 h ;;
  if (n =? 0)%N then Ret (f64_of_Z (-70))
  else Ret (energy_to_loudness_c L (f64_mul (f64_div t (f64_of_N n)) (st_gate S0))).

(** tests/c/history.c 264-266 and 268-270: `while (stl_size <= percentile) stl_size += hist_[j++];` *)
Fixpoint count_up_c (fuel : nat) (hist : list N) (size : N) (j : nat) (percentile : N) : outcome (N * nat) :=
  match fuel with
  | O => OutOfFuel
  | S fuel =>
      if (size <=? percentile)%N then
        c <- cidx hist j ;;
        count_up_c fuel hist (size + c)%N (j + 1) percentile
      else Ret (size, j)
  end.
(** `histogram_energies[j - 1]` *)
Definition before_c (S0 : statics) (j : nat) : outcome f64 :=
  match j with O => UB | S j => cidx (st_energies S0) j end.

(** tests/c/history.c 300-303: `while (n > 0 && *p < x) { ++p; --n; }`: what is left *)
Fixpoint skip_below_c (l : list f64) (x : f64) : list f64 :=
  match l with
  | [] => []
  | z :: rest => if f64_lt z x then skip_below_c rest x else l
  end.

(** tests/c/history.c 212-314: history_loudness_range_c *)
Definition history_loudness_range_c (P : platform) (L : libc) (S0 : statics) (h : chistory) : outcome f64 :=
  if ch_use h then
    '(hist, size, power) <-
      ofold (fun '(hist, size, power) j =>
               c <- cidx (ch_hist h) j ;;
               e <- cidx (st_energies S0) j ;;
               Ret (hist ++ [c], (size + c)%N, f64_add power (f64_mul (f64_of_N c) e)))
            ([], 0%N, f64_zero) (seq 0 1000) ;;
    if (size =? 0)%N then Ret f64_zero
    else
      let power := f64_div power (f64_of_N size) in
      let integrated := f64_mul (st_twenty S0) power in
      index <- start_index_c S0 integrated ;;
      size <- ofold (fun size j => c <- cidx hist j ;; Ret (size + c)%N) 0%N (seq index (1000 - index)) ;;
      if (size =? 0)%N then Ret f64_zero
      else
        percentile_low <- c_size_t P (f64_add (f64_mul (f64_of_N (size - 1)) lit_0_1) lit_0_5) ;;
        percentile_high <- c_size_t P (f64_add (f64_mul (f64_of_N (size - 1)) lit_0_95) lit_0_5) ;;
        '(size, j) <- count_up_c 1001 hist 0%N index percentile_low ;;
        l_en <- before_c S0 j ;;
        '(size, j) <- count_up_c 1001 hist size j percentile_high ;;
        h_en <- before_c S0 j ;;
        Ret (f64_sub (energy_to_loudness_c L h_en) (energy_to_loudness_c L l_en))
  else
    match length (ch_list h) with
    | O => Ret f64_zero
    | _ =>
        let vector := c_qsort L (ch_list h) in
        let power := fold_left f64_add vector f64_zero in
        let power := f64_div power (f64_of_nat (length (ch_list h))) in
        let integrated := f64_mul (st_twenty S0) power in
        let relgated := skip_below_c vector integrated in
        match length relgated with
        | O => Ret f64_zero
        | S n =>
            ih <- c_size_t P (f64_add (f64_mul (f64_of_nat n) lit_0_95) lit_0_5) ;;
            h_en <- cidx relgated (N.to_nat ih) ;;
            il <- c_size_t P (f64_add (f64_mul (f64_of_nat n) lit_0_1) lit_0_5) ;;
            l_en <- cidx relgated (N.to_nat il) ;;
            Ret (f64_sub (energy_to_loudness_c L h_en) (energy_to_loudness_c L l_en))
        end
    end.

(** * examples/generate_histogram_bins.rs *)

(** examples/generate_histogram_bins.rs 33-41: the two arrays written to src/histogram_bins.rs: energies, boundaries.
    Simplification: the text of the generated file is not modelled, only the numbers in it. *)
Definition generated_energy (E : ext) (i : nat) : f64 :=
  e_powf E f64_ten (f64_div (f64_add (f64_sub (f64_div (f64_of_nat i) f64_ten) lit_69_95) lit_0_691) f64_ten).
Definition generated_bound (E : ext) (i : nat) : f64 :=
  e_powf E f64_ten (f64_div (f64_add (f64_sub (f64_div (f64_of_nat i) f64_ten) f64_70) lit_0_691) f64_ten).
Definition generate_histogram_bins (E : ext) : list f64 * list f64 :=
  (map (generated_energy E) (seq 0 1000), map (generated_bound E) (seq 0 1001)).
