(** Model of the C reference code in tests/c, continued: calc_gating_block.c and filter.c (without true peaks, i.e. with
    calculate_true_peak = 0).  `free` and allocation are not modelled; subtraction of a larger size_t, which would wrap,
    is [UB] here. *)
From Coq Require Import ZArith NArith List Bool Arith.
From Verif Require Import Prelude Float Env Utils Interp Filter Cref.
Import ListNotations.

(** `a - b` for size_t *)
Definition c_sub (a b : nat) : outcome nat := if b <=? a then Ret (a - b) else UB.
(** `a[i] = x` *)
Definition cset {A} (l : list A) (i : nat) (x : A) : outcome (list A) :=
  if i <? length l then Ret (upd l i x) else UB.
(** EBUR128_MAX: tests/c/filter.c 19 *)
Definition c_max (a b : f64) : f64 := if f64_gt a b then a else b.

(** * tests/c/calc_gating_block.c *)

(** 16-19, 20-25, 27-31: `for (i = lo; i < hi; ++i) channel_sum += audio_data[i * channels + c] * ...` *)
Definition sum_squares_c (audio_data : list f64) (channels c lo hi : nat) (channel_sum : f64) : outcome f64 :=
  ofold (fun s i => x <- cidx audio_data (i * channels + c) ;;
                    y <- cidx audio_data (i * channels + c) ;;
                    Ret (f64_add s (f64_mul x y)))
        channel_sum (seq lo (hi - lo)).
(** 33-42 *)
Definition weigh_c (code : N) (channel_sum : f64) : f64 :=
  if ((code =? 4) || (code =? 5) || (code =? 9) || (code =? 10) || (code =? 11) || (code =? 12))%N
  then f64_mul channel_sum lit_1_41
  else if (code =? 6)%N then f64_mul channel_sum f64_two
  else channel_sum.
(** 8-51: calc_gating_block_c *)
Definition calc_gating_block_c (frames_per_block : nat) (audio_data : list f64) (audio_data_frames audio_data_index : nat)
    (channel_map : list N) (channels : nat) : outcome f64 :=
  sum <- ofold (fun sum c =>
           code <- cidx channel_map c ;;
           if (code =? 0)%N then Ret sum
           else
             channel_sum <-
               (if audio_data_index <? frames_per_block * channels then
                  s <- sum_squares_c audio_data channels c 0 (audio_data_index / channels) f64_zero ;;
                  rest <- c_sub frames_per_block (audio_data_index / channels) ;;
                  start <- c_sub audio_data_frames rest ;;
                  sum_squares_c audio_data channels c start audio_data_frames s
                else
                  start <- c_sub (audio_data_index / channels) frames_per_block ;;
                  sum_squares_c audio_data channels c start (audio_data_index / channels) f64_zero) ;;
             Ret (f64_add sum (weigh_c code channel_sum)))
         f64_zero (seq 0 channels) ;;
  Ret (f64_div sum (f64_of_nat frames_per_block)).

(** * tests/c/filter.c *)

(** 24-42: struct filter; the state is one array of five doubles per channel *)
Record cfilter := {
  cf_channels : nat;
  cf_b : arr5 f64;
  cf_a : arr5 f64;
  cf_v : list (arr5 f64);
  cf_calc : bool;
  cf_sample_peak : list f64;
}.

(** 51-93: the coefficients b and a *)
Definition coefficients_c (L : libc) (rate : N) : arr5 f64 * arr5 f64 :=
  let f0 := lit_f0_shelf in
  let G := lit_G in
  let Q := lit_Q_shelf in
  let K := c_tan L (f64_div (f64_mul PI64 f0) (f64_of_N rate)) in
  let Vh := c_pow L f64_ten (f64_div G (f64_of_Z 20)) in
  let Vb := c_pow L Vh lit_Vb_exp in
  let pa0 := f64_one in let rb0 := f64_one in let rb1 := f64_of_Z (-2) in let rb2 := f64_one in let ra0 := f64_one in
  let a0 := f64_add (f64_add f64_one (f64_div K Q)) (f64_mul K K) in
  let pb0 := f64_div (f64_add (f64_add Vh (f64_div (f64_mul Vb K) Q)) (f64_mul K K)) a0 in
  let pb1 := f64_div (f64_mul f64_two (f64_sub (f64_mul K K) Vh)) a0 in
  let pb2 := f64_div (f64_add (f64_sub Vh (f64_div (f64_mul Vb K) Q)) (f64_mul K K)) a0 in
  let pa1 := f64_div (f64_mul f64_two (f64_sub (f64_mul K K) f64_one)) a0 in
  let pa2 := f64_div (f64_add (f64_sub f64_one (f64_div K Q)) (f64_mul K K)) a0 in
  let f0 := lit_f0_hp in
  let Q := lit_Q_hp in
  let K := c_tan L (f64_div (f64_mul PI64 f0) (f64_of_N rate)) in
  let ra1 := f64_div (f64_mul f64_two (f64_sub (f64_mul K K) f64_one))
                     (f64_add (f64_add f64_one (f64_div K Q)) (f64_mul K K)) in
  let ra2 := f64_div (f64_add (f64_sub f64_one (f64_div K Q)) (f64_mul K K))
                     (f64_add (f64_add f64_one (f64_div K Q)) (f64_mul K K)) in
  ({| v0 := f64_mul pb0 rb0;
      v1 := f64_add (f64_mul pb0 rb1) (f64_mul pb1 rb0);
      v2 := f64_add (f64_add (f64_mul pb0 rb2) (f64_mul pb1 rb1)) (f64_mul pb2 rb0);
      v3 := f64_add (f64_mul pb1 rb2) (f64_mul pb2 rb1);
      v4 := f64_mul pb2 rb2 |},
   {| v0 := f64_mul pa0 ra0;
      v1 := f64_add (f64_mul pa0 ra1) (f64_mul pa1 ra0);
      v2 := f64_add (f64_add (f64_mul pa0 ra2) (f64_mul pa1 ra1)) (f64_mul pa2 ra0);
      v3 := f64_add (f64_mul pa1 ra2) (f64_mul pa2 ra1);
      v4 := f64_mul pa2 ra2 |}).

(** 44-115: filter_create_c *)
Definition filter_create_c (L : libc) (rate : N) (channels : nat) (calculate_sample_peak : bool) : cfilter :=
  {| cf_channels := channels;
     cf_b := fst (coefficients_c L rate); cf_a := snd (coefficients_c L rate);
     cf_v := repeat {| v0 := f64_zero; v1 := f64_zero; v2 := f64_zero; v3 := f64_zero; v4 := f64_zero |} channels;
     cf_calc := calculate_sample_peak;
     cf_sample_peak := repeat f64_zero channels |}.

(** The sample types of 212-215: conversion to double, and scaling_factor (157-158) *)
Record ctype (T : Type) := { t_double : T -> f64; t_scale : f64 }.
Arguments t_double {T} _ _.
Arguments t_scale {T} _.
Definition c_short : ctype Z := {| t_double := f64_of_Z; t_scale := c_max (f64_neg (f64_of_Z (-32768))) (f64_of_Z 32767) |}.
Definition c_int : ctype Z := {| t_double := f64_of_Z; t_scale := c_max (f64_neg (f64_of_Z (-2147483648))) (f64_of_Z 2147483647) |}.
Definition c_float : ctype f32 := {| t_double := f64_of_f32; t_scale := c_max (f64_neg (f64_of_Z (-1))) (f64_of_Z 1) |}.
Definition c_double : ctype f64 := {| t_double := fun x => x; t_scale := c_max (f64_neg (f64_of_Z (-1))) (f64_of_Z 1) |}.

(** 164-178: sample peaks *)
Definition peaks_c {T} (P : platform) (t : ctype T) (channels frames : nat) (src : list T) (sample_peak : list f64) : outcome (list f64) :=
  ofold (fun pks c =>
           max <- ofold (fun max i =>
                     x <- cidx src (i * channels + c) ;;
                     let cur := t_double t x in
                     Ret (if f64_gt (c_max cur (f64_neg cur)) max then c_max cur (f64_neg cur) else max))
                   f64_zero (seq 0 frames) ;;
           let max := ftz64 P (f64_div max (t_scale t)) in
           pk <- cidx pks c ;;
           if f64_gt max pk then cset pks c max else Ret pks)
        sample_peak (seq 0 channels).

(** 187-205: one frame of one channel *)
Definition frame_c {T} (P : platform) (t : ctype T) (f : cfilter) (src : list T) (offset c : nat)
    (s : arr5 f64 * list f64) (i : nat) : outcome (arr5 f64 * list f64) :=
  let sub x y := ftz64 P (f64_sub x y) in
  let add x y := ftz64 P (f64_add x y) in
  let mul x y := ftz64 P (f64_mul x y) in
  let '(v, audio_data) := s in
  x <- cidx src (i * cf_channels f + c) ;;
  let w := sub (sub (sub (sub (ftz64 P (f64_div (t_double t x) (t_scale t)))
                              (mul (v1 (cf_a f)) (v1 v))) (mul (v2 (cf_a f)) (v2 v)))
                    (mul (v3 (cf_a f)) (v3 v))) (mul (v4 (cf_a f)) (v4 v)) in
  let y := add (add (add (add (mul (v0 (cf_b f)) w) (mul (v1 (cf_b f)) (v1 v))) (mul (v2 (cf_b f)) (v2 v)))
                    (mul (v3 (cf_b f)) (v3 v))) (mul (v4 (cf_b f)) (v4 v)) in
  audio_data <- cset audio_data (offset + i * cf_channels f + c) y ;;
  Ret ({| v0 := w; v1 := w; v2 := v1 v; v3 := v2 v; v4 := v3 v |}, audio_data).

(** 136-152: FLUSH_MANUALLY, without SSE2; DBL_MIN is 2^-1022 *)
Definition manually (x : f64) : f64 := if f64_lt (f64_abs x) (f64_bin 1 (-1022)) then f64_zero else x.
Definition flush_manually (P : platform) (v : arr5 f64) : arr5 f64 :=
  if p_ftz P then v
  else {| v0 := v0 v; v1 := manually (v1 v); v2 := manually (v2 v); v3 := manually (v3 v); v4 := manually (v4 v) |}.

(** 154-210: filter_process_<type>_c with audio_data pointing to element [offset] of an array *)
Definition filter_process_c {T} (P : platform) (t : ctype T) (f : cfilter) (frames : nat) (src : list T)
    (audio_data : list f64) (offset : nat) (channel_map : list N) : outcome (cfilter * list f64) :=
  pks <- (if cf_calc f then peaks_c P t (cf_channels f) frames src (cf_sample_peak f) else Ret (cf_sample_peak f)) ;;
  '(v, audio_data) <- ofold (fun '(vs, audio_data) c =>
      code <- cidx channel_map c ;;
      if (code =? 0)%N then Ret (vs, audio_data)
      else
        v <- cidx vs c ;;
        '(v, audio_data) <- ofold (frame_c P t f src offset c) (v, audio_data) (seq 0 frames) ;;
        vs <- cset vs c (flush_manually P v) ;;
        Ret (vs, audio_data))
    (cf_v f, audio_data) (seq 0 (cf_channels f)) ;;
  Ret ({| cf_channels := cf_channels f; cf_b := cf_b f; cf_a := cf_a f; cf_v := v; cf_calc := cf_calc f;
          cf_sample_peak := pks |}, audio_data).

(** 127-134: filter_reset_peaks_c *)
Definition filter_reset_peaks_c (f : cfilter) : cfilter :=
  {| cf_channels := cf_channels f; cf_b := cf_b f; cf_a := cf_a f; cf_v := cf_v f; cf_calc := cf_calc f;
     cf_sample_peak := map (fun _ => f64_zero) (cf_sample_peak f) |}.
