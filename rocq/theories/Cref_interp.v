(** Model of the C reference code in tests/c, continued: interp.c and true_peak.c.  Arithmetic is that of the caller: with
    flush-to-zero inside filter_process_c (TURN_ON_FTZ, filter.c 160), on a platform with [p_ftz]. *)
From Coq Require Import ZArith NArith List Bool Arith.
From Verif Require Import Prelude Float Env Utils Interp Cref Cref_filter.
Import ListNotations.

(** * tests/c/interp.c *)

(** 16-30: interp_filter (a subfilter is the list of its [count] pairs of delay index and coefficient) and interpolator_c *)
Record cinterp := {
  ci_factor : nat;
  ci_channels : nat;
  ci_delay : nat;
  ci_filter : list (list (nat * f64));
  ci_z : list (list f32);
  ci_zi : nat;
}.

(** 71-79: the coefficient c for tap j *)
Definition tap_c (L : libc) (taps factor j : nat) : f64 :=
  let m := f64_sub (f64_of_nat j) (f64_div (f64_of_nat (taps - 1)) f64_two) in
  let c := if f64_gt (f64_abs m) ALMOST_ZERO
           then f64_div (c_sin L (f64_div (f64_mul m PI64) (f64_of_nat factor))) (f64_div (f64_mul m PI64) (f64_of_nat factor))
           else f64_one in
  f64_mul c (f64_mul (f64_bin 1 (-1))
    (f64_sub f64_one (c_cos L (f64_div (f64_mul (f64_mul f64_two PI64) (f64_of_nat j)) (f64_of_nat (taps - 1)))))).
(** 81-87: put it into subfilter j % factor, unless it is almost zero *)
Definition add_tap_c (L : libc) (taps factor : nat) (filters : list (list (nat * f64))) (j : nat) : list (list (nat * f64)) :=
  let c := tap_c L taps factor j in
  if f64_gt (f64_abs c) ALMOST_ZERO
  then upd filters (j mod factor) (nth (j mod factor) filters [] ++ [(j / factor, c)])
  else filters.
(** 32-89: interp_create_c *)
Definition interp_create_c (L : libc) (taps factor channels : nat) : cinterp :=
  let delay := (taps + factor - 1) / factor in
  {| ci_factor := factor; ci_channels := channels; ci_delay := delay;
     ci_filter := fold_left (add_tap_c L taps factor) (seq 0 taps) (repeat [] factor);
     ci_z := repeat (repeat f32_zero delay) channels;
     ci_zi := 0 |}.

(** 143-153: one output sample *)
Definition convolve_c (P : platform) (delay zi : nat) (filter : list (nat * f64)) (z : list f32) : outcome f32 :=
  acc <- ofold (fun acc '(index, c) =>
           let i := (Z.of_nat zi - Z.of_nat index)%Z in
           let i := if (i <? 0)%Z then (i + Z.of_nat delay)%Z else i in
           x <- (if (i <? 0)%Z then UB else cidx z (Z.to_nat i)) ;;
           Ret (ftz64 P (f64_add acc (ftz64 P (f64_mul (f64_of_f32 x) c)))))
         f64_zero filter ;;
  Ret (ftz32 P (f32_of_f64 acc)).
(** 136-162: one frame.  Simplification: the output is a list of [factor] frames, in the order of the array [out]; the loop over
    the channels is done once for the delay buffers and once for the output (the channels do not interact). *)
Definition interp_frame_c (P : platform) (ci : cinterp) (frame : list f32) : outcome (cinterp * list (list f32)) :=
  z <- omap (fun '(z, x) => cset z (ci_zi ci) x) (combine (ci_z ci) frame) ;;
  out <- omap (fun filter => omap (convolve_c P (ci_delay ci) (ci_zi ci) filter) z) (ci_filter ci) ;;
  let zi := if ci_zi ci + 1 =? ci_delay ci then 0 else ci_zi ci + 1 in
  Ret ({| ci_factor := ci_factor ci; ci_channels := ci_channels ci; ci_delay := ci_delay ci; ci_filter := ci_filter ci;
          ci_z := z; ci_zi := zi |}, out).
(** 125-164: interp_process_c *)
Definition interp_process_c (P : platform) (ci : cinterp) (frames : list (list f32)) : outcome (cinterp * list (list f32)) :=
  ofold (fun '(ci, out) frame => '(ci, o) <- interp_frame_c P ci frame ;; Ret (ci, out ++ o)) (ci, []) frames.

(** * tests/c/true_peak.c *)

(** 15-23: true_peak; of the resampler buffers only the size in frames is kept *)
Record ctrue_peak := { ct_interp : cinterp; ct_channels : nat; ct_room : nat }.
(** 25-52: true_peak_create_c *)
Definition true_peak_create_c (L : libc) (rate : N) (channels : nat) : option ctrue_peak :=
  let room := N.to_nat ((rate + 5) / 10) * 4 in
  if (rate <? 96000)%N then Some {| ct_interp := interp_create_c L 49 4 channels; ct_channels := channels; ct_room := room |}
  else if (rate <? 192000)%N then Some {| ct_interp := interp_create_c L 49 2 channels; ct_channels := channels; ct_room := room |}
  else None.
(** 70-71: a sample as it is put into the buffer *)
Definition resampled_c {T} (P : platform) (t : ctype T) (x : T) : f32 :=
  ftz32 P (f32_of_f64 (ftz64 P (f64_div (t_double t x) (t_scale t)))).
(** 79-88: one frame of the output; [peaks] has one element per channel *)
Definition retain_c (peaks : list f64) (row : list f32) : list f64 :=
  map2 (fun pk v => let val := f64_of_f32 v in
                    if f64_gt (c_max val (f64_neg val)) pk then c_max val (f64_neg val) else pk) peaks row.
(** 62-89: true_peak_check_<type>_c.  More frames than the buffers hold overflow them. *)
Definition true_peak_check_c {T} (P : platform) (t : ctype T) (tp : ctrue_peak) (frames : nat) (src : list T) (peaks : list f64)
  : outcome (ctrue_peak * list f64) :=
  if ct_room tp <? frames then UB
  else
    input <- omap (fun i => omap (fun c => x <- cidx src (i * ct_channels tp + c) ;; Ret (resampled_c P t x)) (seq 0 (ct_channels tp)))
                  (seq 0 frames) ;;
    '(ci, out) <- interp_process_c P (ct_interp tp) input ;;
    Ret ({| ct_interp := ci; ct_channels := ct_channels tp; ct_room := ct_room tp |}, fold_left retain_c out peaks).
