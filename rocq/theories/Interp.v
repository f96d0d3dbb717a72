(** Model of src/interp.rs (lines 22-138) *)
From Coq Require Import ZArith NArith List Bool Arith.
From Verif Require Import Prelude Float Env Utils.
Import ListNotations.

(** src/interp.rs 26 *)
Definition TAPS : nat := 48.
(** src/interp.rs 25: 0.000001 *)
Definition ALMOST_ZERO : f64 := f64_bin 4722366482869645 (-72).
(** std::f64::consts::PI *)
Definition PI64 : f64 := f64_bin 7074237752028440 (-51).

(** src/interp.rs 32-36: RollingBuffer<T, N>; the const generic N is an argument
    of the operations. *)
Record rolling (T : Type) := { rb_buf : list T; rb_position : nat }.
Arguments rb_buf {T} _.
Arguments rb_position {T} _.

(** src/interp.rs 39-45: RollingBuffer::new *)
Definition rolling_new {T} (N : nat) (dflt : T) : outcome (rolling T) :=
  assert! (N * 2 <=? TAPS) ;;
  Ret {| rb_buf := repeat dflt TAPS; rb_position := N |}.

(** src/interp.rs 48-60: push_front.  The two unchecked writes yield [UB] when
    out of range. *)
Definition push_front {T} (N : nat) (r : rolling T) (v : T) : outcome (rolling T) :=
  p <- (if rb_position r =? 0 then sub_usize N 1 else sub_usize (rb_position r) 1) ;;
  b <- set_unchecked (rb_buf r) p v ;;
  b <- set_unchecked b (p + N) v ;;
  Ret {| rb_buf := b; rb_position := p |}.

(** src/interp.rs 63-70: as_ref: the N elements from `position` on; [UB] unless
    they lie inside the buffer.  (get_unchecked also needs position < 48.) *)
Definition rolling_view {T} (N : nat) (r : rolling T) : outcome (list T) :=
  if (rb_position r <? length (rb_buf r)) && (rb_position r + N <=? length (rb_buf r))
  then Ret (firstn N (skipn (rb_position r) (rb_buf r))) else UB.

(** src/interp.rs 73-76: InterpF<ACTIVE_TAPS, FACTOR, F>, F = [f32; C].
    The const generics are kept as fields. *)
Record interpf := {
  in_taps : nat;
  in_factor : nat;
  in_channels : nat;
  in_filter : list (list f32);
  in_buffer : rolling (list f32);
}.

(** src/interp.rs 95-110: coefficient number j *)
Definition interp_coeff (E : ext) (factor : nat) (j : nat) : f32 :=
  let j := f64_of_nat j in
  let window := f64_of_nat (TAPS + 1 - 1) in
  let w := f64_mul (f64_bin 1 (-1)) (f64_sub f64_one
             (e_cos E (f64_div (f64_mul (f64_mul f64_two PI64) j) window))) in
  let m := f64_sub j (f64_div window f64_two) in
  f32_of_f64
    (if f64_gt (f64_abs m) ALMOST_ZERO then
       let mpf := f64_div (f64_mul m PI64) (f64_of_nat factor) in
       f64_div (f64_mul w (e_sin E mpf)) mpf
     else w).

(** `[0.0f32; C]` *)
Definition zero_frame (channels : nat) : list f32 := repeat f32_zero channels.

(** src/interp.rs 91-116: InterpF::new *)
Definition interpf_new (E : ext) (taps factor channels : nat) : outcome interpf :=
  assert! (taps * factor =? TAPS) ;;
  let filter :=
    map (fun k => map (fun f => interp_coeff E factor (k * factor + f)) (seq 0 factor))
        (seq 0 taps) in
  buffer <- rolling_new taps (zero_frame channels) ;;
  Ret {| in_taps := taps; in_factor := factor; in_channels := channels;
         in_filter := filter; in_buffer := buffer |}.

(** src/interp.rs 126-130: accumulate one tap into all phases *)
Definition accumulate (P : platform) (output : list (list f32)) (tap : list f32 * list f32)
  : list (list f32) :=
  let '(coeffs, input_frame) := tap in
  map2 (fun out coeff => frame_scale_add P out input_frame coeff) output coeffs.

(** src/interp.rs 118-133: interpolate *)
Definition interpolate (P : platform) (i : interpf) (frame : list f32)
  : outcome (interpf * list (list f32)) :=
  b <- push_front (in_taps i) (in_buffer i) frame ;;
  let i' := {| in_taps := in_taps i; in_factor := in_factor i; in_channels := in_channels i;
               in_filter := in_filter i; in_buffer := b |} in
  buf <- rolling_view (in_taps i) b ;;
  let output := repeat (zero_frame (in_channels i)) (in_factor i) in
  Ret (i', fold_left (accumulate P) (combine (in_filter i) buf) output).

(** src/interp.rs 135-137: reset *)
Definition interpf_reset (i : interpf) : outcome interpf :=
  b <- rolling_new (in_taps i) (zero_frame (in_channels i)) ;;
  Ret {| in_taps := in_taps i; in_factor := in_factor i; in_channels := in_channels i;
         in_filter := in_filter i; in_buffer := b |}.
