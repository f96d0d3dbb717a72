(** Model of src/filter.rs (lines 22-428) *)
From Coq Require Import ZArith NArith List Bool Arith.
From Verif Require Import Prelude Float Env Utils Interp TruePeak.
Import ListNotations.

(** src/ebur128.rs 82-149: enum Channel (discriminants 0..31 in this order) *)
Inductive channel :=
| Unused | Left | Right | Center | LeftSurround | RightSurround | DualMono
| MpSC | MmSC | Mp060 | Mm060 | Mp090 | Mm090 | Mp135 | Mm135 | Mp180
| Up000 | Up030 | Um030 | Up045 | Um045 | Up090 | Um090 | Up110 | Um110
| Up135 | Um135 | Up180 | Tp000 | Bp000 | Bp045 | Bm045.

(** derived PartialEq on Channel *)
Definition channel_eqb (a b : channel) : bool :=
  match a, b with
  | Unused, Unused | Left, Left | Right, Right | Center, Center
  | LeftSurround, LeftSurround | RightSurround, RightSurround | DualMono, DualMono
  | MpSC, MpSC | MmSC, MmSC | Mp060, Mp060 | Mm060, Mm060 | Mp090, Mp090 | Mm090, Mm090
  | Mp135, Mp135 | Mm135, Mm135 | Mp180, Mp180 | Up000, Up000 | Up030, Up030 | Um030, Um030
  | Up045, Up045 | Um045, Um045 | Up090, Up090 | Um090, Um090 | Up110, Up110 | Um110, Um110
  | Up135, Up135 | Um135, Um135 | Up180, Up180 | Tp000, Tp000 | Bp000, Bp000
  | Bp045, Bp045 | Bm045, Bm045 => true
  | _, _ => false
  end.

(** Arithmetic the filter is generic in, so that the same code can be read over
    binary64 and over the real numbers. *)
Record arith (T : Type) := {
  ar_add : T -> T -> T;
  ar_sub : T -> T -> T;
  ar_mul : T -> T -> T;
  ar_div : T -> T -> T;
}.
Arguments ar_add {T} _ _ _.
Arguments ar_sub {T} _ _ _.
Arguments ar_mul {T} _ _ _.
Arguments ar_div {T} _ _ _.

(** [f64; 5] *)
Record arr5 (T : Type) := { v0 : T; v1 : T; v2 : T; v3 : T; v4 : T }.
Arguments v0 {T} _. Arguments v1 {T} _. Arguments v2 {T} _.
Arguments v3 {T} _. Arguments v4 {T} _.

(** plain binary64 *)
Definition ar64 : arith f64 := {|
  ar_add := f64_add; ar_sub := f64_sub; ar_mul := f64_mul; ar_div := f64_div |}.
(** binary64 inside with_ftz *)
Definition ar64_ftz (P : platform) : arith f64 := {|
  ar_add := fun x y => ftz64 P (f64_add x y);
  ar_sub := fun x y => ftz64 P (f64_sub x y);
  ar_mul := fun x y => ftz64 P (f64_mul x y);
  ar_div := fun x y => ftz64 P (f64_div x y) |}.

(** The numbers filter_coefficients starts from: 1, 2, -2, the two K, Vh, Vb,
    and the two Q (src/filter.rs 65-76, 85-87). *)
Record coeff_inputs (T : Type) := {
  c_zero : T; c_one : T; c_two : T; c_mtwo : T;
  c_K1 : T; c_Q1 : T; c_Vh : T; c_Vb : T; c_K2 : T; c_Q2 : T;
}.
Arguments c_zero {T} _. Arguments c_one {T} _. Arguments c_two {T} _. Arguments c_mtwo {T} _.
Arguments c_K1 {T} _. Arguments c_Q1 {T} _. Arguments c_Vh {T} _. Arguments c_Vb {T} _.
Arguments c_K2 {T} _. Arguments c_Q2 {T} _.

(** the three-tap sections of src/filter.rs 73-90 *)
Record sections (T : Type) := {
  pb0 : T; pb1 : T; pb2 : T; pa0 : T; pa1 : T; pa2 : T;
  rb0 : T; rb1 : T; rb2 : T; ra0 : T; ra1 : T; ra2 : T;
}.
Arguments pb0 {T} _. Arguments pb1 {T} _. Arguments pb2 {T} _.
Arguments pa0 {T} _. Arguments pa1 {T} _. Arguments pa2 {T} _.
Arguments rb0 {T} _. Arguments rb1 {T} _. Arguments rb2 {T} _.
Arguments ra0 {T} _. Arguments ra1 {T} _. Arguments ra2 {T} _.

(** src/filter.rs 73-90 *)
Definition filter_sections {T} (A : arith T) (c : coeff_inputs T) : sections T :=
  let add := ar_add A in let sub := ar_sub A in
  let mul := ar_mul A in let div := ar_div A in
  let one := c_one c in let two := c_two c in
  let K := c_K1 c in let Q := c_Q1 c in let Vh := c_Vh c in let Vb := c_Vb c in
  let a0 := add (add one (div K Q)) (mul K K) in
  let K' := c_K2 c in let Q' := c_Q2 c in
  {| pb0 := div (add (add Vh (div (mul Vb K) Q)) (mul K K)) a0;
     pb1 := div (mul two (sub (mul K K) Vh)) a0;
     pb2 := div (add (sub Vh (div (mul Vb K) Q)) (mul K K)) a0;
     pa0 := one;
     pa1 := div (mul two (sub (mul K K) one)) a0;
     pa2 := div (add (sub one (div K Q)) (mul K K)) a0;
     rb0 := one; rb1 := c_mtwo c; rb2 := one;
     ra0 := one;
     ra1 := div (mul two (sub (mul K' K') one)) (add (add one (div K' Q')) (mul K' K'));
     ra2 := div (add (sub one (div K' Q')) (mul K' K'))
                (add (add one (div K' Q')) (mul K' K')) |}.

(** src/filter.rs 92-109: the product of the two sections: (numerator, denominator) *)
Definition filter_product {T} (A : arith T) (s : sections T) : arr5 T * arr5 T :=
  let add := ar_add A in let mul := ar_mul A in
  ({| v0 := mul (pb0 s) (rb0 s);
      v1 := add (mul (pb0 s) (rb1 s)) (mul (pb1 s) (rb0 s));
      v2 := add (add (mul (pb0 s) (rb2 s)) (mul (pb1 s) (rb1 s))) (mul (pb2 s) (rb0 s));
      v3 := add (mul (pb1 s) (rb2 s)) (mul (pb2 s) (rb1 s));
      v4 := mul (pb2 s) (rb2 s) |},
   {| v0 := mul (pa0 s) (ra0 s);
      v1 := add (mul (pa0 s) (ra1 s)) (mul (pa1 s) (ra0 s));
      v2 := add (add (mul (pa0 s) (ra2 s)) (mul (pa1 s) (ra1 s))) (mul (pa2 s) (ra0 s));
      v3 := add (mul (pa1 s) (ra2 s)) (mul (pa2 s) (ra1 s));
      v4 := mul (pa2 s) (ra2 s) |}).

(** literals of src/filter.rs 65-71, 85-86 *)
Definition lit_f0_shelf : f64 := f64_bin 7397401865791048 (-42).   (* 1681.974450955533 *)
Definition lit_G : f64 := f64_bin 9006847645147267 (-51).          (* 3.999843853973347 *)
Definition lit_Q_shelf : f64 := f64_bin 6369668267276140 (-53).    (* 0.7071752369554196 *)
Definition lit_Vb_exp : f64 := f64_bin 9001196391567245 (-54).     (* 0.4996667741545416 *)
Definition lit_f0_hp : f64 := f64_bin 5367090388339440 (-47).      (* 38.13547087602444 *)
Definition lit_Q_hp : f64 := f64_bin 4506545317710396 (-53).       (* 0.5003270373238773 *)

(** src/filter.rs 65-71, 85-87 *)
Definition coeff_inputs64 (E : ext) (rate : f64) : coeff_inputs f64 :=
  let Vh := e_powf E f64_ten (f64_div lit_G (f64_of_Z 20)) in
  {| c_zero := f64_zero; c_one := f64_one; c_two := f64_two; c_mtwo := f64_of_Z (-2);
     c_K1 := e_tan E (f64_div (f64_mul PI64 lit_f0_shelf) rate);
     c_Q1 := lit_Q_shelf;
     c_Vh := Vh;
     c_Vb := e_powf E Vh lit_Vb_exp;
     c_K2 := e_tan E (f64_div (f64_mul PI64 lit_f0_hp) rate);
     c_Q2 := lit_Q_hp |}.

(** src/filter.rs 64-110: filter_coefficients: (b, a) *)
Definition filter_coefficients (E : ext) (rate : f64) : arr5 f64 * arr5 f64 :=
  filter_product ar64 (filter_sections ar64 (coeff_inputs64 E rate)).

(** src/filter.rs 28-46: struct Filter *)
Record filter := {
  f_channels : nat;
  f_b : arr5 f64;
  f_a : arr5 f64;
  f_state : list (arr5 f64);
  f_calc_sample_peak : bool;
  f_sample_peak : list f64;
  f_tp : option scanner;
  f_true_peak : list f64;
}.

(** `[0.0; 5]` *)
Definition zero5 : arr5 f64 :=
  {| v0 := f64_zero; v1 := f64_zero; v2 := f64_zero; v3 := f64_zero; v4 := f64_zero |}.

(** src/filter.rs 113-140: Filter::new *)
Definition filter_new (E : ext) (rate : N) (channels : nat)
    (calculate_sample_peak calculate_true_peak : bool) : outcome filter :=
  assert! (0 <? rate)%N ;;
  assert! (0 <? channels) ;;
  let '(b, a) := filter_coefficients E (f64_of_N rate) in
  tp <- (if calculate_true_peak then scanner_new E rate channels else Ret None) ;;
  Ret {| f_channels := channels; f_b := b; f_a := a;
         f_state := repeat zero5 channels;
         f_calc_sample_peak := calculate_sample_peak;
         f_sample_peak := repeat f64_zero channels;
         f_tp := tp;
         f_true_peak := repeat f64_zero channels |}.

(** src/filter.rs 142-145: reset_peaks *)
Definition filter_reset_peaks (f : filter) : filter :=
  {| f_channels := f_channels f; f_b := f_b f; f_a := f_a f; f_state := f_state f;
     f_calc_sample_peak := f_calc_sample_peak f;
     f_sample_peak := map (fun _ => f64_zero) (f_sample_peak f);
     f_tp := f_tp f;
     f_true_peak := map (fun _ => f64_zero) (f_true_peak f) |}.

(** src/filter.rs 147-155: reset *)
Definition filter_reset (f : filter) : outcome filter :=
  let f := filter_reset_peaks f in
  tp <- (match f_tp f with
         | Some sc => sc' <- scanner_reset sc ;; Ret (Some sc')
         | None => Ret None
         end) ;;
  Ret {| f_channels := f_channels f; f_b := f_b f; f_a := f_a f;
         f_state := map (fun _ => zero5) (f_state f);
         f_calc_sample_peak := f_calc_sample_peak f;
         f_sample_peak := f_sample_peak f;
         f_tp := tp;
         f_true_peak := f_true_peak f |}.

(** src/filter.rs 186-191: largest |raw sample| *)
Definition raw_max {T} (S : sample T) (xs : list T) : f64 :=
  fold_left (fun max x => let v := f64_abs (s_raw S x) in if f64_gt v max then v else max)
            xs f64_zero.

(** src/filter.rs 181-197: the sample-peak loop (first channel number [c]) *)
Fixpoint sample_peak_loop {T} (P : platform) (S : sample T) (src : samples T) (c : nat)
    (peaks : list f64) : outcome (list f64) :=
  match peaks with
  | [] => Ret []
  | pk :: rest =>
      assert! (c <? s_channels src) ;;
      xs <- s_foreach_sample src c ;;
      let max := ftz64 P (f64_div (raw_max S xs) (s_max S)) in
      rest' <- sample_peak_loop P S src (c + 1) rest ;;
      Ret ((if f64_gt max pk then max else pk) :: rest')
  end.

(** src/filter.rs 221-235 (and 279-288 without the output): one sample through
    the direct form II filter: new state and output *)
Definition filter_step {T} (A : arith T) (b a : arr5 T) (st : arr5 T) (x : T) : arr5 T * T :=
  let add := ar_add A in let sub := ar_sub A in let mul := ar_mul A in
  let s0 := sub (sub (sub (sub x (mul (v1 a) (v1 st))) (mul (v2 a) (v2 st)))
                     (mul (v3 a) (v3 st))) (mul (v4 a) (v4 st)) in
  let y := add (add (add (add (mul (v0 b) s0) (mul (v1 b) (v1 st))) (mul (v2 b) (v2 st)))
                    (mul (v3 b) (v3 st))) (mul (v4 b) (v4 st)) in
  ({| v0 := s0; v1 := s0; v2 := v1 st; v3 := v2 st; v4 := v3 st |}, y).

(** src/filter.rs 220-236: the per-channel loop: final state and outputs *)
Fixpoint filter_run {T} (A : arith T) (b a : arr5 T) (st : arr5 T) (xs : list T)
  : arr5 T * list T :=
  match xs with
  | [] => (st, [])
  | x :: xs =>
      let '(st', y) := filter_step A b a st x in
      let '(st'', ys) := filter_run A b a st' xs in
      (st'', y :: ys)
  end.

(** src/filter.rs 238-244: without FTZ tiny state values are cleared after the loop *)
Definition eps_flush (v : f64) : f64 :=
  if f64_lt (f64_abs v) f64_epsilon then f64_zero else v.
Definition flush_state (P : platform) (st : arr5 f64) : arr5 f64 :=
  if p_ftz P then st
  else {| v0 := eps_flush (v0 st); v1 := eps_flush (v1 st); v2 := eps_flush (v2 st);
          v3 := eps_flush (v3 st); v4 := eps_flush (v4 st) |}.

(** writing [ys] over the front of [l] (zip of `iter_mut()` with the samples) *)
Fixpoint overwrite {A} (l ys : list A) : list A :=
  match l, ys with
  | _ :: l, y :: ys => y :: overwrite l ys
  | l, _ => l
  end.

(** src/filter.rs 203-245: the loop over channels (first channel number [c]).
    [planes] are the chunks of the destination; iteration stops at the shorter
    of channel map and planes. *)
Fixpoint process_loop {T} (P : platform) (S : sample T) (b a : arr5 f64) (src : samples T)
    (dest_index : nat) (c : nat) (cmap : list channel) (planes : list (list f64))
    (states : list (arr5 f64)) : outcome (list (list f64) * list (arr5 f64)) :=
  match cmap, planes with
  | ch :: cmap, plane :: planes =>
      if channel_eqb ch Unused then
        '(planes', states') <- process_loop P S b a src dest_index (c + 1) cmap planes states ;;
        Ret (plane :: planes', states')
      else
        assert! (c <? s_channels src) ;;
        st <- idx states c ;;
        d <- slice_from plane dest_index ;;
        xs <- s_foreach_sample_zipped src c d ;;
        let '(st', ys) := filter_run (ar64_ftz P) b a st (map (fun x => s_f64 S (fst x)) xs) in
        let plane' := firstn dest_index plane ++ overwrite d ys in
        let states' := upd states c (flush_state P st') in
        '(planes', states'') <- process_loop P S b a src dest_index (c + 1) cmap planes states' ;;
        Ret (plane' :: planes', states'')
  | _, _ => Ret (planes, states)
  end.

(** src/filter.rs 165-252: Filter::process: new filter and destination *)
Definition filter_process {T} (P : platform) (S : sample T) (f : filter) (src : samples T)
    (dest : list f64) (dest_index : nat) (cmap : list channel) : outcome (filter * list f64) :=
  let n := f_channels f in
  assert! (length dest mod n =? 0) ;;
  assert! (length cmap =? n) ;;
  assert! (s_channels src =? n) ;;
  assert! (length (f_state f) =? n) ;;
  sp <- (if f_calc_sample_peak f then
           assert! (length (f_sample_peak f) =? n) ;;
           sample_peak_loop P S src 0 (f_sample_peak f)
         else Ret (f_sample_peak f)) ;;
  let dest_stride := length dest / n in
  assert! (dest_index + s_frames src <=? dest_stride) ;;
  planes <- chunks_exact dest_stride dest ;;
  '(planes', states') <- process_loop P S (f_b f) (f_a f) src dest_index 0 cmap planes (f_state f) ;;
  '(tp', true_peak') <-
    (match f_tp f with
     | Some sc =>
         assert! (length (f_true_peak f) =? n) ;;
         '(sc', pk) <- check_true_peak P S sc src (f_true_peak f) ;;
         Ret (Some sc', pk)
     | None => Ret (None, f_true_peak f)
     end) ;;
  Ret ({| f_channels := n; f_b := f_b f; f_a := f_a f; f_state := states';
          f_calc_sample_peak := f_calc_sample_peak f; f_sample_peak := sp;
          f_tp := tp'; f_true_peak := true_peak' |},
       concat planes').

(** src/filter.rs 264-298: the seeding loop over channels.  The output line is
    absent; since it does not feed back into the state, the states of
    [filter_run] are those of the Rust loop for any numerator. *)
Fixpoint seed_loop {T} (P : platform) (S : sample T) (b a : arr5 f64) (src : samples T)
    (c : nat) (cmap : list channel) (states : list (arr5 f64)) : outcome (list (arr5 f64)) :=
  match cmap with
  | [] => Ret states
  | ch :: cmap =>
      if channel_eqb ch Unused then seed_loop P S b a src (c + 1) cmap states
      else
        assert! (c <? s_channels src) ;;
        st <- idx states c ;;
        xs <- s_foreach_sample src c ;;
        let '(st', _) := filter_run (ar64_ftz P) b a st (map (s_f64 S) xs) in
        seed_loop P S b a src (c + 1) cmap (upd states c (flush_state P st'))
  end.

(** src/filter.rs 254-305: Filter::seed *)
Definition filter_seed {T} (P : platform) (S : sample T) (f : filter) (src : samples T)
    (cmap : list channel) : outcome filter :=
  let n := f_channels f in
  assert! (length cmap =? n) ;;
  assert! (s_channels src =? n) ;;
  assert! (length (f_state f) =? n) ;;
  states' <- seed_loop P S (f_b f) (f_a f) src 0 cmap (f_state f) ;;
  tp' <- (match f_tp f with
          | Some sc =>
              assert! (length (f_true_peak f) =? n) ;;
              sc' <- scanner_seed P S sc src ;; Ret (Some sc')
          | None => Ret None
          end) ;;
  Ret {| f_channels := n; f_b := f_b f; f_a := f_a f; f_state := states';
         f_calc_sample_peak := f_calc_sample_peak f; f_sample_peak := f_sample_peak f;
         f_tp := tp'; f_true_peak := f_true_peak f |}.

(** 1.41 of src/filter.rs 359 *)
Definition lit_1_41 : f64 := f64_bin 6350075474592399 (-52).

(** src/filter.rs 338-340, 342-345, 347-349: `channel_sum += frame * frame` *)
Definition add_squares (acc : f64) (l : list f64) : f64 :=
  fold_left (fun s x => f64_add s (f64_mul x x)) l acc.

(** src/filter.rs 352-365: channel weighting *)
Definition apply_weight (ch : channel) (channel_sum : f64) : f64 :=
  match ch with
  | LeftSurround | RightSurround | Mp060 | Mm060 | Mp090 | Mm090 => f64_mul channel_sum lit_1_41
  | DualMono => f64_mul channel_sum f64_two
  | _ => channel_sum
  end.

(** src/filter.rs 333-350: sum of squares of one plane *)
Definition plane_sum (frames_per_block index : nat) (plane : list f64) : outcome f64 :=
  if index <? frames_per_block then
    p1 <- slice plane 0 index ;;
    off <- sub_usize (length plane) frames_per_block ;;
    p2 <- slice_from plane (off + index) ;;
    Ret (add_squares (add_squares f64_zero p1) p2)
  else
    off <- sub_usize index frames_per_block ;;
    p <- slice plane off index ;;
    Ret (add_squares f64_zero p).

(** src/filter.rs 320-368: the loop over channels *)
Fixpoint gating_loop (frames_per_block index : nat) (cmap : list channel)
    (planes : list (list f64)) (sum : f64) : outcome f64 :=
  match cmap, planes with
  | ch :: cmap, plane :: planes =>
      if channel_eqb ch Unused then gating_loop frames_per_block index cmap planes sum
      else
        assert! (index <=? length plane) ;;
        s <- plane_sum frames_per_block index plane ;;
        gating_loop frames_per_block index cmap planes (f64_add sum (apply_weight ch s))
  | _, _ => Ret sum
  end.

(** src/filter.rs 307-373: calc_gating_block.  `% channels` and `/ channels`
    panic for an empty channel map. *)
Definition calc_gating_block (frames_per_block : nat) (audio_data : list f64) (index : nat)
    (cmap : list channel) : outcome f64 :=
  let channels := length cmap in
  assert! (negb (channels =? 0)) ;;
  assert! (length audio_data mod channels =? 0) ;;
  let stride := length audio_data / channels in
  assert! (index <=? stride) ;;
  planes <- chunks_exact stride audio_data ;;
  sum <- gating_loop frames_per_block index cmap planes f64_zero ;;
  Ret (f64_div sum (f64_of_nat frames_per_block)).

(** src/filter.rs 388-428: Ftz / with_ftz, as an effect on the MXCSR register.
    [body] is the closure: it runs with the modified register and may leave the
    register in any state; the guard's Drop restores the saved value, also when
    the closure panics. *)
Definition MM_FLUSH_ZERO_ON : N := 32768%N.
Definition with_ftz_csr {A} (P : platform) (body : bool -> N -> outcome A * N) (csr : N)
  : outcome A * N :=
  if p_ftz P then
    let saved := csr in
    let '(r, _) := body true (N.lor csr MM_FLUSH_ZERO_ON) in
    (r, saved)
  else body false csr.

(** src/filter.rs 388-428, as the closure sees it: results are flushed if the guard exists and bit 15 of
    MXCSR is set. *)
Definition under_csr (P : platform) (guard : bool) (csr : N) : platform :=
  {| p_ftz := guard && N.testbit csr 15; p_fma := p_fma P; p_usize_max := p_usize_max P;
     p_sum_neg0 := p_sum_neg0 P |}.
(** src/filter.rs 165-250 and 252-305 with the register.  Simplification: the assertions before
    with_ftz (171-174, 257-259) are evaluated inside it. *)
Definition filter_process_csr {T} (P : platform) (S : sample T) (f : filter) (src : samples T)
    (dest : list f64) (dest_index : nat) (cmap : list channel) (csr : N) : outcome (filter * list f64) * N :=
  with_ftz_csr P (fun guard csr => (filter_process (under_csr P guard csr) S f src dest dest_index cmap, csr)) csr.
Definition filter_seed_csr {T} (P : platform) (S : sample T) (f : filter) (src : samples T)
    (cmap : list channel) (csr : N) : outcome filter * N :=
  with_ftz_csr P (fun guard csr => (filter_seed (under_csr P guard csr) S f src cmap, csr)) csr.
