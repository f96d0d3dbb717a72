(** Specification vocabulary of the property theorems.  Nothing here refers to
    ring buffers, filter states or the block schedule of the code; the
    definitions are read together with the public API of Ebur128.v. *)
From Coq Require Import ZArith NArith List Bool Arith Lia.
From Flocq Require IEEE754.BinarySingleNaN.
From Verif Require Import Prelude Float Env Utils History Interp TruePeak Filter Ebur128.
Import ListNotations.

(** * Configurations *)

(** 64-bit and 32-bit targets *)
Definition is_64bit (P : platform) : Prop := p_usize_max P = 18446744073709551615%N.
Definition is_32bit (P : platform) : Prop := p_usize_max P = 4294967295%N.

(** the documented limits *)
Definition channels_valid (channels : N) : Prop := (1 <= channels <= 64)%N.
Definition rate_valid (rate : N) : Prop := (16 <= rate <= 2822400)%N.
(** mode bit 0 is M, bits 0 and 1 are S *)
Definition has_M (m : mode) : Prop := N.testbit m 0 = true.
Definition has_S (m : mode) : Prop := N.testbit m 0 = true /\ N.testbit m 1 = true.
Definition has_I (m : mode) : Prop := N.testbit m 0 = true /\ N.testbit m 2 = true.
Definition has_LRA (m : mode) : Prop := has_S m /\ N.testbit m 3 = true.
Definition has_SAMPLE_PEAK (m : mode) : Prop := N.testbit m 0 = true /\ N.testbit m 4 = true.
Definition has_TRUE_PEAK (m : mode) : Prop := has_SAMPLE_PEAK m /\ N.testbit m 5 = true.
Definition has_HISTOGRAM (m : mode) : Prop := N.testbit m 6 = true.

(** frames in 100 ms, rounded to the nearest *)
Definition hundred_ms (rate : N) : N := ((rate + 5) / 10)%N.

(** Rates for which the analyzer's buffer holds the blocks it needs (C03 and C04
    show what happens at the others: 16 and 17 Hz without S, and some rates
    below 146 Hz with LRA). *)
Definition supported (m : mode) (rate : N) : Prop :=
  (has_S m \/ (18 <= rate)%N) /\
  (has_LRA m -> (29 * hundred_ms rate < 3 * rate)%N).

(** frames of a buffer for [window] ms: the window rounded up to whole 100 ms steps *)
Definition buffer_size (rate window : N) : N :=
  let s := hundred_ms rate in ((rate * window / 1000 + s - 1) / s * s)%N.

(** the documented default channel map *)
Definition default_map_spec (channels : nat) : list channel :=
  match channels with
  | 1 => [Left]
  | 2 => [Left; Right]
  | 3 => [Left; Right; Center]
  | 4 => [Left; Right; LeftSurround; RightSurround]
  | 5 => [Left; Right; Center; LeftSurround; RightSurround]
  | _ => [Left; Right; Center; Unused; LeftSurround; RightSurround] ++ repeat Unused (channels - 6)
  end.

(** * Parts of the analyzer state
    The public getters mode(), rate(), channels(), channel_map(), max_window()
    and max_history() return the fields [e_mode], [e_rate], [e_channels],
    [e_cmap], [e_window] and [e_history]. *)
Definition settings (e : ebur128) := (e_mode e, e_rate e, e_channels e, e_cmap e, e_window e, e_history e).
Definition recorded (e : ebur128) := (e_block e, e_short e).
Definition overall_peaks (e : ebur128) := (e_sample_peak e, e_true_peak e).
Definition buffered (e : ebur128) := (e_audio e, e_index e, e_needed e, e_s100 e, e_counter e).
(** nothing but the channel map differs *)
Definition same_but_map (e e' : ebur128) : Prop := exists m, e' = with_cmap e m.
(** the same analyzer with another bound on its (kept) histories *)
Definition limit_queue (h : history) (max : N) : history :=
  match h with
  | HQueue q => HQueue {| q_queue := q_queue q; q_max := max |}
  | HHistogram h => HHistogram h
  end.
Definition limit_history (e : ebur128) (h : N) : ebur128 :=
  {| e_mode := e_mode e; e_rate := e_rate e; e_channels := e_channels e; e_audio := e_audio e;
     e_index := e_index e; e_needed := e_needed e; e_cmap := e_cmap e; e_s100 := e_s100 e;
     e_filter := e_filter e; e_block := limit_queue (e_block e) (h / 100);
     e_short := limit_queue (e_short e) (h / 3000);
     e_counter := e_counter e; e_sample_peak := e_sample_peak e; e_true_peak := e_true_peak e;
     e_window := e_window e; e_history := h |}.

(** * Calls *)

(** the planes have one common length *)
Definition rectangular {T} (l : list (list T)) : Prop :=
  l <> [] /\ exists n, Forall (fun p => length p = n) l.

(** What a caller has to respect for the analyzer never to panic:
    planar input that is well-formed has one plane per channel, and
    change_parameters is not used to go to an unsupported rate. Window lengths
    are u32. *)
Definition planes_match {T} (channels : nat) (l : list (list T)) : Prop :=
  rectangular l -> length l = channels.
Definition admissible (e : ebur128) (o : op) : Prop :=
  match o with
  | OpChangeParameters c r => channels_valid c /\ rate_valid r -> supported (e_mode e) r
  | OpSetMaxWindow w => (w <= 4294967295)%N
  | OpAdd (PI16 l) | OpAdd (PI32 l) | OpSeed (PI16 l) | OpSeed (PI32 l) => planes_match (e_channels e) l
  | OpAdd (PF32 l) | OpSeed (PF32 l) => planes_match (e_channels e) l
  | OpAdd (PF64 l) | OpSeed (PF64 l) => planes_match (e_channels e) l
  | _ => True
  end.

(** The states an application can bring an analyzer into. *)
Inductive reachable (P : platform) (E : ext) : ebur128 -> Prop :=
| reach_new channels rate m e :
    ebur128_new P E channels rate m = Ret (Ok e) -> supported m rate -> reachable P E e
| reach_step e o r e' :
    reachable P E e -> admissible e o -> step P E e o = Ret (r, e') -> reachable P E e'.

(** The queries of the API on one instance *)
Inductive query :=
| QMomentary | QShortterm | QWindow (ms : N) | QGlobal | QRange | QThreshold | QCount
| QSamplePeak (c : N) | QPrevSamplePeak (c : N) | QTruePeak (c : N) | QPrevTruePeak (c : N).
Inductive answer :=
| AValue (v : result f64)
| ACount (v : option (N * f64)).
Definition ask (P : platform) (E : ext) (e : ebur128) (q : query) : outcome answer :=
  match q with
  | QMomentary => r <- loudness_momentary E e ;; Ret (AValue r)
  | QShortterm => r <- loudness_shortterm E e ;; Ret (AValue r)
  | QWindow ms => r <- loudness_window P E e ms ;; Ret (AValue r)
  | QGlobal => r <- loudness_global P E e ;; Ret (AValue r)
  | QRange => r <- loudness_range P E e ;; Ret (AValue r)
  | QThreshold => Ret (AValue (relative_threshold P E e))
  | QCount => r <- gating_block_count_and_energy P E e ;; Ret (ACount r)
  | QSamplePeak c => r <- sample_peak e c ;; Ret (AValue r)
  | QPrevSamplePeak c => r <- prev_sample_peak e c ;; Ret (AValue r)
  | QTruePeak c => r <- true_peak e c ;; Ret (AValue r)
  | QPrevTruePeak c => r <- prev_true_peak e c ;; Ret (AValue r)
  end.
(** queries about the last add call only *)
Definition is_prev (q : query) : bool :=
  match q with QPrevSamplePeak _ | QPrevTruePeak _ => true | _ => false end.

(** * Audio input, independent of format and layout *)

(** What the analyzer takes from one sample on a platform: its level for the
    sample-peak meter, its value for the loudness filter and its value for the
    true-peak meter. *)
Record reading := { r_level : f64; r_64 : f64; r_32 : f32 }.
Definition read {T} (P : platform) (S : sample T) (x : T) : reading :=
  {| r_level := ftz64 P (f64_div (f64_abs (s_raw S x)) (s_max S));
     r_64 := s_f64 S x;
     r_32 := s_f32 S P x |}.

(** channel [c] of interleaved data with [C] channels: sample k * C + c of every frame k *)
Definition channel_samples {T} (C c : nat) (l : list T) : list T :=
  flat_map (fun k => match nth_error l (k * C + c) with Some x => [x] | None => [] end)
           (seq 0 (length l / C)).
Definition deinterleave {T} (C : nat) (l : list T) : list (list T) :=
  map (fun c => channel_samples C c l) (seq 0 C).
(** one frame after the other: the inverse *)
Fixpoint interleave {T} (n : nat) (planes : list (list T)) : list T :=
  match n with
  | O => []
  | S n => flat_map (firstn 1) planes ++ interleave n (map (@tl T) planes)
  end.

Definition interleaved_input {T} (P : platform) (S : sample T) (C : nat) (l : list T)
  : option (list (list reading)) :=
  if length l mod C =? 0 then Some (deinterleave C (map (read P S) l)) else None.
Definition planar_input {T} (P : platform) (S : sample T) (l : list (list T))
  : option (list (list reading)) :=
  match l with
  | [] => None
  | p :: _ => if forallb (fun q => length q =? length p) l then Some (map (map (read P S)) l) else None
  end.
(** The channels of an add_frames_* / seed_frames_* argument; None if the
    container is malformed. *)
Definition input (P : platform) (C : nat) (a : audio) : option (list (list reading)) :=
  match a with
  | AI16 l => interleaved_input P smp_i16 C l
  | AI32 l => interleaved_input P smp_i32 C l
  | AF32 l => interleaved_input P smp_f32 C l
  | AF64 l => interleaved_input P smp_f64 C l
  | PI16 l => planar_input P smp_i16 l
  | PI32 l => planar_input P smp_i32 l
  | PF32 l => planar_input P smp_f32 l
  | PF64 l => planar_input P smp_f64 l
  end.
(** one recording after the other, channel by channel *)
Definition join {T} (a b : list (list T)) : list (list T) := map2 (@app T) a b.
(** no frames at all *)
Definition no_audio {T} (C : nat) : list (list T) := repeat [] C.
(** all frames of a sequence of add calls *)
Fixpoint all_input (P : platform) (C : nat) (l : list audio) : option (list (list reading)) :=
  match l with
  | [] => Some (no_audio C)
  | a :: l => match input P C a, all_input P C l with
              | Some x, Some y => Some (join x y)
              | _, _ => None
              end
  end.

(** * Equality up to the peaks of the last add call *)
Definition forget_prev (e : ebur128) : ebur128 :=
  with_filter e {| f_channels := f_channels (e_filter e); f_b := f_b (e_filter e); f_a := f_a (e_filter e);
    f_state := f_state (e_filter e); f_calc_sample_peak := f_calc_sample_peak (e_filter e);
    f_sample_peak := map (fun _ => f64_zero) (f_sample_peak (e_filter e));
    f_tp := f_tp (e_filter e);
    f_true_peak := map (fun _ => f64_zero) (f_true_peak (e_filter e)) |}.
Definition same_except_prev (e e' : ebur128) : Prop := forget_prev e = forget_prev e'.

(** * Layout and format conversions *)

(** the frames of planar data one after the other *)
Definition to_interleaved (a : audio) : audio :=
  match a with
  | PI16 l => AI16 (interleave (length (hd [] l)) l)
  | PI32 l => AI32 (interleave (length (hd [] l)) l)
  | PF32 l => AF32 (interleave (length (hd [] l)) l)
  | PF64 l => AF64 (interleave (length (hd [] l)) l)
  | a => a
  end.
(** one plane per channel *)
Definition to_planar (C : nat) (a : audio) : audio :=
  match a with
  | AI16 l => PI16 (deinterleave C l)
  | AI32 l => PI32 (deinterleave C l)
  | AF32 l => PF32 (deinterleave C l)
  | AF64 l => PF64 (deinterleave C l)
  | a => a
  end.
(** `x as f64 / 32768.0`, `x as f64 / 2147483648.0`, `x as f64` *)
Definition f64_of_i16 (z : Z) : f64 := f64_div (f64_of_Z z) (f64_of_Z 32768).
Definition f64_of_i32 (z : Z) : f64 := f64_div (f64_of_Z z) (f64_of_Z 2147483648).
Definition to_f64 (a : audio) : audio :=
  match a with
  | AI16 l => AF64 (map f64_of_i16 l)
  | AI32 l => AF64 (map f64_of_i32 l)
  | AF32 l => AF64 (map f64_of_f32 l)
  | AF64 l => AF64 l
  | PI16 l => PF64 (map (map f64_of_i16) l)
  | PI32 l => PF64 (map (map f64_of_i32) l)
  | PF32 l => PF64 (map (map f64_of_f32) l)
  | PF64 l => PF64 l
  end.
Definition in_i16 (z : Z) : Prop := (-32768 <= z <= 32767)%Z.
Definition in_i32 (z : Z) : Prop := (-2147483648 <= z <= 2147483647)%Z.
(** a subnormal f32 (the smallest normal mantissa is 2^23) *)
Definition subnormal32 (x : f32) : bool :=
  match x with BinarySingleNaN.B754_finite _ m _ _ => (Zpos m <? 2 ^ 23)%Z | _ => false end.
(** the integers fit their type, and f32 samples are not subnormal where the
    platform flushes those *)
Definition samples_ok (P : platform) (a : audio) : Prop :=
  let ok32 x := p_ftz P = true -> subnormal32 x = false in
  match a with
  | AI16 l => Forall in_i16 l
  | AI32 l => Forall in_i32 l
  | AF32 l => Forall ok32 l
  | PI16 l => Forall (Forall in_i16) l
  | PI32 l => Forall (Forall in_i32) l
  | PF32 l => Forall (Forall ok32) l
  | _ => True
  end.
(** well-formed containers for [C] channels *)
Definition planar_for (C : nat) (a : audio) : Prop :=
  match a with
  | PI16 l | PI32 l => rectangular l /\ length l = C
  | PF32 l => rectangular l /\ length l = C
  | PF64 l => rectangular l /\ length l = C
  | _ => True
  end.
Definition whole_frames (C : nat) (a : audio) : Prop :=
  match a with
  | AI16 l | AI32 l => length l mod C = 0
  | AF32 l => length l mod C = 0
  | AF64 l => length l mod C = 0
  | _ => True
  end.

(** * Peaks *)

(** [v] is the largest of [l], or zero if there is none; NaNs are passed over *)
Definition largest (l : list f64) (v : f64) : Prop :=
  f64_le f64_zero v = true /\ (v = f64_zero \/ In v l) /\
  Forall (fun x => BinarySingleNaN.is_nan x = false -> f64_le x v = true) l.

(** Oversampling used for the true peak at a sample rate: taps per output phase and
    output samples per input sample. *)
Definition oversampling (rate : N) : option (nat * nat) :=
  if (rate <? 96000)%N then Some (12, 4)
  else if (rate <? 192000)%N then Some (24, 2)
  else None.
(** the sample [k] before sample [n]; silence before the start *)
Definition sample_before (xs : list f32) (n k : nat) : f32 :=
  if k <=? n then nth (n - k) xs f32_zero else f32_zero.
(** Tap [j] (0 <= j < 48) of the interpolation filter: a sinc of the given factor
    centred at 24 under the Hann window 1/2 (1 - cos (2 pi j / 48)), computed in f64
    and rounded to f32. *)
Definition hann (E : ext) (j : nat) : f64 :=
  f64_mul (f64_bin 1 (-1)) (f64_sub f64_one
    (e_cos E (f64_div (f64_mul (f64_mul f64_two PI64) (f64_of_nat j)) (f64_of_nat 48)))).
Definition hann_sinc (E : ext) (factor j : nat) : f32 :=
  if j =? 24 then f32_of_f64 (hann E 24) else
  let x := f64_div (f64_mul (f64_of_Z (Z.of_nat j - 24)) PI64) (f64_of_nat factor) in
  f32_of_f64 (f64_div (f64_mul (hann E j) (e_sin E x)) x).
(** Output phase [f] of a polyphase FIR with these taps, accumulated in f32 from the
    newest sample on. *)
Definition interpolated (P : platform) (E : ext) (taps factor : nat) (xs : list f32) (n f : nat) : f32 :=
  fold_left (fun acc k => f32_scale_add P acc (sample_before xs n k) (hann_sinc E factor (k * factor + f)))
            (seq 0 taps) f32_zero.
(** all output samples for the inputs from position [from] on *)
Definition oversampled (P : platform) (E : ext) (rate : N) (xs : list f32) (from : nat) : list f32 :=
  match oversampling rate with
  | None => []
  | Some (taps, factor) =>
      flat_map (fun n => map (interpolated P E taps factor xs n) (seq 0 factor))
               (seq from (length xs - from))
  end.

(** What an observer of the calls notes down for the peak meters, per channel. *)
Record log := {
  lg_heard : list (list reading);   (** all added samples *)
  lg_last : list (list reading);    (** the samples of the last add call that had any *)
  lg_past : list (list f32);        (** everything the interpolator has seen: added and seeded samples *)
  lg_inter : list (list f32);       (** the oversampled signal of the added samples *)
  lg_inter_last : list (list f32);  (** ... of the last add call *)
}.
Definition empty_log (C : nat) : log :=
  {| lg_heard := no_audio C; lg_last := no_audio C; lg_past := no_audio C; lg_inter := no_audio C;
     lg_inter_last := no_audio C |}.
Definition frames_of {T} (cols : list (list T)) : nat := length (hd [] cols).
Definition oversample_new (P : platform) (E : ext) (rate : N) (past new : list (list f32)) : list (list f32) :=
  map2 (fun xs ys => oversampled P E rate (xs ++ ys) (length xs)) past new.
(** the parameters change_parameters accepts *)
Definition accepted (channels rate : N) : bool :=
  (1 <=? channels)%N && (channels <=? 64)%N && (16 <=? rate)%N && (rate <=? 2822400)%N.
Definition log_after (P : platform) (E : ext) (e : ebur128) (o : op) (lg : log) : log :=
  match o with
  | OpAdd a =>
      match input P (e_channels e) a with
      | None => lg
      | Some cols =>
          if frames_of cols =? 0 then lg else
          let new := map (map r_32) cols in
          let inter := oversample_new P E (e_rate e) (lg_past lg) new in
          {| lg_heard := join (lg_heard lg) cols; lg_last := cols;
             lg_past := join (lg_past lg) new;
             lg_inter := join (lg_inter lg) inter; lg_inter_last := inter |}
      end
  | OpSeed a =>
      match input P (e_channels e) a with
      | None => lg
      | Some cols =>
          {| lg_heard := lg_heard lg; lg_last := lg_last lg;
             lg_past := join (lg_past lg) (map (map r_32) cols);
             lg_inter := lg_inter lg; lg_inter_last := lg_inter_last lg |}
      end
  | OpReset => empty_log (e_channels e)
  | OpChangeParameters c r =>
      if negb (accepted c r) || ((e_rate e =? r)%N && (N.of_nat (e_channels e) =? c)%N) then lg
      else if (N.of_nat (e_channels e) =? c)%N then
        {| lg_heard := lg_heard lg; lg_last := no_audio (e_channels e); lg_past := no_audio (e_channels e);
           lg_inter := lg_inter lg; lg_inter_last := no_audio (e_channels e) |}
      else empty_log (N.to_nat c)
  | _ => lg
  end.
(** an analyzer together with such a log of all calls made to it *)
Inductive logged (P : platform) (E : ext) : ebur128 -> log -> Prop :=
| logged_new channels rate m e :
    ebur128_new P E channels rate m = Ret (Ok e) -> supported m rate ->
    logged P E e (empty_log (N.to_nat channels))
| logged_step e o r e' lg :
    logged P E e lg -> admissible e o -> step P E e o = Ret (r, e') ->
    logged P E e' (log_after P E e o lg).
(** channel [c] of some columns *)
Definition channel {T} (c : N) (cols : list (list T)) : list T := nth (N.to_nat c) cols [].
Definition levels_of (c : list reading) : list f64 := map r_level c.
(** magnitudes of the oversampled signal, as f64 *)
Definition magnitudes (l : list f32) : list f64 := map (fun y => f64_of_f32 (f32_abs y)) l.

(** channel [c] of the audio of a call; None if the call fails or has no such channel *)
Definition channel_input (P : platform) (C : nat) (c : N) (a : audio) : option (list reading) :=
  match input P C a with
  | Some cols => nth_error cols (N.to_nat c)
  | None => None
  end.
(** two calls that do the same to channel [c] of a [C]-channel and channel [d] of a [D]-channel analyzer *)
Definition same_for_channel (P : platform) (C : nat) (c : N) (D : nat) (d : N) (o o' : op) : Prop :=
  match o, o' with
  | OpAdd a, OpAdd b => channel_input P C c a = channel_input P D d b
  | OpSeed a, OpSeed b => channel_input P C c a = channel_input P D d b
  | OpReset, OpReset => True
  | OpSetChannel _ _, OpSetChannel _ _ | OpSetChannelMap _, OpSetChannelMap _ => True
  | OpSetMaxWindow _, OpSetMaxWindow _ | OpSetMaxHistory _, OpSetMaxHistory _ => True
  | _, _ => False
  end.
(** a sequence of calls, each admissible where it is made *)
Inductive session (P : platform) (E : ext) : ebur128 -> list op -> ebur128 -> Prop :=
| session_nil e : session P E e [] e
| session_cons e o r e1 os e2 :
    admissible e o -> step P E e o = Ret (r, e1) -> session P E e1 os e2 -> session P E e (o :: os) e2.

(** a subnormal f64 *)
Definition subnormal64 (x : f64) : bool :=
  match x with BinarySingleNaN.B754_finite _ m _ _ => (Zpos m <? 2 ^ 52)%Z | _ => false end.

(** * Interpolator and rolling buffer on their own *)
(** any number of pushes *)
Fixpoint push_all {T} (n : nat) (r : rolling T) (vs : list T) : outcome (rolling T) :=
  match vs with
  | [] => Ret r
  | v :: vs => r <- push_front n r v ;; push_all n r vs
  end.
(** one frame after the other; the outputs in order *)
Fixpoint interpolate_all (P : platform) (i : interpf) (frames : list (list f32))
  : outcome (interpf * list (list (list f32))) :=
  match frames with
  | [] => Ret (i, [])
  | x :: frames =>
      '(i, out) <- interpolate P i x ;;
      '(i, outs) <- interpolate_all P i frames ;;
      Ret (i, out :: outs)
  end.

(** * The measured signal *)

(** What an observer of the calls notes down for the loudness meter: per channel
    the memory of the K-weighting filter and the filtered signal since the
    analyzer was started, reset, reconfigured or given another window. *)
Definition track : Type := arr5 f64 * list f64.
Definition blank (C : nat) : list track := repeat (zero5, []) C.
Definition per_channel {A B C D} (f : A -> B -> C -> D) (roles : list A) (t : list B) (cols : list C) : list D :=
  map2 (fun g x => g x) (map2 f roles t) cols.
Definition signals (t : list track) : list (list f64) := map snd t.

(** frames in 100 ms, and the length of the buffer set_max_window asks for *)
Definition hop (e : ebur128) : nat := N.to_nat (hundred_ms (e_rate e)).
Definition capacity (e : ebur128) : nat := N.to_nat (buffer_size (e_rate e) (e_window e)).
Definition unused (ch : Filter.channel) : bool := match ch with Unused => true | _ => false end.

(** one channel through the K-weighting filter: memory afterwards and output *)
Definition weigh (P : platform) (E : ext) (rate : N) (memory : arr5 f64) (xs : list reading)
  : arr5 f64 * list f64 :=
  let '(b, a) := filter_coefficients E (f64_of_N rate) in
  let '(memory, ys) := filter_run (ar64_ftz P) b a memory (map r_64 xs) in
  (flush_state P memory, ys).
(** Audio of a channel marked Unused is not filtered.  Should the channel be given a role
    again, the frames then measured for that time are those one buffer length earlier. *)
Definition stale (L : nat) (ys : list f64) : f64 :=
  if length ys <? L then f64_zero else nth (length ys - L) ys f64_zero.
Fixpoint hold (L n : nat) (ys : list f64) : list f64 :=
  match n with
  | O => ys
  | S n => hold L n (ys ++ [stale L ys])
  end.
Definition track_after (P : platform) (E : ext) (e : ebur128) (ch : Filter.channel) (tr : track) (xs : list reading)
  : track :=
  if unused ch then (fst tr, hold (capacity e) (length xs) (snd tr))
  else let '(memory, ys) := weigh P E (e_rate e) (fst tr) xs in (memory, snd tr ++ ys).

(** The measuring blocks end every [s] frames, the first one after [4 * s]: the frame count at
    which the block in progress after [n] frames ends. *)
Definition next_block (s n : nat) : nat := if n <? 4 * s then 4 * s else (n / s + 1) * s.
(** The audio is filtered in pieces that end with the blocks.  (Where the platform flushes
    subnormals itself the pieces make no difference, see C08.) *)
Fixpoint pieces (fuel s n m : nat) : list nat :=
  match fuel with
  | O => []
  | S fuel =>
      let k := next_block s n - n in
      if m =? 0 then [] else if k <=? m then k :: pieces fuel s (n + k) (m - k) else [m]
  end.
Fixpoint tape_pieces (P : platform) (E : ext) (e : ebur128) (ks : list nat) (t : list track)
    (cols : list (list reading)) : list track :=
  match ks with
  | [] => t
  | k :: ks =>
      tape_pieces P E e ks (per_channel (track_after P E e) (e_cmap e) t (map (firstn k) cols))
        (map (skipn k) cols)
  end.
Definition tape_add (P : platform) (E : ext) (e : ebur128) (t : list track) (cols : list (list reading))
  : list track :=
  tape_pieces P E e (pieces (frames_of cols) (hop e) (frames_of (signals t)) (frames_of cols)) t cols.
Definition seed_track (P : platform) (E : ext) (e : ebur128) (ch : Filter.channel) (tr : track) (xs : list reading)
  : track :=
  if unused ch then tr else (fst (weigh P E (e_rate e) (fst tr) xs), snd tr).
(** the shortest window set_max_window grants: 3 s with S, 400 ms without *)
Definition granted (m : mode) (w : N) : N :=
  N.max w (if N.testbit m 1 then 3000 else 400).
Definition tape_after (P : platform) (E : ext) (e : ebur128) (o : op) (t : list track) : list track :=
  match o with
  | OpAdd a =>
      match input P (e_channels e) a with
      | None => t
      | Some cols => tape_add P E e t cols
      end
  | OpSeed a =>
      match input P (e_channels e) a with
      | None => t
      | Some cols => per_channel (seed_track P E e) (e_cmap e) t cols
      end
  | OpReset => blank (e_channels e)
  | OpChangeParameters c r =>
      if negb (accepted c r) || ((e_rate e =? r)%N && (N.of_nat (e_channels e) =? c)%N) then t
      else blank (N.to_nat c)
  | OpSetMaxWindow w =>
      if (granted (e_mode e) w =? e_window e)%N then t else map (fun tr => (fst tr, [])) t
  | _ => t
  end.
(** an analyzer together with such a record of all calls made to it *)
Inductive taped (P : platform) (E : ext) : ebur128 -> list track -> Prop :=
| taped_new channels rate m e :
    ebur128_new P E channels rate m = Ret (Ok e) -> supported m rate ->
    taped P E e (blank (N.to_nat channels))
| taped_step e o r e' t :
    taped P E e t -> admissible e o -> step P E e o = Ret (r, e') ->
    taped P E e' (tape_after P E e o t).

(** * Energy of an interval *)

(** the last [w] frames; silence before the start *)
Definition recent (w : nat) (ys : list f64) : list f64 := skipn (length ys) (repeat f64_zero w ++ ys).
(** Floating-point sums depend on the order.  The code adds up the frames as they lie in its
    ring buffer: if it has wrapped around within the interval, the [i] newest frames first. *)
Definition ring_order (i : nat) (l : list f64) : list f64 :=
  if i <? length l then skipn (length l - i) l ++ firstn (length l - i) l else l.
Definition sum_of_squares (l : list f64) : f64 :=
  fold_left (fun sum y => f64_add sum (f64_mul y y)) l f64_zero.
(** ITU-R BS.1770 channel weights; dual mono counts twice *)
Definition gain (ch : Filter.channel) (x : f64) : f64 :=
  match ch with
  | LeftSurround | RightSurround | Mp060 | Mm060 | Mp090 | Mm090 => f64_mul x (f64_bin 6350075474592399 (-52))
  | DualMono => f64_mul x f64_two
  | _ => x
  end.
(** the weighted mean square over the last [w] frames of all channels *)
Definition energy (L w : nat) (roles : list Filter.channel) (ss : list (list f64)) : f64 :=
  f64_div (fold_left (fun sum '(ch, ys) =>
             if unused ch then sum
             else f64_add sum (gain ch (sum_of_squares (ring_order (length ys mod L) (recent w ys)))))
             (combine roles ss) f64_zero)
          (f64_of_nat w).
(** ... in LUFS *)
Definition loudness (E : ext) (energy : f64) : f64 :=
  f64_sub (f64_mul (f64_of_Z 10) (e_log10 E energy)) lit_0_691.

(** * Blocks *)

(** the frame counts in (n, n'] at which a 400 ms block ends: every [s] frames from [4 * s] on *)
Definition block_ends (s n n' : nat) : list nat :=
  List.filter (fun t => (4 * s <=? t) && (t mod s =? 0)) (seq (S n) (n' - n)).
(** ... and at which a 3 s block of the loudness range ends: every [10 * s] frames from [30 * s] on *)
Definition short_ends (s n n' : nat) : list nat :=
  List.filter (fun t => (30 * s <=? t) && ((t - 30 * s) mod (10 * s) =? 0)) (seq (S n) (n' - n)).
(** the energy of the interval of [w] frames that ends after [t] frames *)
Definition energy_at (L w : nat) (roles : list Filter.channel) (ss : list (list f64)) (t : nat) : f64 :=
  energy L w roles (map (firstn t) ss).
(** one block after the other into the history *)
Fixpoint record_all (h : history) (l : list f64) : outcome history :=
  match l with
  | [] => Ret h
  | x :: l => h <- history_add h x ;; record_all h l
  end.

(** * Loudness values *)

(** what momentary, short-term and window loudness report for an energy *)
Definition reported (E : ext) (x : f64) : f64 :=
  if f64_le x f64_zero then f64_neg f64_inf else loudness E x.
(** the loudness of the last [w] frames, or InvalidMode if the buffer is shorter *)
Definition recent_loudness (E : ext) (e : ebur128) (t : list track) (w : nat) : result f64 :=
  if capacity e <? w then Err InvalidMode
  else Ok (reported E (energy (capacity e) w (e_cmap e) (signals t))).
(** queries about loudness, as opposed to peaks *)
Definition about_loudness (q : query) : bool :=
  match q with
  | QSamplePeak _ | QPrevSamplePeak _ | QTruePeak _ | QPrevTruePeak _ => false
  | _ => true
  end.

(** * Comparing analyzers *)

(** the same frames in all channels that are not marked Unused *)
Definition same_used (roles : list Filter.channel) (x y : list (list reading)) : Prop :=
  length x = length y /\ frames_of x = frames_of y /\
  forall c ch, nth_error roles c = Some ch -> ch <> Unused -> nth_error x c = nth_error y c.
Definition same_input (Q : list (list reading) -> list (list reading) -> Prop)
    (x y : option (list (list reading))) : Prop :=
  match x, y with
  | Some x, Some y => Q x y
  | None, None => True
  | _, _ => False
  end.
(** the same call up to the audio in unused channels *)
Definition same_call (P : platform) (e : ebur128) (o o' : op) : Prop :=
  match o, o' with
  | OpAdd a, OpAdd b | OpSeed a, OpSeed b =>
      same_input (same_used (e_cmap e)) (input P (e_channels e) a) (input P (e_channels e) b)
  | _, _ => o = o'
  end.
(** two runs with the same calls up to the audio in unused channels *)
Inductive same_session (P : platform) (E : ext) : ebur128 -> ebur128 -> ebur128 -> ebur128 -> Prop :=
| same_nil e f : same_session P E e f e f
| same_cons e f o o' r r' e1 f1 e2 f2 :
    same_call P e o o' -> admissible e o -> admissible f o' ->
    step P E e o = Ret (r, e1) -> step P E f o' = Ret (r', f1) ->
    same_session P E e1 f1 e2 f2 -> same_session P E e f e2 f2.
(** A mono analyzer and a stereo analyzer that get the same calls, the stereo one with the
    mono signal on both sides *)
Definition doubled_call (P : platform) (o o' : op) : Prop :=
  match o, o' with
  | OpAdd a, OpAdd b | OpSeed a, OpSeed b =>
      match input P 1 a, input P 2 b with
      | Some [x], Some [y; z] => y = x /\ z = x
      | None, None => True
      | _, _ => False
      end
  | OpChangeParameters c r, OpChangeParameters c' r' => c = 1%N /\ c' = 2%N /\ r' = r
  | OpSetMaxWindow w, OpSetMaxWindow w' => w' = w
  | OpSetMaxHistory h, OpSetMaxHistory h' => h' = h
  | OpReset, OpReset => True
  | _, _ => False
  end.
Inductive doubled_session (P : platform) (E : ext) : ebur128 -> ebur128 -> ebur128 -> ebur128 -> Prop :=
| doubled_nil e f : doubled_session P E e f e f
| doubled_cons e f o o' r r' e1 f1 e2 f2 :
    doubled_call P o o' -> admissible e o -> admissible f o' ->
    step P E e o = Ret (r, e1) -> step P E f o' = Ret (r', f1) ->
    doubled_session P E e1 f1 e2 f2 -> doubled_session P E e f e2 f2.
(** a sequence of calls together with the record of the measured signal *)
Definition is_add (o : op) : Prop := match o with OpAdd _ => True | _ => False end.
Inductive taped_session (P : platform) (E : ext)
  : ebur128 -> list track -> list op -> ebur128 -> list track -> Prop :=
| tsession_nil e t : taped_session P E e t [] e t
| tsession_cons e t o r e1 os e2 t2 :
    admissible e o -> step P E e o = Ret (r, e1) ->
    taped_session P E e1 (tape_after P E e o t) os e2 t2 -> taped_session P E e t (o :: os) e2 t2.

(** the memory of the filters: of the K-weighting filter and of the interpolator *)
Definition memories (e : ebur128) := (f_state (e_filter e), f_tp (e_filter e)).
(** nothing but these differs *)
Definition same_but_memories (e e' : ebur128) : Prop :=
  exists kweighting interpolator,
    let f := e_filter e in
    e' = with_filter e {| f_channels := f_channels f; f_b := f_b f; f_a := f_a f; f_state := kweighting;
           f_calc_sample_peak := f_calc_sample_peak f; f_sample_peak := f_sample_peak f;
           f_tp := interpolator; f_true_peak := f_true_peak f |}.

(** * One signal analyzed in chunks *)

Fixpoint increasing (n : nat) (l : list nat) : Prop :=
  match l with [] => True | k :: l => n <= k /\ increasing k l end.
(** The first chunk ends after [n] frames.  Every other chunk ends at the next of the [cuts] and
    was started 300 ms before the end of its predecessor (the first 100 ms of the documented
    overlap of 400 ms are only seeded): the ends of its blocks, counted from the start of the
    whole signal *)
Fixpoint chunk_ends (s n : nat) (cuts : list nat) : list (list nat) :=
  match cuts with
  | [] => []
  | k :: cuts => map (Nat.add (n - 3 * s)) (block_ends s 0 (k - (n - 3 * s))) :: chunk_ends s k cuts
  end.
(** the same last [w] frames in all channels that are not marked Unused *)
Definition same_recent (w : nat) (roles : list Filter.channel) (x y : list (list f64)) : Prop :=
  forall c ch, nth_error roles c = Some ch -> ch <> Unused -> recent w (nth c x []) = recent w (nth c y []).

(** * Silence *)

(** digital silence in any format (floats of either sign) *)
Definition zero64 (x : f64) : Prop := exists s, x = BinarySingleNaN.B754_zero s.
Definition zero32 (x : f32) : Prop := exists s, x = BinarySingleNaN.B754_zero s.
Definition silent_audio (a : audio) : Prop :=
  match a with
  | AI16 l | AI32 l => Forall (fun x => x = 0%Z) l
  | AF32 l => Forall zero32 l
  | AF64 l => Forall zero64 l
  | PI16 l | PI32 l => Forall (Forall (fun x => x = 0%Z)) l
  | PF32 l => Forall (Forall zero32) l
  | PF64 l => Forall (Forall zero64) l
  end.
(** calls that bring in nothing but silence.  (set_max_history is left out: it can add
    blocks that were never measured, see C44.) *)
Definition quiet (o : op) : Prop :=
  match o with
  | OpAdd a | OpSeed a => silent_audio a
  | OpReset | OpSetChannel _ _ | OpSetChannelMap _ | OpSetMaxWindow _ => True
  | OpChangeParameters _ _ | OpSetMaxHistory _ => False
  end.
(** the coefficients computed for the K-weighting filter and the interpolator are finite *)
Definition finite5 (v : arr5 f64) : Prop :=
  Forall (fun x => BinarySingleNaN.is_finite x = true) [v0 v; v1 v; v2 v; v3 v; v4 v].
Definition finite_filter (E : ext) (rate : N) : Prop :=
  let '(b, a) := filter_coefficients E (f64_of_N rate) in finite5 b /\ finite5 a.
Definition finite_taps (E : ext) (rate : N) : Prop :=
  forall taps factor j, oversampling rate = Some (taps, factor) -> j < 48 ->
    BinarySingleNaN.is_finite (hann_sinc E factor j) = true.
