(** Model of src/utils.rs *)
From Coq Require Import ZArith NArith List Bool Arith.
From Verif Require Import Prelude Float Env.
Import ListNotations.

(** The literal 0.691 of src/utils.rs 35 (rounding proved in Literals_proofs.v). *)
Definition lit_0_691 : f64 := f64_bin 6223974685026025 (-53).

(** src/utils.rs 25-37: energy_to_loudness (the non-test variant, line 35) *)
Definition energy_to_loudness (E : ext) (energy : f64) : f64 :=
  f64_sub (f64_mul f64_ten (e_log10 E energy)) lit_0_691.

(** src/utils.rs 239-245 trait Sample together with the dasp_sample conversions
    used through it: [s_raw] is as_f64_raw, [s_max] MAX_AMPLITUDE, [s_f64]
    to_sample::<f64>(), [s_f32] to_sample::<f32>().  The conversions run inside
    with_ftz, hence [s_f32] takes the platform. *)
Record sample (T : Type) := {
  s_raw : T -> f64;
  s_max : f64;
  s_f64 : T -> f64;
  s_f32 : platform -> T -> f32;
}.
Arguments s_raw {T} _ _.
Arguments s_max {T} _.
Arguments s_f64 {T} _ _.
Arguments s_f32 {T} _ _ _.

(** src/utils.rs 247-254 impl Sample for f32; dasp f32 -> f64 is `s as f64`. *)
Definition smp_f32 : sample f32 := {|
  s_raw := f64_of_f32;
  s_max := f64_one;
  s_f64 := f64_of_f32;
  s_f32 := fun _ s => s |}.

(** src/utils.rs 255-262 impl Sample for f64; dasp f64 -> f32 is `s as f32`. *)
Definition smp_f64 : sample f64 := {|
  s_raw := fun s => s;
  s_max := f64_one;
  s_f64 := fun s => s;
  s_f32 := fun P s => ftz32 P (f32_of_f64 s) |}.

(** src/utils.rs 263-270 impl Sample for i16 (values as Z);
    dasp i16 -> f64 is `s as f64 / 32768.0`, i16 -> f32 likewise in f32. *)
Definition smp_i16 : sample Z := {|
  s_raw := f64_of_Z;
  s_max := f64_neg (f64_of_Z (-32768));
  s_f64 := fun s => f64_div (f64_of_Z s) (f64_of_Z 32768);
  s_f32 := fun P s => ftz32 P (f32_div (f32_of_Z s) (f32_of_Z 32768)) |}.

(** src/utils.rs 271-278 impl Sample for i32; dasp i32 -> f64 is
    `s as f64 / 2147483648.0`, i32 -> f32 likewise in f32. *)
Definition smp_i32 : sample Z := {|
  s_raw := f64_of_Z;
  s_max := f64_neg (f64_of_Z (-2147483648));
  s_f64 := fun s => f64_div (f64_of_Z s) (f64_of_Z 2147483648);
  s_f32 := fun P s => ftz32 P (f32_div (f32_of_Z s) (f32_of_Z 2147483648)) |}.

(** src/utils.rs 69-74 struct Interleaved and 152-156 struct Planar *)
Inductive samples (T : Type) :=
| Interleaved (data : list T) (channels : nat)
| Planar (data : list (list T)) (start stop : nat).
Arguments Interleaved {T} data channels.
Arguments Planar {T} data start stop.

(** src/utils.rs 78-88: Interleaved::new *)
Definition interleaved_new {T} (data : list T) (channels : nat) : result (samples T) :=
  if channels =? 0 then Err NoMem
  else if negb (length data mod channels =? 0) then Err NoMem
  else Ok (Interleaved data channels).

(** src/utils.rs 160-174: Planar::new *)
Definition planar_new {T} (data : list (list T)) : result (samples T) :=
  match data with
  | [] => Err NoMem
  | d0 :: _ =>
      if existsb (fun d => negb (length d0 =? length d)) data then Err NoMem
      else Ok (Planar data 0 (length d0))
  end.

(** src/utils.rs 124-126, 211-213: frames().  `self.end - self.start` cannot
    underflow (start <= end is kept by split_at); division by channels = 0 would
    panic but Interleaved::new excludes it. *)
Definition s_frames {T} (s : samples T) : nat :=
  match s with
  | Interleaved data channels => length data / channels
  | Planar _ start stop => stop - start
  end.

(** src/utils.rs 129-131, 216-218: channels() *)
Definition s_channels {T} (s : samples T) : nat :=
  match s with
  | Interleaved _ channels => channels
  | Planar data _ _ => length data
  end.

(** src/utils.rs 93-99, 179-185: foreach_sample.  The sequence of samples the
    closure is called with. *)
Definition s_foreach_sample {T} (s : samples T) (c : nat) : outcome (list T) :=
  match s with
  | Interleaved data channels =>
      assert! (c <? channels) ;;
      vs <- chunks_exact channels data ;;
      omap (fun v => idx v c) vs
  | Planar data start stop =>
      assert! (c <? length data) ;;
      d <- idx data c ;;
      slice d start stop
  end.

(** src/utils.rs 102-113, 188-199: foreach_sample_zipped: the same samples,
    zipped with an iterator (the shorter one ends the loop). *)
Definition s_foreach_sample_zipped {T U} (s : samples T) (c : nat) (iter : list U)
  : outcome (list (T * U)) :=
  vs <- s_foreach_sample s c ;;
  Ret (combine vs iter).

(** src/utils.rs 116-121, 202-208: foreach_frame, for a frame type with
    [fchannels] channels (the frames the closure is called with). *)
Definition s_foreach_frame {T} (s : samples T) (fchannels : nat) : outcome (list (list T)) :=
  match s with
  | Interleaved data channels =>
      assert! (fchannels =? channels) ;;
      chunks_exact channels data
  | Planar data start stop =>
      assert! (fchannels =? length data) ;;
      omap (fun f => omap (fun c => d <- idx data c ;; idx d f) (seq 0 fchannels))
           (seq start (stop - start))
  end.

(** src/utils.rs 134-148, 221-236: split_at *)
Definition s_split_at {T} (s : samples T) (n : nat) : outcome (samples T * samples T) :=
  match s with
  | Interleaved data channels =>
      assert! (n * channels <=? length data) ;;
      Ret (Interleaved (firstn (n * channels) data) channels,
           Interleaved (skipn (n * channels) data) channels)
  | Planar data start stop =>
      assert! (start + n <=? stop) ;;
      Ret (Planar data start (start + n), Planar data (start + n) stop)
  end.

(** src/utils.rs 345-357: SampleAccumulator for f32: scale_add *)
Definition f32_scale_add (P : platform) (this other coeff : f32) : f32 :=
  if p_fma P then ftz32 P (f32_fma other coeff this)
  else ftz32 P (f32_add this (ftz32 P (f32_mul other coeff))).

(** src/utils.rs 292-296: FrameAccumulator::scale_add; frames are lists with one
    sample per channel (both operands have the same static length). *)
Definition frame_scale_add (P : platform) (this other : list f32) (coeff : f32) : list f32 :=
  map2 (fun t o => f32_scale_add P t o coeff) this other.

(** src/utils.rs 298-306: FrameAccumulator::retain_max_samples *)
Definition frame_retain_max (this other : list f32) : list f32 :=
  map2 (fun t o => if f32_gt o t then o else t) this other.
