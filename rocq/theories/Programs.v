(** Model of the example programs examples/replaygain.rs and examples/normalize.rs, the two complete users of the crate in the
    repository.  Files and the WAV container are outside: a recording is what the reader yields.  What is printed or written
    is the result; formatting is left out. *)
From Coq Require Import ZArith NArith List Bool Arith.
From Flocq Require Import IEEE754.BinarySingleNaN.
From Verif Require Import Prelude Float Env Utils History Interp TruePeak Filter Ebur128.
Import ListNotations.

(** A 16-bit recording: spec().channels, spec().sample_rate and the interleaved samples *)
Record recording := { w_channels : N; w_rate : N; w_samples : list Z }.

(** examples/replaygain.rs 77-80, examples/normalize.rs 25-28: `s as f32 / i16::MAX as f32` *)
Definition wav_sample (s : Z) : f32 := f32_div (f32_of_Z s) (f32_of_Z 32767).

(** `s.chunks(n)` (the last piece may be shorter; panics for n = 0) *)
Fixpoint portions_fuel {A} (fuel n : nat) (l : list A) : list (list A) :=
  match fuel, l with
  | S fuel, _ :: _ => firstn n l :: portions_fuel fuel n (skipn n l)
  | _, _ => []
  end.
Definition portions {A} (n : nat) (l : list A) : list (list A) := portions_fuel (length l) n l.
Definition slice_chunks {A} (n : nat) (l : list A) : outcome (list (list A)) :=
  if n =? 0 then Panic else Ret (portions n l).

(** `.expect(..)` *)
Definition expect {A} (r : result A) : outcome A := match r with Ok a => Ret a | Err _ => Panic end.

(** examples/replaygain.rs 85-88, examples/normalize.rs 33-36: add one chunk and ask for the loudness so far *)
Definition measure_chunk (P : platform) (E : ext) (e : ebur128) (chunk : list f32) : outcome ebur128 :=
  '(r, e') <- add_frames_interleaved P smp_f32 e chunk ;;
  _ <- expect r ;;
  g <- loudness_global P E e' ;;
  _ <- expect g ;;
  Ret e'.
(** examples/replaygain.rs 71-89, examples/normalize.rs 19-37: one analyzer with all modes, fed in chunks of one second *)
Definition measure_recording (P : platform) (E : ext) (w : recording) : outcome ebur128 :=
  r <- ebur128_new P E (w_channels w) (w_rate w) MODE_ALL ;;
  e <- expect r ;;
  chunks <- slice_chunks (N.to_nat (w_rate w) * N.to_nat (w_channels w)) (map wav_sample (w_samples w)) ;;
  ofold (measure_chunk P E) e chunks.

(** * examples/replaygain.rs *)

(** `f64::max` (a NaN argument is passed over) *)
Definition f64_max (a b : f64) : f64 :=
  if f64_is_nan a then b else if f64_is_nan b then a else if f64_lt a b then b else a.
(** examples/replaygain.rs 12-17 *)
Record track_data := { t_loudness : f64; t_peak : f64; t_count : N; t_energy : f64 }.
(** examples/replaygain.rs 94-97: the largest sample peak of all channels *)
Definition largest_peak (e : ebur128) (channels : nat) : outcome f64 :=
  ofold (fun a c => r <- sample_peak e (N.of_nat c) ;; b <- expect r ;; Ret (f64_max a b)) f64_zero (seq 0 channels).
(** examples/replaygain.rs 68-108: analyze_file *)
Definition analyze_file (P : platform) (E : ext) (w : recording) : outcome track_data :=
  e <- measure_recording P E w ;;
  g <- loudness_global P E e ;;
  loudness <- expect g ;;
  peak <- largest_peak e (N.to_nat (w_channels w)) ;;
  c <- gating_block_count_and_energy P E e ;;
  match c with
  | None => Panic
  | Some (n, x) => Ret {| t_loudness := loudness; t_peak := peak; t_count := n; t_energy := x |}
  end.
(** examples/replaygain.rs 10: -18 LUFS *)
Definition REPLAYGAIN2_REFERENCE : f64 := f64_of_Z (-18).
(** examples/replaygain.rs 36-37: gain and peak of one track *)
Definition track_gain (t : track_data) : f64 := f64_sub REPLAYGAIN2_REFERENCE (t_loudness t).
(** examples/replaygain.rs 24-26, 54-57: peak, count and energy of the album so far (the u64 count does not wrap) *)
Definition album_add (a : f64 * N * f64) (t : track_data) : f64 * N * f64 :=
  let '(peak, n, x) := a in (f64_max peak (t_peak t), (n + t_count t)%N, f64_add x (t_energy t)).
Definition album_of (ts : list track_data) : f64 * N * f64 := fold_left album_add ts (f64_zero, 0%N, f64_zero).
(** examples/replaygain.rs 60-61 *)
Definition album_gain (E : ext) (ts : list track_data) : f64 :=
  let '(_, n, x) := album_of ts in f64_sub REPLAYGAIN2_REFERENCE (energy_to_loudness E (f64_div x (f64_of_N n))).
(** examples/replaygain.rs 64 *)
Definition album_peak (ts : list track_data) : f64 := fst (fst (album_of ts)).
(** examples/replaygain.rs 19-66: main, over the files of the directory: gain and peak of every track, then of the album *)
Definition replaygain (P : platform) (E : ext) (ws : list recording) : outcome (list (f64 * f64) * (f64 * f64)) :=
  ts <- omap (analyze_file P E) ws ;;
  Ret (map (fun t => (track_gain t, t_peak t)) ts, (album_gain E ts, album_peak ts)).

(** * examples/normalize.rs *)

(** `f32::clamp`; the limits are numbers in order here *)
Definition f32_clamp (x lo hi : f32) : f32 :=
  let x := if f32_gt lo x then lo else x in if f32_gt x hi then hi else x.
(** `x as i16`: truncates, saturates, NaN becomes 0 *)
Definition f32_to_i16 (x : f32) : Z :=
  match x with
  | B754_nan => 0%Z
  | B754_infinity s => if s then (-32768)%Z else 32767%Z
  | _ => Z.max (-32768) (Z.min 32767 (Btrunc x))
  end.
(** examples/normalize.rs 15: -23 LUFS *)
Definition TARGET_LOUDNESS : f64 := f64_of_Z (-23).
(** examples/normalize.rs 44: the gain.  [powf32] is `f32::powf`, which the model of the library does not need. *)
Definition normal_gain (powf32 : f32 -> f32 -> f32) (loudness : f64) : f32 :=
  powf32 (f32_of_Z 10) (f32_of_f64 (f64_div (f64_sub TARGET_LOUDNESS loudness) (f64_of_Z 20))).
(** examples/normalize.rs 58-60: one sample of the output *)
Definition normal_sample (gain : f32) (s : f32) : Z :=
  f32_to_i16 (f32_mul (f32_clamp (f32_mul s gain) (f32_of_Z (-1)) (f32_of_Z 1)) (f32_of_Z 32767)).
(** examples/normalize.rs 8-63: main: the samples of the output file, which has the same format *)
Definition normalize (P : platform) (E : ext) (powf32 : f32 -> f32 -> f32) (w : recording) : outcome (list Z) :=
  e <- measure_recording P E w ;;
  g <- loudness_global P E e ;;
  loudness <- expect g ;;
  Ret (map (fun s => normal_sample (normal_gain powf32 loudness) (wav_sample s)) (w_samples w)).
