(** Vocabulary for the example programs (C78, C79). *)
From Coq Require Import List Arith NArith ZArith Reals.
From Flocq Require IEEE754.BinarySingleNaN.
From Verif Require Import Prelude Float Env Filter Ebur128 Programs Spec Spec_real Spec_history Spec_interp.
Import ListNotations.

(** a 16-bit recording of whole frames that the analyzer accepts with all modes on *)
Definition proper_recording (w : recording) : Prop :=
  channels_valid (w_channels w) /\ rate_valid (w_rate w) /\ supported 127%N (w_rate w) /\
  length (w_samples w) mod N.to_nat (w_channels w) = 0 /\
  (N.of_nat (length (w_samples w)) < 18446744073709551616)%N /\
  Forall (fun s => (-32768 <= s <= 32767)%Z) (w_samples w).
(** a sample as a number: one over i16::MAX *)
Definition sample_value (s : Z) : f32 := f32_div (f32_of_Z s) (f32_of_Z 32767).
(** an analyzer with all modes on that has been given the recording from the start to the end, in some pieces of whole
    frames, all of which it accepted *)
Definition analyzed (P : platform) (E : ext) (w : recording) (e : ebur128) : Prop :=
  exists e0 pieces, ebur128_new P E (w_channels w) (w_rate w) 127%N = Ret (Ok e0) /\
    concat pieces = map sample_value (w_samples w) /\
    Forall (fun p => length p mod N.to_nat (w_channels w) = 0) pieces /\
    run P E e0 (map (fun p => OpAdd (AF32 p)) pieces) = Ret (repeat (Ok tt) (length pieces), e).
(** the levels of its samples *)
Definition sample_levels (w : recording) : list f64 := map (fun s => f64_of_f32 (f32_abs (sample_value s))) (w_samples w).
(** shorter than one 400 ms block *)
Definition too_short (w : recording) : Prop :=
  (N.of_nat (length (w_samples w)) < 4 * hundred_ms (w_rate w) * w_channels w)%N.
(** some block of it is above the absolute threshold, whatever pieces it is analyzed in *)
Definition audible (P : platform) (E : ext) (w : recording) : Prop :=
  forall e, analyzed P E w e -> ask P E e QCount <> Ret (ACount None).
(** the gain ReplayGain 2.0 prescribes for the loudness of [n] blocks with energies that add up to [x]: to -18 LUFS *)
Definition prescribed_gain (x n : R) : R := (-18 - lufs (x / n))%R.
(** * C79 *)
(** 10 to the [x] / 20: [x] dB as a factor, from the loudness [l] to -23 LUFS *)
Definition target_gain (l : R) : R := Rpower 10 ((-23 - l) / 20).
(** into the range of the output *)
Definition clip (x : R) : R := Rmax (-32767) (Rmin 32767 x).
(** what is assumed of `f32::powf`: 10 to a number up to 30 to a relative error of 2^-21, and 10 to the infinity *)
Definition powf32_contract (powf32 : f32 -> f32 -> f32) : Prop :=
  powf32 (f32_of_Z 10) (BinarySingleNaN.B754_infinity false) = BinarySingleNaN.B754_infinity false /\
  forall y, BinarySingleNaN.is_finite y = true -> (Rabs (real32 y) <= 30)%R ->
    BinarySingleNaN.is_finite (powf32 (f32_of_Z 10) y) = true /\
    (Rabs (real32 (powf32 (f32_of_Z 10) y) - Rpower 10 (real32 y)) <= / 2 ^ 21 * Rpower 10 (real32 y))%R.
