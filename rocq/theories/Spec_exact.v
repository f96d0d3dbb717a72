(** Vocabulary for readings against the measurement of the input in exact arithmetic (C72). *)
From Coq Require Import List NArith ZArith Reals.
From Flocq Require IEEE754.BinarySingleNaN.
From Verif Require Import Prelude Float Env Filter Ebur128 Spec Spec_real Spec_filter Spec_coeff Spec_accuracy.
Import ListNotations.
Local Open Scope R_scope.

(** what is assumed of tan: an error of two units in the last place, or of 2^-58 for small results *)
Definition tan_precise (E : ext) : Prop := forall x, BinarySingleNaN.is_finite x = true -> 0 < real x < 1 ->
  BinarySingleNaN.is_finite (e_tan E x) = true /\ Rabs (real (e_tan E x) - tan (real x)) <= / 2 ^ 51 * tan (real x) + / 2 ^ 58.
(** rates at which the statements are made *)
Definition audio_rate (rate : N) : Prop := (22050 <= rate <= 768000)%N.
(** finite samples, no larger than [M] *)
Definition samples_below (M : R) (xs : list f64) : Prop := Forall (fun x => BinarySingleNaN.is_finite x = true /\ Rabs (real x) <= M) xs.
(** the weighted signal of [xs] in exact arithmetic *)
Definition weighted (rate : N) (xs : list f64) : list R :=
  let (b, a) := coefficientsR (coeff_inputsR (IZR (Z.of_N rate))) in outputsR b a (map real xs).
(** how far the computed weighted signal of samples below [M] may be from it *)
Definition filter_error (P : platform) (rate : N) (M : R) : R :=
  4.2 / 10 ^ 6 * (IZR (Z.of_N rate) / 48000) ^ 4 * M + (if p_ftz P then / 2 ^ 1000 else / 2 ^ 43).

(** * Readings *)
(** the last [w] values; zeros before the start *)
Definition recentR (w : nat) (ys : list R) : list R := skipn (length ys) (repeat 0 w ++ ys).
(** the mean over the last [w] frames of the weighted sum of squares of the weighted channels, in exact arithmetic,
    from the samples [xss] of all channels *)
Definition exact_mean_square (rate : N) (w : nat) (roles : list Filter.channel) (xss : list (list f64)) : R :=
  total (map (fun '(ch, xs) => weight ch * total (map (fun y => y * y) (recentR w (weighted rate xs)))) (combine roles xss)) / INR w.
(** how far the root of the mean square may be off *)
Definition rms_error (P : platform) (rate : N) (M : R) (roles : list Filter.channel) : R := sqrt (total (map weight roles)) * filter_error P rate M.
(** An analyzer that heard the samples [xss] in its channels, all below [M] (channels marked Unused may have heard anything) *)
Definition heard_all (P : platform) (E : ext) (M : R) (e : ebur128) (t : list track) (xss : list (list f64)) : Prop :=
  length xss = e_channels e /\ taped P E e t /\
  forall c, (c < e_channels e)%nat -> nth c (e_cmap e) Unused <> Unused ->
    (exists ws, heard P E c e t (nth c xss []) ws) /\ samples_below M (nth c xss []).
(** [v] is the loudness of the last [w] frames of the samples [xss], up to 12 LU times the relative error of the root mean
    square and the error of the calculation in LUFS; for a mean square that is not silence and well above the error *)
Definition measured_over (P : platform) (M : R) (e : ebur128) (xss : list (list f64)) (v : f64) (w : nat) : Prop :=
  let Z := exact_mean_square (e_rate e) w (e_cmap e) xss in let d := rms_error P (e_rate e) M (e_cmap e) in
  / 10 ^ 30 <= Z -> 4 * d <= sqrt Z ->
  BinarySingleNaN.is_finite v = true /\ Rabs (real v - lufs Z) <= 12 * (d / sqrt Z) + tolerance (w + e_channels e + 4).
