(** Vocabulary for the oversampled signal as real numbers (C69 - C71). *)
From Coq Require Import ZArith NArith List Reals.
From Flocq Require IEEE754.BinarySingleNaN.
From Verif Require Import Prelude Float Env Ebur128 Spec Spec_real Spec_response.
Import ListNotations.
Local Open Scope R_scope.

(** what is assumed of sin and cos in the ranges the code uses them in: errors of at most 2^-50 *)
Definition sin_accurate (E : ext) : Prop := forall x, BinarySingleNaN.is_finite x = true -> Rabs (real x) <= 38 ->
  BinarySingleNaN.is_finite (e_sin E x) = true /\ Rabs (real (e_sin E x) - sin (real x)) <= / 2 ^ 50.
Definition cos_accurate (E : ext) : Prop := forall x, BinarySingleNaN.is_finite x = true -> Rabs (real x) <= 7 ->
  BinarySingleNaN.is_finite (e_cos E x) = true /\ Rabs (real (e_cos E x) - cos (real x)) <= / 2 ^ 50.

(** the Hann window over 48 steps, the normalised sinc and tap [j] of the interpolation filter *)
Definition hannR (j : nat) : R := (1 - cos (2 * PI * INR j / 48)) / 2.
Definition sincR (x : R) : R := if Req_EM_T x 0 then 1 else sin (PI * x) / (PI * x).
Definition tapR (factor j : nat) : R := hannR j * sincR ((INR j - 24) / INR factor).

Definition real32 (x : f32) : R := BinarySingleNaN.B2R x.
(** output phase [f] for sample [n]: the signal convolved with every [factor]-th tap *)
Definition interpolatedR (taps factor : nat) (xs : list f32) (n f : nat) : R :=
  total (map (fun k => real32 (sample_before xs n k) * tapR factor (k * factor + f)) (seq 0 taps)).

(** what computing it in f32 from samples of at most [M] adds *)
Definition fir_noise (M : R) : R := / 2 ^ 16 * M + / 2 ^ 118.
Definition moderate (M : R) (x : f32) : Prop := BinarySingleNaN.is_finite x = true /\ Rabs (real32 x) <= M.

(** * Sessions without loud samples *)
Definition integers_fit (a : audio) : Prop :=
  match a with
  | AI16 l => Forall in_i16 l
  | AI32 l => Forall in_i32 l
  | PI16 l => Forall (Forall in_i16) l
  | PI32 l => Forall (Forall in_i32) l
  | _ => True
  end.
(** the samples of a call, if it is accepted, are finite and at most [M] *)
Definition soft (P : platform) (C : nat) (M : R) (a : audio) : Prop :=
  integers_fit a /\ forall cols, input P C a = Some cols ->
    Forall (Forall (fun r => BinarySingleNaN.is_finite (r_64 r) = true /\ Rabs (real (r_64 r)) <= M)) cols.
(** an analyzer whose sample rate was always below [top] and that only heard such samples, added or seeded *)
Inductive limited (P : platform) (E : ext) (M : R) (top : N) : ebur128 -> Prop :=
| limited_new channels rate m e : ebur128_new P E channels rate m = Ret (Ok e) -> supported m rate -> (rate < top)%N -> limited P E M top e
| limited_step e o r e' : limited P E M top e -> admissible e o ->
    match o with OpAdd a | OpSeed a => soft P (e_channels e) M a | OpChangeParameters _ rate => (rate < top)%N | _ => True end ->
    step P E e o = Ret (r, e') -> limited P E M top e'.

(** * Tones *)
Definition amplitude (p q : R) : R := sqrt (p * p + q * q).
(** the last [m] samples of the past and all new samples follow a sinusoid up to an error of [d] each *)
Definition carries_tone (m : nat) (rate f p q d : R) (past : list f32) (new : list reading) : Prop :=
  (m <= length past)%nat /\
  (forall i, (i < m)%nat -> let x := nth (length past - m + i) past f32_zero in
     BinarySingleNaN.is_finite x = true /\ Rabs (real32 x - sinusoid rate f p q i) <= d) /\
  (forall i r, nth_error new i = Some r ->
     BinarySingleNaN.is_finite (r_64 r) = true /\ Rabs (real (r_64 r) - sinusoid rate f p q (m + i)) <= d).
(** by how much the interpolation filter changes a sinusoid of [f] Hz, at most *)
Definition ripple (rate : N) (f eps : R) : Prop :=
  (rate < 96000)%N /\ f <= IZR (Z.of_N rate) / 4 /\ eps = 0.0041 \/
  (rate < 96000)%N /\ f <= 0.35 * IZR (Z.of_N rate) /\ eps = 0.0131 \/
  (96000 <= rate < 192000)%N /\ f <= 0.4 * IZR (Z.of_N rate) /\ eps = 0.0061.

(** signals of full scale with large true peaks *)
Definition signs (l : list Z) : list f32 := map f32_of_Z l.
Definition loud4 : list f32 := signs [-1; 1; -1; 1; -1; 1; 1; -1; 1; -1; 1; -1]%Z.
Definition loud2 : list f32 := signs [-1; 1; -1; 1; -1; 1; -1; 1; -1; 1; -1; 1; 1; -1; 1; -1; 1; -1; 1; -1; 1; -1; 1; -1]%Z.
