(** Reference semantics, one channel at a time: plain list functions without
    ring buffers, unchecked accesses, panics or frame layout. The proofs show
    that the model of the code computes exactly these. *)
From Coq Require Import List Arith NArith ZArith Bool.
From Verif Require Import Prelude Float Env Utils Filter.
Import ListNotations.

(** The last [n] inputs, newest first, zero padded: pushing one more. *)
Definition push {T} (n : nat) (h : list T) (x : T) : list T := firstn n (x :: h).

(** One polyphase branch: taps applied to the newest inputs, accumulated in
    order from the newest. *)
Definition fir_phase (P : platform) (coeffs : list f32) (h : list f32) : f32 :=
  fold_left (fun acc '(c, x) => f32_scale_add P acc x c) (combine coeffs h) f32_zero.

(** The interpolated samples after one input; [filt] has one row per tap. *)
Definition fir (P : platform) (factor : nat) (filt : list (list f32)) (h : list f32) : list f32 :=
  map (fun f => fir_phase P (map (fun row => nth f row f32_zero) filt) h) (seq 0 factor).

(** larger value, NaN never selected *)
Definition max32 (pk v : f32) : f32 := if f32_gt v pk then v else pk.
Definition max64 (pk v : f64) : f64 := if f64_gt v pk then v else pk.

(** One channel of the true-peak meter: history and peak after inputs [xs]. *)
Fixpoint tp_run (P : platform) (taps factor : nat) (filt : list (list f32))
    (h : list f32) (pk : f32) (xs : list f32) : list f32 * f32 :=
  match xs with
  | [] => (h, pk)
  | x :: xs =>
      let h' := push taps h x in
      tp_run P taps factor filt h'
             (fold_left max32 (map f32_abs (fir P factor filt h')) pk) xs
  end.

(** pointwise combination of three lists *)
Fixpoint map3 {A B C D} (f : A -> B -> C -> D) (l : list A) (m : list B) (n : list C) : list D :=
  match l, m, n with
  | a :: l, b :: m, c :: n => f a b c :: map3 f l m n
  | _, _, _ => []
  end.
Fixpoint map4 {A B C D F} (f : A -> B -> C -> D -> F) (l : list A) (m : list B) (n : list C)
    (o : list D) : list F :=
  match l, m, n, o with
  | a :: l, b :: m, c :: n, d :: o => f a b c d :: map4 f l m n o
  | _, _, _, _ => []
  end.

(** [plane] with [ys] written at position [i] *)
Definition splice {A} (i : nat) (plane ys : list A) : list A :=
  firstn i plane ++ ys ++ skipn (i + length ys) plane.

(** One channel through the K-weighting filter: the output samples ... *)
Definition chan_ys {T} (P : platform) (S : sample T) (b a : arr5 f64) (st : arr5 f64) (xs : list T)
  : list f64 := snd (filter_run (ar64_ftz P) b a st (map (s_f64 S) xs)).
(** ... the plane they are written to (channels marked Unused are not filtered) ... *)
Definition chan_plane {T} (P : platform) (S : sample T) (b a : arr5 f64) (i : nat) (ch : channel)
    (st : arr5 f64) (plane : list f64) (xs : list T) : list f64 :=
  if channel_eqb ch Unused then plane else splice i plane (chan_ys P S b a st xs).
(** ... and the filter state afterwards. *)
Definition chan_state {T} (P : platform) (S : sample T) (b a : arr5 f64) (ch : channel)
    (st : arr5 f64) (xs : list T) : arr5 f64 :=
  if channel_eqb ch Unused then st
  else flush_state P (fst (filter_run (ar64_ftz P) b a st (map (s_f64 S) xs))).
(** Sample peak of one channel. *)
Definition chan_peak {T} (P : platform) (S : sample T) (pk : f64) (xs : list T) : f64 :=
  max64 pk (ftz64 P (f64_div (raw_max S xs) (s_max S))).

(** The [w] samples before ring position [i] of a plane, in the order the code
    sums them: the ones at the front of the plane first. *)
Definition ring_window (w i : nat) (plane : list f64) : list f64 :=
  if i <? w then firstn i plane ++ skipn (length plane - w + i) plane
  else firstn w (skipn (i - w) plane).

(** Weighted mean square of one window per channel. *)
Definition weighted_sum (cmap : list channel) (windows : list (list f64)) (acc : f64) : f64 :=
  fold_left (fun sum '(ch, ws) => if channel_eqb ch Unused then sum
                                  else f64_add sum (apply_weight ch (add_squares f64_zero ws)))
            (combine cmap windows) acc.
Definition block_energy (w : nat) (cmap : list channel) (windows : list (list f64)) : f64 :=
  f64_div (weighted_sum cmap windows f64_zero) (f64_of_nat w).
