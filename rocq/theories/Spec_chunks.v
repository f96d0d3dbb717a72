(** Vocabulary for a programme measured in chunks, in the way the documentation of loudness_global_multiple describes (C75). *)
From Coq Require Import List Arith NArith ZArith Reals.
From Flocq Require IEEE754.BinarySingleNaN.
From Verif Require Import Prelude Float Env Filter Ebur128 Spec Spec_real Spec_coeff Spec_history Spec_accuracy Spec_exact Spec_programme.
Import ListNotations.
Local Open Scope nat_scope.

(** An analyzer, channel [c] of which was never marked Unused and was given the samples [seed] with seed_frames and then the
    samples [xs] with add_frames, since its construction or last reset; its window and parameters were not changed. *)
Inductive fed (P : platform) (E : ext) (c : nat) : ebur128 -> list track -> list f64 -> list f64 -> Prop :=
| fed_new channels rate m e :
    ebur128_new P E channels rate m = Ret (Ok e) -> supported m rate -> c < N.to_nat channels ->
    fed P E c e (blank (N.to_nat channels)) [] []
| fed_reset e t seed xs r e' :
    fed P E c e t seed xs -> step P E e OpReset = Ret (r, e') -> fed P E c e' (blank (e_channels e)) [] []
| fed_seed e t seed a r e' cols :
    fed P E c e t seed [] -> admissible e (OpSeed a) -> step P E e (OpSeed a) = Ret (r, e') -> input P (e_channels e) a = Some cols ->
    nth c (e_cmap e) Unused <> Unused ->
    fed P E c e' (tape_after P E e (OpSeed a) t) (seed ++ map r_64 (nth c cols [])) []
| fed_add e t seed xs a r e' cols :
    fed P E c e t seed xs -> admissible e (OpAdd a) -> step P E e (OpAdd a) = Ret (r, e') -> input P (e_channels e) a = Some cols ->
    nth c (e_cmap e) Unused <> Unused ->
    fed P E c e' (tape_after P E e (OpAdd a) t) seed (xs ++ map r_64 (nth c cols []))
| fed_other e t seed xs o r e' :
    fed P E c e t seed xs -> admissible e o -> step P E e o = Ret (r, e') ->
    (forall a, o <> OpAdd a) -> (forall a, o <> OpSeed a) -> o <> OpReset -> (forall w, o <> OpSetMaxWindow w) ->
    (forall n r, o <> OpChangeParameters n r) -> fed P E c e' t seed xs.

(** [n] samples from sample [a] on *)
Definition span (a n : nat) (xs : list f64) : list f64 := firstn n (skipn a xs).
(** an analyzer that was seeded with the 100 ms before frame [a] of [whole], if there are any, and has measured its frames
    from [a] up to [b] *)
Definition measures (P : platform) (E : ext) (whole : list (list f64)) (a b : nat) (e : ebur128) (t : list track) : Prop :=
  played P E e t /\ frames_of (signals t) = b - a /\
  forall c, c < e_channels e -> nth c (e_cmap e) Unused <> Unused ->
    fed P E c e t (span (a - hop e) (Nat.min a (hop e)) (nth c whole [])) (span a (b - a) (nth c whole [])).
(** The chunks after the first, which ends after [n] frames: each ends at the next of the [cuts] and is measured from 300 ms
    before the end of its predecessor, so that with the 100 ms for seeding the chunks overlap by 400 ms.  All but the last end
    at a multiple of 100 ms, [s] frames. *)
Fixpoint in_chunks (P : platform) (E : ext) (whole : list (list f64)) (s n : nat) (cuts : list nat) (ets : list (ebur128 * list track)) : Prop :=
  match cuts, ets with
  | [], [] => True
  | k :: cuts, (e, t) :: ets =>
      n mod s = 0 /\ 3 * s <= n <= k /\ measures P E whole (n - 3 * s) k e t /\ in_chunks P E whole s k cuts ets
  | _, _ => False
  end.
(** finite samples no larger than [M], for [n] frames, in the channels that count *)
Definition programme_of (M : R) (roles : list Filter.channel) (n : nat) (whole : list (list f64)) : Prop :=
  length whole = length roles /\
  forall c, c < length roles -> nth c roles Unused <> Unused -> samples_below M (nth c whole []) /\ length (nth c whole []) = n.
(** what [rms_error] is for one analyzer; the chunks begin after 100 ms and not with all that went before *)
Definition chunk_error (P : platform) (rate : N) (M : R) (roles : list Filter.channel) : R :=
  (sqrt (total (map weight roles)) * (filter_error P rate M + 1.05 / 10 ^ 6 * M))%R.
(** mode I without HISTOGRAM, this rate and these channels *)
Definition integrating (rate : N) (roles : list Filter.channel) (e : ebur128) : Prop :=
  e_rate e = rate /\ e_cmap e = roles /\ has_I (e_mode e) /\ ~ has_HISTOGRAM (e_mode e).
