(** Inverting the polarity of channels changes no answer (C56). *)
From Coq Require Import List Arith NArith ZArith Bool Lia.
From Flocq Require Import IEEE754.BinarySingleNaN.
From Verif Require Import Prelude Float Env Utils Interp History TruePeak Filter Ebur128 Ref Prelude_proofs Utils_proofs
  Filter_proofs Geometry_proofs History_proofs Ebur128_proofs Ops_proofs Chunk_proofs Spec Reach_proofs Input_proofs
  Trace_proofs Stream_proofs Energy_proofs Loud_proofs Peak_proofs Spec_symmetry Opposite_proofs Compare_proofs.
Import ListNotations.
Local Open Scope nat_scope.

Definition opp64 : f64 -> f64 -> Prop := opp_rel 53 1024.
Definition opp32 : f32 -> f32 -> Prop := opp_rel 24 128.
Lemma opp64_zero : opp64 f64_zero f64_zero.
Proof. right. exists false, false. auto. Qed.
Lemma opp32_zero : opp32 f32_zero f32_zero.
Proof. right. exists false, false. auto. Qed.
Lemma opp64_neg x : opp64 x (f64_neg x).
Proof. now left. Qed.
Lemma opp32_neg x : opp32 x (Bopp x).
Proof. now left. Qed.
Lemma opp64_flush x y : opp64 x y -> opp64 (flush64 x) (flush64 y).
Proof.
  intros [->|(s & s' & -> & ->)]; [|right; exists s, s'; split; reflexivity].
  destruct x as [s|s| |s m e B]; try (now left). unfold flush64. cbn [Bopp]. destruct (_ <? _)%Z; now left.
Qed.
Lemma opp32_flush x y : opp32 x y -> opp32 (flush32 x) (flush32 y).
Proof.
  intros [->|(s & s' & -> & ->)]; [|right; exists s, s'; split; reflexivity].
  destruct x as [s|s| |s m e B]; try (now left). unfold flush32. cbn [Bopp]. destruct (_ <? _)%Z; now left.
Qed.
Lemma opp64_ftz P x y : opp64 x y -> opp64 (ftz64 P x) (ftz64 P y).
Proof. unfold ftz64. destruct (p_ftz P); auto using opp64_flush. Qed.
Lemma opp32_ftz P x y : opp32 x y -> opp32 (ftz32 P x) (ftz32 P y).
Proof. unfold ftz32. destruct (p_ftz P); auto using opp32_flush. Qed.
Lemma opp64_Z z : opp64 (f64_of_Z z) (f64_of_Z (- z)).
Proof. unfold f64_of_Z, f64_bin. apply normalize_rel. Qed.
Lemma opp32_Z z : opp32 (f32_of_Z z) (f32_of_Z (- z)).
Proof. unfold f32_of_Z, f32_bin. apply normalize_rel. Qed.
Lemma opp64_of32 x y : opp32 x y -> opp64 (f64_of_f32 x) (f64_of_f32 y).
Proof.
  intros [->|(s & s' & -> & ->)]; [|right; exists s, s'; split; reflexivity].
  destruct x as [s|s| |s m e B]; try (now left). unfold f64_of_f32. cbn [Bopp]. rewrite cond_negb. apply normalize_rel.
Qed.
Lemma opp32_of64 x y : opp64 x y -> opp32 (f32_of_f64 x) (f32_of_f64 y).
Proof.
  intros [->|(s & s' & -> & ->)]; [|right; exists s, s'; split; reflexivity].
  destruct x as [s|s| |s m e B]; try (now left). unfold f32_of_f64. cbn [Bopp]. rewrite cond_negb. apply normalize_rel.
Qed.

(** ** Samples *)
Definition opp_reading (r r' : reading) : Prop :=
  r_level r = r_level r' /\ opp64 (r_64 r) (r_64 r') /\ opp32 (r_32 r) (r_32 r').
Definition neg_ok {T} (P : platform) (S : sample T) (neg : T -> T) : Prop :=
  forall x, opp_reading (read P S x) (read P S (neg x)).
Lemma read_opp {T} P (S : sample T) x y : opp64 (s_raw S x) (s_raw S y) -> opp64 (s_f64 S x) (s_f64 S y) ->
  opp32 (s_f32 S P x) (s_f32 S P y) -> opp_reading (read P S x) (read P S y).
Proof.
  intros H1 H2 H3. split; [|split]; auto. cbn [read r_level]. unfold f64_abs. now rewrite (abs_rel _ _ _ _ H1).
Qed.
Lemma neg_i16 P : neg_ok P smp_i16 Z.opp.
Proof.
  intros z. apply read_opp; cbn [smp_i16 s_raw s_f64 s_f32].
  - apply opp64_Z.
  - apply div_rel, opp64_Z.
  - apply opp32_ftz, div_rel, opp32_Z.
Qed.
Lemma neg_i32 P : neg_ok P smp_i32 Z.opp.
Proof.
  intros z. apply read_opp; cbn [smp_i32 s_raw s_f64 s_f32].
  - apply opp64_Z.
  - apply div_rel, opp64_Z.
  - apply opp32_ftz, div_rel, opp32_Z.
Qed.
Lemma neg_f32 P : neg_ok P smp_f32 (@Bopp 24 128).
Proof. intros z. apply read_opp; cbn [smp_f32 s_raw s_f64 s_f32]; auto using opp64_of32, opp32_neg. Qed.
Lemma neg_f64 P : neg_ok P smp_f64 f64_neg.
Proof.
  intros z. apply read_opp; cbn [smp_f64 s_raw s_f64 s_f32]; auto using opp64_neg, opp32_ftz, opp32_of64.
Qed.

(** ** Columns, one relation per channel *)
Fixpoint each {A B} (R : nat -> A -> B -> Prop) (c : nat) (l : list A) (m : list B) : Prop :=
  match l, m with
  | [], [] => True
  | a :: l, b :: m => R c a b /\ each R (S c) l m
  | _, _ => False
  end.
Lemma each_length {A B} (R : nat -> A -> B -> Prop) : forall l m c, each R c l m -> length l = length m.
Proof. induction l; intros [|b m] c H; cbn in *; try contradiction; auto. f_equal. apply (IHl m (S c)). tauto. Qed.
Lemma each_map {A B A' B'} (R : nat -> A -> B -> Prop) (Q : nat -> A' -> B' -> Prop) (f : A -> A') (g : B -> B') :
  (forall c a b, R c a b -> Q c (f a) (g b)) -> forall l m c, each R c l m -> each Q c (map f l) (map g m).
Proof. intros H. induction l; intros [|b m] c HE; cbn in *; try contradiction; auto. destruct HE. auto. Qed.
Lemma each_map2 {A B A' B' A2 B2} (R : nat -> A -> A' -> Prop) (Q : nat -> B -> B' -> Prop) (Z : nat -> A2 -> B2 -> Prop) f g :
  (forall c a a' b b', R c a a' -> Q c b b' -> Z c (f a b) (g a' b')) ->
  forall l l' m m' c, each R c l l' -> each Q c m m' -> each Z c (map2 f l m) (map2 g l' m').
Proof.
  intros H. induction l; intros [|b l'] [|x m] [|y m'] c H1 H2; cbn in *; try contradiction; auto.
  destruct H1, H2. auto.
Qed.
Lemma each_nth {A B} (R : nat -> list A -> list B -> Prop) : (forall c, R c [] []) ->
  forall l m k n, each R k l m -> R (k + n) (nth n l []) (nth n m []).
Proof.
  intros H0. induction l; intros [|b m] k n HE; cbn in *; try contradiction.
  - destruct n; apply H0.
  - destruct HE as (H1 & H2). destruct n as [|n]; [now rewrite Nat.add_0_r|]. rewrite <- plus_n_Sm. apply (IHl m (S k) n H2).
Qed.
Lemma each_repeat {A B} (R : nat -> A -> B -> Prop) a b : (forall c, R c a b) -> forall n c, each R c (repeat a n) (repeat b n).
Proof. intros H. induction n; intros c; cbn; auto. Qed.
Lemma each_seq {A B} (R : nat -> A -> B -> Prop) f g n : forall k, (forall c, k <= c < k + n -> R c (f c) (g c)) ->
  each R k (map f (seq k n)) (map g (seq k n)).
Proof. induction n; intros k H; cbn; auto. split; [apply H; lia|]. apply IHn. intros c Hc. apply H. lia. Qed.

Section Polarity.
Variable flips : nat -> bool.
(** [R] in the flipped channels, equality in the others *)
Definition in_flips {A} (R : A -> A -> Prop) (c : nat) (x y : A) : Prop := if flips c then R x y else x = y.
Lemma in_flips_map {A B} (R : A -> A -> Prop) (Q : B -> B -> Prop) (f : A -> B) :
  (forall a b, R a b -> Q (f a) (f b)) -> forall c a b, in_flips R c a b -> in_flips Q c (f a) (f b).
Proof. unfold in_flips. intros H c a b. destruct (flips c); auto. congruence. Qed.
Lemma in_flips_map2 {A B C} (R : A -> A -> Prop) (Q : B -> B -> Prop) (Z : C -> C -> Prop) (f : A -> B -> C) :
  (forall a a' b b', R a a' -> Q b b' -> Z (f a b) (f a' b')) ->
  forall c a a' b b', in_flips R c a a' -> in_flips Q c b b' -> in_flips Z c (f a b) (f a' b').
Proof. unfold in_flips. intros H c a a' b b'. destruct (flips c); auto. congruence. Qed.
Lemma in_flips_refl {A} (R : A -> A -> Prop) x c : R x x -> in_flips R c x x.
Proof. unfold in_flips. destruct (flips c); auto. Qed.

Definition flipped (x y : list (list reading)) : Prop := each (in_flips (Forall2 opp_reading)) 0 x y.

(** ** Input *)
Lemma Forall2_eq_refl {A} (R : A -> A -> Prop) l : (forall x, R x x) -> Forall2 R l l.
Proof. intros H. induction l; auto. Qed.
Lemma flip_planes_ok {T} P (S : sample T) neg : neg_ok P S neg -> forall l k,
  each (in_flips (Forall2 opp_reading)) k (map (map (read P S)) l)
    (map (map (read P S)) (map (fun '(c, p) => if flips c then map neg p else p) (combine (seq k (length l)) l))).
Proof.
  intros H. induction l as [|p l IH]; intros k; cbn; auto. split; auto. unfold in_flips. destruct (flips k); auto.
  induction p; cbn; auto.
Qed.
Lemma flip_planes_lengths {T} (neg : T -> T) l : map (@length T) (flip_planes neg flips l) = map (@length T) l.
Proof.
  unfold flip_planes. generalize 0. induction l as [|p l IH]; intros k; cbn; auto. rewrite IH. f_equal.
  destruct (flips k); auto using map_length.
Qed.
Lemma planar_flipped {T} P (S : sample T) neg l : neg_ok P S neg ->
  same_input flipped (planar_input P S l) (planar_input P S (flip_planes neg flips l)).
Proof.
  intros H. pose proof (flip_planes_lengths neg l) as HL. pose proof (flip_planes_ok P S neg H l 0) as HE.
  change (map (fun '(c, p) => if flips c then map neg p else p) (combine (seq 0 (length l)) l)) with (flip_planes neg flips l) in HE.
  unfold planar_input. destruct l as [|p l], (flip_planes neg flips _) as [|q m]; cbn [map] in HL; try discriminate; [exact I|].
  assert (forall n (a b : list (list T)), map (@length T) a = map (@length T) b ->
    forallb (fun q => length q =? n) a = forallb (fun q => length q =? n) b) as HF.
  { intros n. induction a; intros [|y b] Hab; cbn in *; try discriminate; auto. injection Hab as -> Hab. now rewrite (IHa b). }
  pose proof (HF (length p) (p :: l) (q :: m) (eq_sym HL)) as HF1. injection HL as HL1 HL2. rewrite HL1.
  rewrite <- HF1. destruct (forallb _ _); cbn [same_input]; auto.
Qed.
Lemma nth_flip {T} (neg : T -> T) C l k : nth_error (flip_interleaved neg flips C l) k =
  match nth_error l k with Some x => Some (if flips (k mod C) then neg x else x) | None => None end.
Proof.
  unfold flip_interleaved.
  assert (forall s, nth_error (map (fun '(k, x) => if flips (k mod C) then neg x else x) (combine (seq s (length l)) l)) k =
    match nth_error l k with Some x => Some (if flips ((s + k) mod C) then neg x else x) | None => None end) as H.
  { revert k. induction l as [|a l IH]; intros [|k] s; cbn [length seq combine map nth_error]; auto.
    - now rewrite Nat.add_0_r.
    - rewrite IH. now replace (s + S k) with (S s + k) by lia. }
  apply (H 0).
Qed.
Lemma flip_length {T} (neg : T -> T) C l : length (flip_interleaved neg flips C l) = length l.
Proof. unfold flip_interleaved. rewrite map_length, combine_length, seq_length. lia. Qed.
Lemma channel_flipped {T} P (S : sample T) neg C c l : neg_ok P S neg -> c < C ->
  in_flips (Forall2 opp_reading) c (channel_samples C c (map (read P S) l))
    (channel_samples C c (map (read P S) (flip_interleaved neg flips C l))).
Proof.
  intros H Hc. unfold channel_samples. rewrite !map_length, flip_length.
  assert (forall k, (k * C + c) mod C = c) as Hm.
  { intros k. rewrite Nat.add_comm, Nat.mod_add, Nat.mod_small; lia. }
  unfold in_flips. induction (seq 0 (length l / C)) as [|k ks IH]; cbn [flat_map].
  - destruct (flips c); auto.
  - rewrite !nth_error_map, nth_flip, Hm. destruct (flips c) eqn:Ef.
    + apply Forall2_app; auto. destruct (nth_error l (k * C + c)); cbn; auto.
    + rewrite IH. f_equal. destruct (nth_error l (k * C + c)); cbn; auto.
Qed.
Lemma interleaved_flipped {T} P (S : sample T) neg C l : neg_ok P S neg ->
  same_input flipped (interleaved_input P S C l) (interleaved_input P S C (flip_interleaved neg flips C l)).
Proof.
  intros H. unfold interleaved_input. rewrite flip_length. destruct (_ =? 0); cbn [same_input]; auto.
  unfold flipped, deinterleave. apply each_seq. intros c Hc. apply channel_flipped; auto. lia.
Qed.
Lemma input_flipped P C a : same_input flipped (input P C a) (input P C (invert flips C a)).
Proof.
  destruct a; cbn [input invert];
    (apply interleaved_flipped || apply planar_flipped); auto using neg_i16, neg_i32, neg_f32, neg_f64.
Qed.

(** ** The filter *)
Definition opp5 (s t : arr5 f64) : Prop :=
  opp64 (v0 s) (v0 t) /\ opp64 (v1 s) (v1 t) /\ opp64 (v2 s) (v2 t) /\ opp64 (v3 s) (v3 t) /\ opp64 (v4 s) (v4 t).
Lemma step_opp P b a s t x y : opp5 s t -> opp64 x y ->
  opp5 (fst (filter_step (ar64_ftz P) b a s x)) (fst (filter_step (ar64_ftz P) b a t y)) /\
  opp64 (snd (filter_step (ar64_ftz P) b a s x)) (snd (filter_step (ar64_ftz P) b a t y)).
Proof.
  intros (H0 & H1 & H2 & H3 & H4) Hx. unfold filter_step. cbn [ar_add ar_sub ar_mul ar64_ftz].
  assert (forall c u v, opp64 u v -> opp64 (ftz64 P (f64_mul c u)) (ftz64 P (f64_mul c v))) as HM
    by (intros; now apply opp64_ftz, mult_rel).
  assert (forall a b c d, opp64 a b -> opp64 c d -> opp64 (ftz64 P (f64_sub a c)) (ftz64 P (f64_sub b d))) as HS
    by (intros; now apply opp64_ftz, minus_rel).
  assert (forall a b c d, opp64 a b -> opp64 c d -> opp64 (ftz64 P (f64_add a c)) (ftz64 P (f64_add b d))) as HA
    by (intros; now apply opp64_ftz, plus_rel).
  cbn [fst snd].
  match goal with |- opp5 {| v0 := ?p; v1 := _; v2 := _; v3 := _; v4 := _ |} {| v0 := ?q; v1 := _; v2 := _; v3 := _; v4 := _ |} /\ _ =>
    assert (opp64 p q) as H by auto 10 end.
  split; [repeat split; cbn [v0 v1 v2 v3 v4]; auto|]. auto 12.
Qed.
Lemma run_opp P b a : forall xs ys s t, opp5 s t -> Forall2 opp64 xs ys ->
  opp5 (fst (filter_run (ar64_ftz P) b a s xs)) (fst (filter_run (ar64_ftz P) b a t ys)) /\
  Forall2 opp64 (snd (filter_run (ar64_ftz P) b a s xs)) (snd (filter_run (ar64_ftz P) b a t ys)).
Proof.
  induction xs as [|x xs IH]; intros ys s t Hs HF; inversion HF; subst; cbn [filter_run fst snd]; auto.
  destruct (step_opp P b a s t x y Hs) as (S1 & S2); auto.
  destruct (filter_step _ b a s x) as (s1 & o1), (filter_step _ b a t y) as (t1 & o2). cbn [fst snd] in *.
  destruct (IH l' s1 t1 S1) as (R1 & R2); auto.
  destruct (filter_run _ b a s1 xs), (filter_run _ b a t1 l'). cbn [fst snd] in *. auto.
Qed.
Lemma eps_opp x y : opp64 x y -> opp64 (eps_flush x) (eps_flush y).
Proof.
  intros H. unfold eps_flush, f64_abs. rewrite (abs_rel _ _ _ _ H). destruct (f64_lt _ _); auto using opp64_zero.
Qed.
Lemma flush_opp P s t : opp5 s t -> opp5 (flush_state P s) (flush_state P t).
Proof.
  intros (H0 & H1 & H2 & H3 & H4). unfold flush_state. destruct (p_ftz P); [now repeat split|].
  repeat split; cbn [v0 v1 v2 v3 v4]; now apply eps_opp.
Qed.
Definition opp_track (a b : track) : Prop := opp5 (fst a) (fst b) /\ Forall2 opp64 (snd a) (snd b).
Lemma Forall2_map_both {A B C D} (R : A -> B -> Prop) (Q : C -> D -> Prop) f g :
  (forall a b, R a b -> Q (f a) (g b)) -> forall l m, Forall2 R l m -> Forall2 Q (map f l) (map g m).
Proof. intros H. induction 1; cbn; auto. Qed.
Lemma weigh_opp P E rate s t xs ys : opp5 s t -> Forall2 opp_reading xs ys ->
  opp5 (fst (weigh P E rate s xs)) (fst (weigh P E rate t ys)) /\
  Forall2 opp64 (snd (weigh P E rate s xs)) (snd (weigh P E rate t ys)).
Proof.
  intros Hs HF. unfold weigh. destruct (filter_coefficients E (f64_of_N rate)) as (b & a).
  destruct (run_opp P b a (map r_64 xs) (map r_64 ys) s t Hs) as (R1 & R2).
  { eapply Forall2_map_both; [|exact HF]. intros ? ? (_ & H & _). exact H. }
  destruct (filter_run _ b a s _), (filter_run _ b a t _). cbn [fst snd] in *. auto using flush_opp.
Qed.
Lemma Forall2_firstn' {A B} (R : A -> B -> Prop) l m : Forall2 R l m -> forall n, Forall2 R (firstn n l) (firstn n m).
Proof. induction 1; intros [|n]; cbn; auto. Qed.
Lemma Forall2_skipn' {A B} (R : A -> B -> Prop) l m : Forall2 R l m -> forall n, Forall2 R (skipn n l) (skipn n m).
Proof. induction 1; intros [|n]; cbn; auto. Qed.
Lemma Forall2_nth' {A B} (R : A -> B -> Prop) d d' l m : R d d' -> Forall2 R l m -> forall n, R (nth n l d) (nth n m d').
Proof. intros H0. induction 1; intros [|n]; cbn; auto. Qed.
Lemma Forall2_length' {A B} (R : A -> B -> Prop) l m : Forall2 R l m -> length l = length m.
Proof. induction 1; cbn; auto. Qed.
Lemma hold_opp L n : forall l m, Forall2 opp64 l m -> Forall2 opp64 (hold L n l) (hold L n m).
Proof.
  induction n; intros l m H; cbn [hold]; auto. apply IHn. apply Forall2_app; auto. constructor; auto.
  unfold stale. rewrite (Forall2_length' _ _ _ H). destruct (_ <? _); [|apply Forall2_nth'; auto]; apply opp64_zero.
Qed.
Lemma track_opp P E e f ch a b xs ys : e_rate e = e_rate f -> capacity e = capacity f ->
  opp_track a b -> Forall2 opp_reading xs ys -> opp_track (track_after P E e ch a xs) (track_after P E f ch b ys).
Proof.
  intros HR HC (H1 & H2) HF. unfold track_after. rewrite HR, HC. destruct (unused ch).
  - split; auto. cbn [fst snd]. rewrite (Forall2_length' _ _ _ HF). now apply hold_opp.
  - destruct (weigh_opp P E (e_rate f) _ _ _ _ H1 HF) as (W1 & W2).
    destruct (weigh P E (e_rate f) (fst a) xs), (weigh P E (e_rate f) (fst b) ys). split; auto. apply Forall2_app; auto.
Qed.
Lemma track_eq P E e f : e_rate e = e_rate f -> capacity e = capacity f -> forall ch tr xs,
  track_after P E e ch tr xs = track_after P E f ch tr xs.
Proof. intros HR HC ch tr xs. unfold track_after. now rewrite HR, HC. Qed.
Lemma seed_opp P E e f ch a b xs ys : e_rate e = e_rate f ->
  opp_track a b -> Forall2 opp_reading xs ys -> opp_track (seed_track P E e ch a xs) (seed_track P E f ch b ys).
Proof.
  intros HR (H1 & H2) HF. unfold seed_track. rewrite HR. destruct (unused ch); [now split|].
  destruct (weigh_opp P E (e_rate f) _ _ _ _ H1 HF) as (W1 & W2). now split.
Qed.

(** ** The hypotheses of the comparison *)
Definition flip_tracks (t u : list track) : Prop := each (in_flips opp_track) 0 t u.
Lemma flipped_frames x y : flipped x y -> frames_of x = frames_of y.
Proof.
  unfold flipped, frames_of. destruct x, y; cbn; try contradiction; auto. intros (H & _). unfold in_flips in H.
  destruct (flips 0); [eapply Forall2_length'; eauto|congruence].
Qed.
Lemma flipped_cut k x y : flipped x y -> flipped (map (firstn k) x) (map (firstn k) y) /\ flipped (map (skipn k) x) (map (skipn k) y).
Proof.
  intros H. split; (eapply each_map; [|exact H]); intros c a b; apply in_flips_map; intros.
  - now apply Forall2_firstn'.
  - now apply Forall2_skipn'.
Qed.
Lemma tracks_frames t u : flip_tracks t u -> frames_of (signals t) = frames_of (signals u).
Proof.
  unfold flip_tracks, frames_of. destruct t, u; cbn; try contradiction; auto. intros (H & _). unfold in_flips in H.
  destruct (flips 0); [eapply Forall2_length'; apply H|congruence].
Qed.
Lemma opp5_zero : opp5 zero5 zero5.
Proof. repeat split; apply opp64_zero. Qed.
Lemma tracks_blank C : flip_tracks (blank C) (blank C).
Proof. apply each_repeat. intros c. apply in_flips_refl. split; cbn; auto using opp5_zero. Qed.
Lemma tracks_window t u : flip_tracks t u -> flip_tracks (map (fun tr => (fst tr, [])) t) (map (fun tr => (fst tr, [])) u).
Proof. apply each_map. intros c a b. apply (in_flips_map _ _ (fun tr : track => (fst tr, []))). intros x y (H & _). split; cbn; auto. Qed.
Lemma tracks_cut k t u : flip_tracks t u -> flip_tracks (cut_track k t) (cut_track k u).
Proof.
  apply each_map. intros c a b. apply (in_flips_map _ _ (fun tr : track => (fst tr, firstn k (snd tr)))).
  intros x y (H & H'). split; cbn; auto using Forall2_firstn'.
Qed.
Lemma per_channel_each (f g : Filter.channel -> track -> list reading -> track) :
  (forall ch tr xs, f ch tr xs = g ch tr xs) ->
  (forall ch a b xs ys, opp_track a b -> Forall2 opp_reading xs ys -> opp_track (f ch a xs) (g ch b ys)) ->
  forall cm t u x y c, each (in_flips opp_track) c t u -> each (in_flips (Forall2 opp_reading)) c x y ->
  each (in_flips opp_track) c (per_channel f cm t x) (per_channel g cm u y).
Proof.
  intros HE HR. induction cm as [|ch cm IH]; intros [|a t] [|b u] [|xs x] [|ys y] c H1 H2; cbn in *; try contradiction; auto.
  destruct H1 as (H1 & H1'), H2 as (H2 & H2'). split; [|now apply IH].
  unfold in_flips in *. destruct (flips c); auto. subst. apply HE.
Qed.
Lemma squares_opp l m : Forall2 opp64 l m -> sum_of_squares l = sum_of_squares m.
Proof.
  unfold sum_of_squares. intros H. generalize f64_zero. induction H as [|x y l m Hxy H IH]; intros s; cbn [fold_left]; auto.
  unfold f64_mul. rewrite (square_rel _ _ _ _ _ _ Hxy). apply IH.
Qed.
Lemma ring_opp i l m : Forall2 opp64 l m -> Forall2 opp64 (ring_order i l) (ring_order i m).
Proof.
  intros H. unfold ring_order. rewrite (Forall2_length' _ _ _ H). destruct (_ <? _); auto.
  apply Forall2_app; auto using Forall2_firstn', Forall2_skipn'.
Qed.
Lemma recent_opp w l m : Forall2 opp64 l m -> Forall2 opp64 (recent w l) (recent w m).
Proof.
  intros H. unfold recent. rewrite (Forall2_length' _ _ _ H). apply Forall2_skipn'. apply Forall2_app; auto.
  induction w; cbn; auto using opp64_zero.
Qed.
Lemma energy_flipped L w cm t u : flip_tracks t u -> energy L w cm (signals t) = energy L w cm (signals u).
Proof.
  unfold energy, flip_tracks. intros H. f_equal. revert H. generalize 0. generalize f64_zero. revert t u.
  induction cm as [|ch cm IH]; intros [|a t] [|b u] s c H; cbn in H; try contradiction; auto.
  destruct H as (H & H'). cbn [signals map combine fold_left].
  assert (sum_of_squares (ring_order (length (snd a) mod L) (recent w (snd a))) =
          sum_of_squares (ring_order (length (snd b) mod L) (recent w (snd b)))) as ->.
  { unfold in_flips in H. destruct (flips c); [|now subst]. destruct H as (_ & H).
    rewrite (Forall2_length' _ _ _ H). apply squares_opp, ring_opp, recent_opp, H. }
  destruct (unused ch); eapply IH; eauto.
Qed.

(** ** Peaks *)
Definition flip_logs (a b : log) : Prop :=
  each (in_flips (Forall2 opp_reading)) 0 (lg_heard a) (lg_heard b) /\
  each (in_flips (Forall2 opp_reading)) 0 (lg_last a) (lg_last b) /\
  each (in_flips (Forall2 opp32)) 0 (lg_past a) (lg_past b) /\
  each (in_flips (Forall2 opp32)) 0 (lg_inter a) (lg_inter b) /\
  each (in_flips (Forall2 opp32)) 0 (lg_inter_last a) (lg_inter_last b).
Lemma scale_opp P a a' x x' k : opp32 a a' -> opp32 x x' -> opp32 (f32_scale_add P a x k) (f32_scale_add P a' x' k).
Proof.
  intros Ha Hx. unfold f32_scale_add. destruct (p_fma P); apply opp32_ftz.
  - now apply fma_rel.
  - apply plus_rel; auto. now apply opp32_ftz, mult_rel_l.
Qed.
Lemma interpolated_opp P E taps factor xs ys n f : Forall2 opp32 xs ys ->
  opp32 (interpolated P E taps factor xs n f) (interpolated P E taps factor ys n f).
Proof.
  intros H. unfold interpolated.
  assert (forall l a a', opp32 a a' ->
    opp32 (fold_left (fun acc k => f32_scale_add P acc (sample_before xs n k) (hann_sinc E factor (k * factor + f))) l a)
          (fold_left (fun acc k => f32_scale_add P acc (sample_before ys n k) (hann_sinc E factor (k * factor + f))) l a')) as HF.
  { induction l as [|k l IH]; intros a a' Ha; cbn [fold_left]; auto. apply IH. apply scale_opp; auto.
    unfold sample_before. destruct (k <=? n); [apply Forall2_nth'; auto|]; apply opp32_zero. }
  apply HF, opp32_zero.
Qed.
Lemma oversampled_opp P E rate xs ys k : Forall2 opp32 xs ys ->
  Forall2 opp32 (oversampled P E rate xs k) (oversampled P E rate ys k).
Proof.
  intros H. unfold oversampled. rewrite (Forall2_length' _ _ _ H). destruct (oversampling rate) as [(taps & factor)|]; auto.
  induction (seq k (length ys - k)) as [|n l IH]; cbn [flat_map]; auto. apply Forall2_app; auto.
  clear IH. induction (seq 0 factor); cbn; auto using interpolated_opp.
Qed.
Lemma each_join {A} (R : A -> A -> Prop) x x' y y' : each (in_flips (Forall2 R)) 0 x x' -> each (in_flips (Forall2 R)) 0 y y' ->
  each (in_flips (Forall2 R)) 0 (join x y) (join x' y').
Proof. apply each_map2. intros c. apply (in_flips_map2 _ _ _ (@app A)). intros. now apply Forall2_app. Qed.
Lemma new_32 x y : flipped x y -> each (in_flips (Forall2 opp32)) 0 (map (map r_32) x) (map (map r_32) y).
Proof.
  apply each_map. intros c. apply in_flips_map. intros a b H. eapply Forall2_map_both; [|exact H]. intros ? ? (_ & _ & K). exact K.
Qed.
Lemma each_nil {A} (R : A -> A -> Prop) C : each (in_flips (Forall2 R)) 0 (no_audio C) (no_audio C).
Proof. apply each_repeat. intros c. apply in_flips_refl. constructor. Qed.
Lemma logs_add P E rate lg lg' x y : flip_logs lg lg' -> flipped x y ->
  flip_logs (log_added P E rate lg x) (log_added P E rate lg' y).
Proof.
  intros (H1 & H2 & H3 & H4 & H5) HX. pose proof (new_32 x y HX) as HN.
  assert (each (in_flips (Forall2 opp32)) 0 (oversample_new P E rate (lg_past lg) (map (map r_32) x))
            (oversample_new P E rate (lg_past lg') (map (map r_32) y))) as HO.
  { unfold oversample_new. eapply each_map2; [|exact H3|exact HN]. intros c.
    apply (in_flips_map2 _ _ _ (fun xs ys => oversampled P E rate (xs ++ ys) (length xs))).
    intros a a' b b' Ha Hb. rewrite (Forall2_length' _ _ _ Ha). apply oversampled_opp. now apply Forall2_app. }
  unfold log_added. repeat split; cbn [lg_heard lg_last lg_past lg_inter lg_inter_last]; auto; apply each_join; auto.
Qed.
Lemma logs_seed lg lg' x y : flip_logs lg lg' -> flipped x y -> flip_logs (log_seeded lg x) (log_seeded lg' y).
Proof.
  intros (H1 & H2 & H3 & H4 & H5) HX. pose proof (new_32 x y HX) as HN.
  unfold log_seeded. repeat split; cbn [lg_heard lg_last lg_past lg_inter lg_inter_last]; auto; apply each_join; auto.
Qed.
Lemma logs_restart C lg lg' : flip_logs lg lg' -> flip_logs (log_restarted C lg) (log_restarted C lg').
Proof.
  intros (H1 & H2 & H3 & H4 & H5). unfold log_restarted. repeat split; cbn [lg_heard lg_last lg_past lg_inter lg_inter_last]; auto using each_nil.
Qed.
Lemma logs_empty C : flip_logs (empty_log C) (empty_log C).
Proof. repeat split; apply each_nil. Qed.
Lemma levels_flipped x y c : each (in_flips (Forall2 opp_reading)) 0 x y -> levels (channel c x) = levels (channel c y).
Proof.
  intros H. apply (each_nth _ (fun c => in_flips_refl _ [] c (Forall2_nil _)) x y 0 (N.to_nat c)) in H.
  unfold channel, in_flips in *. destruct (flips _); [|now rewrite H]. unfold levels.
  induction H as [|? ? ? ? (H & _)]; cbn; auto. congruence.
Qed.
Lemma top32_flipped x y c : each (in_flips (Forall2 opp32)) 0 x y -> top32 (channel c x) = top32 (channel c y).
Proof.
  intros H. apply (each_nth _ (fun c => in_flips_refl _ [] c (Forall2_nil _)) x y 0 (N.to_nat c)) in H.
  unfold channel, in_flips in *. destruct (flips _); [|now rewrite H]. unfold top32. f_equal.
  induction H as [|? ? ? ? H]; cbn; auto. f_equal; auto. exact (abs_rel _ _ _ _ H).
Qed.
End Polarity.

(** every query about peaks is answered from the logs *)
Lemma peak_query_cases P E e f lg lg' c d : is_64bit P -> logged P E e lg -> logged P E f lg' ->
  e_channels f = e_channels e -> e_mode f = e_mode e ->
  ((c <? N.of_nat (e_channels e))%N = (d <? N.of_nat (e_channels e))%N) ->
  levels (channel c (lg_heard lg)) = levels (channel d (lg_heard lg')) ->
  levels (channel c (lg_last lg)) = levels (channel d (lg_last lg')) ->
  top32 (channel c (lg_inter lg)) = top32 (channel d (lg_inter lg')) ->
  top32 (channel c (lg_inter_last lg)) = top32 (channel d (lg_inter_last lg')) ->
  sample_peak e c = sample_peak f d /\ prev_sample_peak e c = prev_sample_peak f d /\
  true_peak e c = true_peak f d /\ prev_true_peak e c = prev_true_peak f d.
Proof.
  intros HP Hl Hl' HC HM Hcd H1 H2 H3 H4.
  destruct (N.ltb_spec c (N.of_nat (e_channels e))) as [Hc|Hc]; symmetry in Hcd.
  - apply N.ltb_lt in Hcd. pose proof Hcd as Hd. rewrite <- HC in Hd.
    destruct (peak_answers P E e lg c HP Hl Hc) as (A1 & A2). destruct (peak_answers P E f lg' d HP Hl' Hd) as (B1 & B2).
    rewrite HM in B1, B2. rewrite <- H1, <- H2 in B1. rewrite <- H1, <- H2, <- H3, <- H4 in B2.
    assert (sample_peak e c = sample_peak f d /\ prev_sample_peak e c = prev_sample_peak f d) as (K1 & K2).
    { destruct (contains (e_mode e) MODE_SAMPLE_PEAK) eqn:Em.
      - apply has_SP in Em. destruct (A1 Em) as (-> & ->). destruct (B1 Em) as (-> & ->). auto.
      - unfold sample_peak, prev_sample_peak, peak_query. rewrite HM, Em. auto. }
    assert (true_peak e c = true_peak f d /\ prev_true_peak e c = prev_true_peak f d) as (K3 & K4).
    { destruct (contains (e_mode e) MODE_TRUE_PEAK) eqn:Em.
      - apply has_TP in Em. destruct (A2 Em) as (-> & ->). destruct (B2 Em) as (-> & ->). auto.
      - unfold true_peak, prev_true_peak, peak_query. rewrite HM, Em. auto. }
    auto.
  - apply N.ltb_ge in Hcd. unfold sample_peak, prev_sample_peak, true_peak, prev_true_peak, peak_query, max_peak.
    rewrite HM, HC. destruct (N.leb_spec (N.of_nat (e_channels e)) c); [|lia].
    destruct (N.leb_spec (N.of_nat (e_channels e)) d); [|lia].
    repeat split; destruct (negb _); auto.
Qed.

Lemma inverted_comp P E flips : forall e f e' f', inverted_session P E flips e f e' f' ->
  comp_session P E (flipped flips) (fun _ o o' => o = o') e f e' f'.
Proof.
  induction 1 as [e f|e f o r r' e1 f1 e2 f2 Ha Ha' Hs Hs' HS IH]; [constructor|].
  apply (comp_cons P E (flipped flips) _ e f o (inverted_op flips (e_channels e) o) r r' e1 f1 e2 f2); auto.
  destruct o; cbn [inverted_op comp_call]; auto; apply input_flipped.
Qed.
Lemma same_map_step P E e f o o' r r' e' f' : sets_map o = true -> sets_map o' = true -> o = o' ->
  e_channels e = e_channels f -> length (e_cmap e) = e_channels e -> e_cmap e = e_cmap f ->
  step P E e o = Ret (r, e') -> step P E f o' = Ret (r', f') ->
  exists m m', e' = with_cmap e m /\ f' = with_cmap f m' /\ m = m'.
Proof.
  intros H1 H2 <- A3 Hl A4 Hs Hs'.
  assert (forall e : ebur128, e = with_cmap e (e_cmap e)) as Hid by (intros []; reflexivity).
  destruct o as [number v|m|c rt|w|h| |a|a]; try discriminate; cbn [step] in Hs, Hs'.
  - unfold set_channel in Hs, Hs'. rewrite A3, A4 in Hs.
    destruct (N.of_nat (e_channels f) <=? number)%N.
    { apply Ret_pair_inj in Hs, Hs'. destruct Hs as (_ & <-). destruct Hs' as (_ & <-). eauto. }
    destruct (dual_mono_bad _ _ _).
    { apply Ret_pair_inj in Hs, Hs'. destruct Hs as (_ & <-). destruct Hs' as (_ & <-). eauto. }
    destruct (set_idx (e_cmap f) (N.to_nat number) v) as [cm| | |]; try discriminate. cbn [obind] in Hs, Hs'.
    apply Ret_pair_inj in Hs, Hs'. destruct Hs as (_ & <-). destruct Hs' as (_ & <-). eauto.
  - unfold set_channel_map in Hs, Hs'. rewrite A3, A4 in Hs.
    destruct (negb (length m =? e_channels f)).
    { apply Ret_pair_inj in Hs, Hs'. destruct Hs as (_ & <-). destruct Hs' as (_ & <-). eauto. }
    destruct (map_has_bad_dual_mono _ _ _).
    { apply Ret_pair_inj in Hs, Hs'. destruct Hs as (_ & <-). destruct Hs' as (_ & <-). eauto. }
    destruct (length (e_cmap f) =? length m); [|discriminate]. cbn [obind] in Hs, Hs'.
    apply Ret_pair_inj in Hs, Hs'. destruct Hs as (_ & <-). destruct Hs' as (_ & <-). eauto.
Qed.
Lemma polarity P E flips channels rate m e e' f' : is_64bit P -> ebur128_new P E channels rate m = Ret (Ok e) ->
  supported m rate -> inverted_session P E flips e e e' f' ->
  settings e' = settings f' /\ recorded e' = recorded f' /\ forall q, ask P E e' q = ask P E f' q.
Proof.
  intros HP Hn Hs HS. apply inverted_comp in HS.
  assert (paired eq e' f' /\ forall q, about_loudness q = true -> ask P E e' q = ask P E f' q) as ([] & HQ).
  { eapply (compared P E HP eq (flip_tracks flips) (flipped flips) (fun _ o o' => o = o')); try exact HS; eauto.
    - apply flipped_frames.
    - apply flipped_cut.
    - apply tracks_frames.
    - apply tracks_blank.
    - apply tracks_window.
    - apply tracks_cut.
    - intros x y t u a b HR HC <- _ _ HT HX. apply per_channel_each; auto.
      + intros. now apply track_eq.
      + intros. now apply track_opp.
    - intros x y t u a b HR <- _ _ HT HX. apply per_channel_each; auto.
      + intros. unfold seed_track. now rewrite HR.
      + intros. now apply seed_opp.
    - intros L w cm cm' t u <- _ HT. now apply (energy_flipped flips).
    - apply same_map_step. }
  split; [unfold settings; congruence|]. split; [unfold recorded; congruence|].
  intros q. destruct (about_loudness q) eqn:Eq; [auto|].
  pose proof (logged_new P E channels rate m e Hn Hs) as Hl.
  destruct (logs_sessions P E HP (flipped flips) (flip_logs flips) (fun _ o o' => o = o')) with (6 := HS) (7 := Hl) (8 := Hl)
    as (lg & lg' & L1 & L2 & (G1 & G2 & G3 & G4 & G5) & C & M); auto.
  - apply flipped_frames.
  - apply logs_empty.
  - intros. now apply logs_add.
  - intros. now apply logs_seed.
  - intros. now apply logs_restart.
  - apply logs_empty.
  - assert (forall c, sample_peak e' c = sample_peak f' c /\ prev_sample_peak e' c = prev_sample_peak f' c /\
      true_peak e' c = true_peak f' c /\ prev_true_peak e' c = prev_true_peak f' c) as HK.
    { intros c. apply (peak_query_cases P E e' f' lg lg'); auto; (eapply levels_flipped || eapply top32_flipped); eauto. }
    destruct q as [| | | | | | |c|c|c|c]; try discriminate; cbn [ask]; destruct (HK c) as (K1 & K2 & K3 & K4); congruence.
Qed.
