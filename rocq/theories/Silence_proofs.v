(** Silence (C47). *)
From Coq Require Import List Arith NArith ZArith Bool Lia Permutation Reals Lra.
From Flocq Require Import Core.Core IEEE754.BinarySingleNaN.
From Verif Require Import Prelude Float Env Tables Utils Interp History TruePeak Filter Ebur128 Ref Prelude_proofs Utils_proofs
  TruePeak_proofs Filter_proofs Geometry_proofs History_proofs Ebur128_proofs Ops_proofs Chunk_proofs Spec Reach_proofs
  Input_proofs Trace_proofs Feed_proofs Peak_proofs Stream_proofs Energy_proofs Loud_proofs.
Import ListNotations.
Local Open Scope nat_scope.

Lemma Forall_firstn {A} (Q : A -> Prop) k l : Forall Q l -> Forall Q (firstn k l).
Proof. intros H. revert k. induction H; intros [|k]; cbn [firstn]; auto. Qed.
Lemma Forall_skipn {A} (Q : A -> Prop) k l : Forall Q l -> Forall Q (skipn k l).
Proof. intros H. revert k. induction H; intros [|k]; cbn [skipn]; auto. Qed.
Lemma Forall_repeat' {A} (Q : A -> Prop) x n : Q x -> Forall Q (repeat x n).
Proof. intros H. induction n; cbn [repeat]; auto. Qed.

(** * Zeros *)
Lemma zero64_add x y : zero64 x -> zero64 y -> zero64 (f64_add x y).
Proof. intros (s & ->) (s' & ->). unfold f64_add. destruct s, s'; eexists; reflexivity. Qed.
Lemma zero64_sub x y : zero64 x -> zero64 y -> zero64 (f64_sub x y).
Proof. intros (s & ->) (s' & ->). unfold f64_sub. destruct s, s'; eexists; reflexivity. Qed.
Lemma zero64_mul x y : is_finite x = true -> zero64 y -> zero64 (f64_mul x y).
Proof. intros H (s & ->). unfold f64_mul. destruct x; try discriminate; eexists; reflexivity. Qed.
Lemma zero64_ftz P x : zero64 x -> zero64 (ftz64 P x).
Proof. intros (s & ->). unfold ftz64. destruct (p_ftz P); eexists; reflexivity. Qed.
Lemma zero32_ftz P x : zero32 x -> zero32 (ftz32 P x).
Proof. intros (s & ->). unfold ftz32. destruct (p_ftz P); eexists; reflexivity. Qed.
Lemma zero32_scale_add P x y c : zero32 x -> zero32 y -> is_finite c = true -> zero32 (f32_scale_add P x y c).
Proof.
  intros (s & ->) (s' & ->) Hc. unfold f32_scale_add. destruct (p_fma P); apply zero32_ftz.
  - unfold f32_fma. destruct c as [sc|sc| |sc m e B]; try discriminate; destruct s, s', sc; eexists; reflexivity.
  - unfold f32_add. destruct (zero32_ftz P (f32_mul (B754_zero s') c)) as (z & ->).
    + unfold f32_mul. destruct c as [sc|sc| |sc m e B]; try discriminate; eexists; reflexivity.
    + destruct s, z; eexists; reflexivity.
Qed.

Definition silent (r : reading) : Prop := zero64 (r_64 r) /\ zero32 (r_32 r) /\ r_level r = f64_zero.
Definition zero5' (v : arr5 f64) : Prop := zero64 (v0 v) /\ zero64 (v1 v) /\ zero64 (v2 v) /\ zero64 (v3 v) /\ zero64 (v4 v).

Lemma read_i16_0 P : silent (read P smp_i16 0%Z).
Proof. destruct P as [[] ? ? ?]; repeat split; try (eexists; vm_compute; reflexivity); vm_compute; reflexivity. Qed.
Lemma read_i32_0 P : silent (read P smp_i32 0%Z).
Proof. destruct P as [[] ? ? ?]; repeat split; try (eexists; vm_compute; reflexivity); vm_compute; reflexivity. Qed.
Lemma read_f32_0 P x : zero32 x -> silent (read P smp_f32 x).
Proof. intros ([] & ->); destruct P as [[] ? ? ?]; repeat split; try (eexists; vm_compute; reflexivity); vm_compute; reflexivity. Qed.
Lemma read_f64_0 P x : zero64 x -> silent (read P smp_f64 x).
Proof. intros ([] & ->); destruct P as [[] ? ? ?]; repeat split; try (eexists; vm_compute; reflexivity); vm_compute; reflexivity. Qed.

Lemma deinterleave_In {T} C (l : list T) (Q : T -> Prop) : Forall Q l -> Forall (Forall Q) (deinterleave C l).
Proof.
  intros H. unfold deinterleave. rewrite Forall_map. apply Forall_forall. intros c _. unfold channel_samples.
  apply Forall_forall. intros x Hx. apply in_flat_map in Hx. destruct Hx as (k & _ & Hx).
  destruct (nth_error l (k * C + c)) as [y|] eqn:Ey; [|contradiction]. destruct Hx as [<-|[]].
  apply nth_error_In in Ey. rewrite Forall_forall in H. auto.
Qed.
Lemma interleaved_silent {T} P (S : sample T) (Q : T -> Prop) C l cols : (forall x, Q x -> silent (read P S x)) -> Forall Q l ->
  interleaved_input P S C l = Some cols -> Forall (Forall silent) cols.
Proof.
  intros HQ HF. unfold interleaved_input. destruct (_ =? _); [|discriminate]. intros [= <-].
  apply deinterleave_In. rewrite Forall_map. eapply Forall_impl; eauto.
Qed.
Lemma planar_silent {T} P (S : sample T) (Q : T -> Prop) l cols : (forall x, Q x -> silent (read P S x)) -> Forall (Forall Q) l ->
  planar_input P S l = Some cols -> Forall (Forall silent) cols.
Proof.
  intros HQ HF. unfold planar_input. destruct l as [|p l]; [discriminate|]. destruct (forallb _ _); [|discriminate]. intros [= <-].
  apply (proj2 (Forall_map _ _ (p :: l))). eapply Forall_impl; [|exact HF]. intros q Hq. rewrite Forall_map. eapply Forall_impl; eauto.
Qed.
Lemma input_silent P C a cols : silent_audio a -> input P C a = Some cols -> Forall (Forall silent) cols.
Proof.
  destruct a as [l|l|l|l|l|l|l|l]; cbn [silent_audio input]; intros HS.
  - apply (interleaved_silent P smp_i16 (fun x => x = 0%Z)); auto. intros x ->. apply read_i16_0.
  - apply (interleaved_silent P smp_i32 (fun x => x = 0%Z)); auto. intros x ->. apply read_i32_0.
  - apply (interleaved_silent P smp_f32 zero32); auto. apply read_f32_0.
  - apply (interleaved_silent P smp_f64 zero64); auto. apply read_f64_0.
  - apply (planar_silent P smp_i16 (fun x => x = 0%Z)); auto. intros x ->. apply read_i16_0.
  - apply (planar_silent P smp_i32 (fun x => x = 0%Z)); auto. intros x ->. apply read_i32_0.
  - apply (planar_silent P smp_f32 zero32); auto. apply read_f32_0.
  - apply (planar_silent P smp_f64 zero64); auto. apply read_f64_0.
Qed.

(** * The filter *)
Lemma filter_step_zero P b a st x : finite5 b -> finite5 a -> zero5' st -> zero64 x ->
  zero5' (fst (filter_step (ar64_ftz P) b a st x)) /\ zero64 (snd (filter_step (ar64_ftz P) b a st x)).
Proof.
  intros Hb Ha (S0 & S1 & S2 & S3 & S4) Hx. unfold filter_step.
  repeat match goal with H : finite5 _ |- _ => unfold finite5 in H end.
  repeat match goal with H : Forall _ (_ :: _) |- _ => inversion_clear H end.
  cbn [fst snd v0 v1 v2 v3 v4 ar_add ar_sub ar_mul ar64_ftz].
  unfold zero5'. cbn [v0 v1 v2 v3 v4].
  assert (zero64 (ftz64 P (f64_sub (ftz64 P (f64_sub (ftz64 P (f64_sub (ftz64 P (f64_sub x (ftz64 P (f64_mul (v1 a) (v1 st)))))
     (ftz64 P (f64_mul (v2 a) (v2 st))))) (ftz64 P (f64_mul (v3 a) (v3 st))))) (ftz64 P (f64_mul (v4 a) (v4 st)))))) as Z.
  { repeat first [assumption | apply zero64_ftz | apply zero64_sub | apply zero64_mul]. }
  repeat split; auto. repeat first [assumption | apply zero64_ftz | apply zero64_add | apply zero64_mul].
Qed.
Lemma filter_run_zero P b a : finite5 b -> finite5 a -> forall xs st, zero5' st -> Forall zero64 xs ->
  zero5' (fst (filter_run (ar64_ftz P) b a st xs)) /\ Forall zero64 (snd (filter_run (ar64_ftz P) b a st xs)).
Proof.
  intros Hb Ha. induction xs as [|x xs IH]; intros st Hst HF; cbn [filter_run]; [auto|].
  inversion_clear HF. destruct (filter_step_zero P b a st x Hb Ha) as (Z1 & Z2); auto.
  destruct (filter_step (ar64_ftz P) b a st x) as (st', y). cbn [fst snd] in *.
  destruct (IH st' Z1) as (Z3 & Z4); auto. destruct (filter_run (ar64_ftz P) b a st' xs) as (st'', ys). cbn [fst snd] in *. auto.
Qed.
Lemma flush_zero P st : zero5' st -> zero5' (flush_state P st).
Proof.
  intros (S0 & S1 & S2 & S3 & S4). unfold flush_state. destruct (p_ftz P); [repeat split; auto|].
  assert (forall x, zero64 x -> zero64 (eps_flush x)) as X.
  { intros x H. unfold eps_flush. destruct (f64_lt _ _); auto. now exists false. }
  unfold zero5'. cbn [v0 v1 v2 v3 v4]. auto 10.
Qed.
Definition blank_track (tr : track) : Prop := zero5' (fst tr) /\ Forall zero64 (snd tr).
Lemma weigh_zero P E rate memory xs : finite_filter E rate -> zero5' memory -> Forall silent xs ->
  zero5' (fst (weigh P E rate memory xs)) /\ Forall zero64 (snd (weigh P E rate memory xs)).
Proof.
  intros HF Hm HS. unfold finite_filter in HF. unfold weigh. destruct (filter_coefficients E (f64_of_N rate)) as (b, a).
  destruct HF as (Hb & Ha). destruct (filter_run_zero P b a Hb Ha (map r_64 xs) memory Hm) as (Z1 & Z2).
  { rewrite Forall_map. eapply Forall_impl; [|exact HS]. intros r (Hr & _). exact Hr. }
  destruct (filter_run (ar64_ftz P) b a memory (map r_64 xs)) as (st, ys). cbn [fst snd] in *. split; auto. now apply flush_zero.
Qed.
Lemma hold_zero L : forall n ys, Forall zero64 ys -> Forall zero64 (hold L n ys).
Proof.
  induction n as [|n IH]; intros ys H; cbn [hold]; auto. apply IH. apply Forall_app. split; auto. constructor; auto.
  unfold stale. destruct (_ <? _); [now exists false|].
  destruct (Nat.lt_ge_cases (length ys - L) (length ys)).
  - rewrite Forall_forall in H. apply H. now apply nth_In.
  - rewrite nth_overflow by lia. now exists false.
Qed.
Lemma track_zero P E e ch tr xs : finite_filter E (e_rate e) -> blank_track tr -> Forall silent xs ->
  blank_track (track_after P E e ch tr xs).
Proof.
  intros HF (H1 & H2) HS. unfold track_after. destruct (unused ch).
  - split; cbn [fst snd]; auto. now apply hold_zero.
  - destruct (weigh_zero P E (e_rate e) (fst tr) xs HF H1 HS) as (Z1 & Z2).
    destruct (weigh P E (e_rate e) (fst tr) xs) as (m, ys). cbn [fst snd] in *. split; cbn [fst snd]; auto. apply Forall_app. auto.
Qed.
Lemma seed_zero P E e ch tr xs : finite_filter E (e_rate e) -> blank_track tr -> Forall silent xs ->
  blank_track (seed_track P E e ch tr xs).
Proof.
  intros HF (H1 & H2) HS. unfold seed_track. destruct (unused ch); [split; auto|].
  destruct (weigh_zero P E (e_rate e) (fst tr) xs HF H1 HS) as (Z1 & Z2). split; auto.
Qed.
Lemma per_channel_Forall {A B C D} (f : A -> B -> C -> D) (Q : D -> Prop) (QB : B -> Prop) (QC : C -> Prop) :
  (forall a b c, QB b -> QC c -> Q (f a b c)) -> forall l m n, Forall QB m -> Forall QC n -> Forall Q (per_channel f l m n).
Proof.
  intros Hf. induction l as [|a l IH]; intros [|b m] [|c n] H1 H2; cbn; try constructor.
  - inversion_clear H1. inversion_clear H2. auto.
  - inversion_clear H1. inversion_clear H2. now apply IH.
Qed.
Lemma cut_silent k cols : Forall (Forall silent) cols ->
  Forall (Forall silent) (map (firstn k) cols) /\ Forall (Forall silent) (map (skipn k) cols).
Proof.
  intros H. split; rewrite Forall_map; (eapply Forall_impl; [|exact H]); intros c Hc.
  - now apply Forall_firstn.
  - now apply Forall_skipn.
Qed.
Lemma pieces_zero P E e : finite_filter E (e_rate e) -> forall ks t cols, Forall blank_track t -> Forall (Forall silent) cols ->
  Forall blank_track (tape_pieces P E e ks t cols).
Proof.
  intros HF. induction ks as [|k ks IH]; intros t cols Ht Hc; cbn [tape_pieces]; auto.
  destruct (cut_silent k cols Hc). apply IH; auto.
  eapply per_channel_Forall with (QB := blank_track) (QC := Forall silent); auto. intros. now apply track_zero.
Qed.
Lemma blank_blank C : Forall blank_track (blank C).
Proof. unfold blank. apply Forall_repeat'. split; cbn [fst snd]; auto. repeat split; now exists false. Qed.
Lemma tape_zero P E e o t : finite_filter E (e_rate e) -> quiet o -> Forall blank_track t ->
  Forall blank_track (tape_after P E e o t).
Proof.
  intros HF HQ Ht. destruct o as [number v|m|c rt|w|h| |a|a]; cbn [quiet tape_after] in *; try contradiction; auto.
  - destruct (_ =? _)%N; auto. rewrite Forall_map. eapply Forall_impl; [|exact Ht]. intros tr (H1 & _). split; cbn [fst snd]; auto.
  - apply blank_blank.
  - destruct (input P (e_channels e) a) as [cols|] eqn:Ei; auto. apply (input_silent _ _ _ _ HQ) in Ei. now apply pieces_zero.
  - destruct (input P (e_channels e) a) as [cols|] eqn:Ei; auto. apply (input_silent _ _ _ _ HQ) in Ei.
    eapply per_channel_Forall with (QB := blank_track) (QC := Forall silent); auto. intros. now apply seed_zero.
Qed.

(** * Energies *)
Lemma squares_zero l : Forall zero64 l -> sum_of_squares l = f64_zero.
Proof.
  unfold sum_of_squares. induction l as [|x l IH]; intros H; [reflexivity|]. inversion_clear H as [|? ? (s & ->) Hl].
  cbn [fold_left]. replace (f64_add f64_zero (f64_mul (B754_zero s) (B754_zero s))) with f64_zero by (destruct s; reflexivity). auto.
Qed.
Lemma recent_zero w ys : Forall zero64 ys -> Forall zero64 (recent w ys).
Proof. intros H. unfold recent. apply Forall_skipn, Forall_app. split; auto. apply Forall_repeat'. now exists false. Qed.
Lemma ring_zero i l : Forall zero64 l -> Forall zero64 (ring_order i l).
Proof.
  intros H. unfold ring_order. destruct (_ <? _); auto. apply Forall_app. split; [now apply Forall_skipn|now apply Forall_firstn].
Qed.
Lemma gain_zero ch : gain ch f64_zero = f64_zero.
Proof. destruct ch; vm_compute; reflexivity. Qed.
Lemma zero_div_nat w : 1 <= w -> f64_div f64_zero (f64_of_nat w) = f64_zero.
Proof.
  intros Hw. pose proof (f64_of_nat_unsigned w) as Hs. unfold unsigned in Hs. unfold f64_div.
  assert (forall s, f64_of_nat w <> B754_zero s) as Hz.
  { intros s E0. unfold f64_of_nat, f64_of_Z, f64_bin in E0.
    pose proof (binary_normalize_correct 53 1024 _ _ mode_NE (Z.of_nat w) 0 false) as H. cbv zeta in H.
    rewrite E0 in H. 
    assert (1 <= F2R (Float radix2 (Z.of_nat w) 0))%R as Hp.
    { unfold F2R. cbn [Fnum Fexp bpow]. rewrite Rmult_1_r. apply IZR_le. lia. }
    assert (1 <= round radix2 (SpecFloat.fexp 53 1024) (round_mode mode_NE) (F2R (Float radix2 (Z.of_nat w) 0)))%R as Hr.
    { apply round_ge_generic; auto.
      - apply fexp_correct. reflexivity.
      - apply valid_rnd_N.
      - change 1%R with (bpow radix2 0). apply generic_format_bpow. unfold SpecFloat.fexp, SpecFloat.emin. lia. }
    destruct (Rlt_bool _ _).
    - destruct H as (H & _). cbn [B2R] in H. lra.
    - discriminate H. }
  assert (is_nan (f64_of_nat w) = false) as Hn.
  { unfold f64_of_nat, f64_of_Z, f64_bin. apply is_nan_binary_normalize. }
  destruct (f64_of_nat w) as [s|s| |s m ee B]; try discriminate.
  - now destruct (Hz s).
  - cbn in Hs. subst s. reflexivity.
  - cbn in Hs. subst s. reflexivity.
Qed.
Lemma energy_zero L w roles ss : 1 <= w -> Forall (Forall zero64) ss -> energy L w roles ss = f64_zero.
Proof.
  intros Hw HF. unfold energy.
  assert (forall l, Forall (fun p => Forall zero64 (snd p)) l -> fold_left (fun sum '(ch, ys) =>
             if unused ch then sum
             else f64_add sum (gain ch (sum_of_squares (ring_order (length ys mod L) (recent w ys))))) l f64_zero = f64_zero) as X.
  { induction l as [|[ch ys] l IH]; intros H; [reflexivity|]. inversion_clear H. cbn [fold_left snd] in *.
    destruct (unused ch); auto. rewrite squares_zero by now apply ring_zero, recent_zero. rewrite gain_zero.
    change (f64_add f64_zero f64_zero) with f64_zero. auto. }
  rewrite X; [now apply zero_div_nat|]. apply Forall_forall. intros (ch, ys) Hin. apply in_combine_r in Hin.
  rewrite Forall_forall in HF. cbn. auto.
Qed.
Lemma signals_zero t : Forall blank_track t -> Forall (Forall zero64) (signals t).
Proof. intros H. unfold signals. rewrite Forall_map. eapply Forall_impl; [|exact H]. now intros tr (_ & H2). Qed.
Lemma history_add_zero h : history_add h f64_zero = Ret h.
Proof.
  unfold history_add.
  assert (match idx BOUNDARIES 0 with Ret b => f64_lt f64_zero b | _ => false end = true) as H by (vm_compute; reflexivity).
  destruct (idx BOUNDARIES 0) as [b| | |]; try discriminate. cbn [obind]. now rewrite H.
Qed.
Lemma record_zeros L w roles ss h : 1 <= w -> Forall (Forall zero64) ss ->
  forall ends, record_all h (map (energy_at L w roles ss) ends) = Ret h.
Proof.
  intros Hw HF. induction ends as [|k ends IH]; [reflexivity|]. cbn [map record_all]. unfold energy_at at 1.
  rewrite energy_zero; [|exact Hw|].
  - rewrite history_add_zero. exact IH.
  - rewrite Forall_map. eapply Forall_impl; [|exact HF]. intros c. apply Forall_firstn.
Qed.

(** * Histories *)
Definition no_blocks (hg : bool) (h : history) : Prop := hist_ok hg h /\ history_reset h = h.
Lemma no_blocks_reset hg h : hist_ok hg h -> no_blocks hg (history_reset h).
Proof.
  intros H. split.
  - destruct h as [q|c]; cbn in *; auto. destruct H. split; auto. unfold histogram_reset. now rewrite map_length.
  - destruct h as [q|c]; cbn; [reflexivity|]. unfold histogram_reset. now rewrite map_map.
Qed.
Lemma no_blocks_new hg b max : hist_ok hg (history_new b max) -> no_blocks hg (history_new b max).
Proof. intros H. split; auto. destruct b; reflexivity. Qed.
Lemma empty_histogram c : length c = 1000 -> histogram_reset c = c -> c = repeat 0%N 1000.
Proof. intros H1 H2. rewrite <- H2. unfold histogram_reset. rewrite map_const_repeat. now rewrite H1. Qed.
Lemma no_blocks_cases hg h : no_blocks hg h -> h = HHistogram (repeat 0%N 1000) \/ exists max, h = HQueue (queue_new max).
Proof.
  intros (H1 & H2). destruct h as [q|c]; cbn [history_reset] in H2.
  - right. exists (q_max q). injection H2 as H2. now rewrite <- H2 at 1.
  - left. injection H2 as H2. destruct H1. f_equal. now apply empty_histogram.
Qed.
Lemma no_blocks_sums P hg h : no_blocks hg h -> fst (history_calc_relative_threshold P h) = 0%N.
Proof. intros H. destruct (no_blocks_cases hg h H) as [->|(max & ->)]; [vm_compute|]; reflexivity. Qed.
Lemma no_blocks_range P E hg h : sort_contract E -> no_blocks hg h -> history_loudness_range P E h = Ret f64_zero.
Proof.
  intros HS H. destruct (no_blocks_cases hg h H) as [->|(max & ->)].
  - assert (snd (fst (histogram_sums (repeat 0%N 1000))) = 0%N) as X by (vm_compute; reflexivity).
    unfold history_loudness_range, history_loudness_range_multiple. cbn [obind]. unfold histogram_loudness_range.
    destruct (histogram_sums (repeat 0%N 1000)) as ((hs, size), power). cbn [fst snd] in X. subst size. reflexivity.
  - unfold history_loudness_range, history_loudness_range_multiple. cbn [combine_queues queue_new q_queue app].
    destruct (HS []) as (Hp & _ & Hn). destruct (e_sort E []) as (sorted, nan). cbn [fst snd] in *.
    apply Permutation_nil in Hp. subst sorted. destruct nan.
    + destruct Hn as (Hn & _). destruct (Hn eq_refl) as (? & _). cbn in *. lia.
    + reflexivity.
Qed.
Lemma no_blocks_count P E hg h : no_blocks hg h -> gating_block_count_and_energy_multiple P E [h] = Ret (inr NoBlocksAboveThreshold).
Proof.
  intros H. pose proof (no_blocks_sums P hg h H) as X. unfold gating_block_count_and_energy_multiple, iter_gating, total_relative_threshold.
  cbn [fold_left]. destruct (history_calc_relative_threshold P h) as (n, t). cbn [fst] in X. subst n. reflexivity.
Qed.

(** * The peak meters *)
Definition still (lg : log) : Prop :=
  Forall (Forall silent) (lg_heard lg) /\ Forall (Forall silent) (lg_last lg) /\ Forall (Forall zero32) (lg_past lg) /\
  Forall (Forall zero32) (lg_inter lg) /\ Forall (Forall zero32) (lg_inter_last lg).
Lemma still_empty C : still (empty_log C).
Proof. unfold still, empty_log. cbn [lg_heard lg_last lg_past lg_inter lg_inter_last]. auto using Forall_no_audio. Qed.
Lemma interpolated_zero P E taps factor xs n f : (forall k, k < taps -> is_finite (hann_sinc E factor (k * factor + f)) = true) ->
  Forall zero32 xs -> zero32 (interpolated P E taps factor xs n f).
Proof.
  intros Hk HF. unfold interpolated.
  assert (forall l acc, (forall k, In k l -> k < taps) -> zero32 acc ->
    zero32 (fold_left (fun acc k => f32_scale_add P acc (sample_before xs n k) (hann_sinc E factor (k * factor + f))) l acc)) as X.
  { induction l as [|k l IH]; intros acc Hl Ha; auto. cbn [fold_left]. apply IH; [intros; apply Hl; now right|].
    apply zero32_scale_add; auto.
    - unfold sample_before. destruct (_ <=? _); [|now exists false].
      destruct (Nat.lt_ge_cases (n - k) (length xs)).
      + rewrite Forall_forall in HF. apply HF, nth_In. auto.
      + rewrite nth_overflow by lia. now exists false.
    - apply Hk, Hl. now left. }
  apply X; [|now exists false]. intros k Hin. apply in_seq in Hin. lia.
Qed.
Lemma oversampled_zero P E rate xs from : finite_taps E rate -> Forall zero32 xs -> Forall zero32 (oversampled P E rate xs from).
Proof.
  intros HT HF. unfold oversampled. destruct (oversampling rate) as [[taps factor]|] eqn:EO; [|constructor].
  apply Forall_forall. intros y Hy. apply in_flat_map in Hy. destruct Hy as (n & _ & Hy). apply in_map_iff in Hy.
  destruct Hy as (f & <- & Hf). apply in_seq in Hf. apply interpolated_zero; auto. intros k Hk. apply (HT taps factor); auto.
  unfold oversampling in EO. destruct (_ <? _)%N; [|destruct (_ <? _)%N; [|discriminate]]; injection EO as <- <-; lia.
Qed.
Lemma oversample_zero P E rate : finite_taps E rate -> forall past new, Forall (Forall zero32) past -> Forall (Forall zero32) new ->
  Forall (Forall zero32) (oversample_new P E rate past new).
Proof.
  intros HT. unfold oversample_new. induction past as [|xs past IH]; intros [|ys new] H1 H2; cbn [map2]; try constructor.
  - inversion_clear H1. inversion_clear H2. apply oversampled_zero; auto. apply Forall_app. auto.
  - inversion_clear H1. inversion_clear H2. auto.
Qed.
Lemma r32_zero cols : Forall (Forall silent) cols -> Forall (Forall zero32) (map (map r_32) cols).
Proof.
  intros H. rewrite Forall_map. eapply Forall_impl; [|exact H]. intros c Hc. rewrite Forall_map.
  eapply Forall_impl; [|exact Hc]. now intros r (_ & ? & _).
Qed.
Lemma Forall_join' {T} (Q : T -> Prop) (x y : list (list T)) : Forall (Forall Q) x -> Forall (Forall Q) y -> Forall (Forall Q) (join x y).
Proof.
  intros H. revert y. unfold join. induction H as [|a x Ha Hx IH]; intros [|b y] Hy; cbn [map2]; try constructor.
  - inversion_clear Hy. apply Forall_app. auto.
  - inversion_clear Hy. auto.
Qed.
Lemma log_zero P E e o lg : finite_taps E (e_rate e) -> quiet o -> still lg -> still (log_after P E e o lg).
Proof.
  intros HT HQ HL. destruct o as [number v|m|c rt|w|h| |a|a]; cbn [quiet log_after] in *; try contradiction; auto.
  - apply still_empty.
  - destruct (input P (e_channels e) a) as [cols|] eqn:Ei; auto. apply (input_silent _ _ _ _ HQ) in Ei.
    destruct (_ =? _); auto. destruct HL as (H1 & H2 & H3 & H4 & H5). pose proof (r32_zero cols Ei).
    pose proof (oversample_zero P E (e_rate e) HT _ _ H3 H).
    unfold still. cbn [lg_heard lg_last lg_past lg_inter lg_inter_last]. spl; auto using Forall_join'.
  - destruct (input P (e_channels e) a) as [cols|] eqn:Ei; auto. apply (input_silent _ _ _ _ HQ) in Ei.
    destruct HL as (H1 & H2 & H3 & H4 & H5). pose proof (r32_zero cols Ei).
    unfold still. cbn [lg_heard lg_last lg_past lg_inter lg_inter_last]. spl; auto using Forall_join'.
Qed.
Lemma largest_zero l v : largest l v -> Forall (eq f64_zero) l -> v = f64_zero.
Proof. intros (_ & [H|H] & _) HF; auto. rewrite Forall_forall in HF. symmetry. auto. Qed.
Lemma levels_zero c cols : Forall (Forall silent) cols -> Forall (eq f64_zero) (levels_of (Spec.channel c cols)).
Proof.
  intros H. unfold levels_of, Spec.channel. rewrite Forall_map. destruct (Nat.lt_ge_cases (N.to_nat c) (length cols)).
  - rewrite Forall_forall in H. pose proof (H _ (nth_In cols [] H0)) as X. eapply Forall_impl; [|exact X].
    now intros r (_ & _ & ->).
  - rewrite nth_overflow by lia. constructor.
Qed.
Lemma magnitudes_zero c cols : Forall (Forall zero32) cols -> Forall (eq f64_zero) (magnitudes (Spec.channel c cols)).
Proof.
  intros H. unfold magnitudes, Spec.channel. rewrite Forall_map. destruct (Nat.lt_ge_cases (N.to_nat c) (length cols)).
  - rewrite Forall_forall in H. pose proof (H _ (nth_In cols [] H0)) as X. eapply Forall_impl; [|exact X].
    now intros r (s & ->).
  - rewrite nth_overflow by lia. constructor.
Qed.

(** * Sessions *)
Record mute (P : platform) (E : ext) (rate : N) (m : mode) (C : nat) (e : ebur128) : Prop := {
  mu_rate : e_rate e = rate;
  mu_mode : e_mode e = m;
  mu_chans : e_channels e = C;
  mu_tape : exists t, taped P E e t /\ Forall blank_track t;
  mu_log : exists lg, logged P E e lg /\ still lg;
  mu_block : no_blocks (contains m MODE_HISTOGRAM) (e_block e);
  mu_short : no_blocks (contains m MODE_HISTOGRAM) (e_short e) }.
Lemma taped_hop P E e t : is_64bit P -> taped P E e t -> 1 <= hop e.
Proof.
  intros HP HT. destruct (taped_ok P E e t HP HT) as (g & L & (H & _) & _). rewrite <- (hop_eq P E e t) by auto.
  pose proof (inv_s_pos _ _ _ _ _ H). lia.
Qed.
Lemma mute_step P E rate m C e o r e' : is_64bit P -> finite_filter E rate -> finite_taps E rate -> mute P E rate m C e ->
  quiet o -> admissible e o -> step P E e o = Ret (r, e') -> mute P E rate m C e'.
Proof.
  intros HP HF HT [M1 M2 M3 (t & Ht & Hb) (lg & Hl & Hs) M6 M7] HQ Ha Hst.
  destruct (taped_ok P E e t HP Ht) as (g & L & HG & _).
  destruct (step_moves P E e g L o r e' HP HG Ha Hst) as (g' & L' & _ & HM).
  assert (e_mode e' = e_mode e /\ e_rate e' = e_rate e /\ e_channels e' = e_channels e) as (C1 & C2 & C3).
  { apply moved_config in HM. destruct o; auto. contradiction. }
  pose proof (taped_step P E e o r e' t Ht Ha Hst) as Ht'. pose proof (logged_step P E e o r e' lg Hl Ha Hst) as Hl'.
  pose proof (tape_zero P E e o t ltac:(now rewrite M1) HQ Hb) as Hb'.
  pose proof (log_zero P E e o lg ltac:(now rewrite M1) HQ Hs) as Hs'.
  assert (no_blocks (contains m MODE_HISTOGRAM) (e_block e') /\ no_blocks (contains m MODE_HISTOGRAM) (e_short e')) as (B1 & B2).
  { pose proof (taped_hop P E e t HP Ht) as Hh.
    assert ((e_block e' = e_block e /\ e_short e' = e_short e) \/ (e_block e' = history_reset (e_block e) /\ e_short e' = history_reset (e_short e))) as X.
    { destruct o as [number v|mm|c rt|w|h| |a|a]; cbn [quiet] in HQ; try contradiction.
      1-3, 6: left; eapply others_record; eauto; discriminate.
      - right. eapply reset_records; eauto.
      - left. destruct (input P (e_channels e) a) as [cols|] eqn:Ei.
        + destruct (add_records P E e t a cols r e' HP Ht Ha Hst Ei) as (_ & _ & X1 & X2 & X3 & X4).
          pose proof (signals_zero _ Hb') as Hz.
          split.
          * destruct (contains (e_mode e) MODE_I) eqn:EI; rewrite <- contains_I in *.
            -- specialize (X1 EI). rewrite record_zeros in X1 by (auto; lia). now apply Ret_inj in X1.
            -- apply X2. congruence.
          * destruct (contains (e_mode e) MODE_LRA) eqn:EI; rewrite <- contains_LRA in *.
            -- specialize (X3 EI). rewrite record_zeros in X3 by (auto; lia). now apply Ret_inj in X3.
            -- apply X4. congruence.
        + cbn [moved] in HM. destruct HM as (_ & _ & Heq). rewrite Ei in Heq. apply pair_equal_spec in Heq. destruct Heq as (-> & _). auto. }
    destruct X as [(-> & ->)|(-> & ->)]; auto. split; apply no_blocks_reset; [apply M6|apply M7]. }
  constructor; try congruence; eauto.
Qed.
Lemma mute_session P E rate m C : is_64bit P -> finite_filter E rate -> finite_taps E rate -> forall e os e', session P E e os e' ->
  Forall quiet os -> mute P E rate m C e -> mute P E rate m C e'.
Proof.
  intros HP HF HT e os e' HS. induction HS as [e|e o r e1 os e2 Ha Hs HS IH]; intros HQ HM; auto.
  inversion_clear HQ. apply IH; auto. eapply mute_step; eauto.
Qed.
Lemma mute_new P E channels rate m e : is_64bit P -> supported m rate -> ebur128_new P E channels rate m = Ret (Ok e) ->
  mute P E rate m (N.to_nat channels) e.
Proof.
  intros HP Hs Hn. destruct (new_good P E channels rate m e HP Hn Hs) as (g & L & HG & HB).
  pose proof (taped_new P E channels rate m e Hn Hs). pose proof (logged_new P E channels rate m e Hn Hs).
  destruct HG as (HI & _).
  pose proof (i_block _ _ _ _ _ HI) as I1. pose proof (i_short _ _ _ _ _ HI) as I2.
  destruct HB as [B1 B2 B3 B4 B5 B6 B7 _ _ _ _ _ _ _ _]. constructor; auto.
  - eexists. split; [eassumption|]. apply blank_blank.
  - eexists. split; [eassumption|]. apply still_empty.
  - rewrite B1 in I1. rewrite B6 in *. now apply no_blocks_new.
  - rewrite B1 in I2. rewrite B7 in *. now apply no_blocks_new.
Qed.

Lemma reported_zero E : reported E f64_zero = f64_neg f64_inf.
Proof. reflexivity. Qed.
Lemma silence P E channels rate m e0 os e : is_64bit P -> sort_contract E -> finite_filter E rate -> finite_taps E rate ->
  supported m rate -> ebur128_new P E channels rate m = Ret (Ok e0) -> session P E e0 os e -> Forall quiet os ->
  ask P E e QMomentary = Ret (AValue (Ok (f64_neg f64_inf))) /\
  ask P E e QShortterm = Ret (AValue (if capacity e <? 30 * hop e then Err InvalidMode else Ok (f64_neg f64_inf))) /\
  (forall ms, (ms <= 4294967295)%N -> (1000 <= e_rate e * ms)%N ->
     ask P E e (QWindow ms) = Ret (AValue (if capacity e <? N.to_nat (e_rate e * ms / 1000) then Err InvalidMode
                                           else Ok (f64_neg f64_inf)))) /\
  (has_I m -> ask P E e QGlobal = Ret (AValue (Ok (f64_neg f64_inf)))) /\
  (has_I m -> ask P E e QThreshold = Ret (AValue (Ok (f64_of_Z (-70))))) /\
  ask P E e QCount = Ret (ACount None) /\
  (has_LRA m -> ask P E e QRange = Ret (AValue (Ok f64_zero))) /\
  (forall c, (c < channels)%N -> has_SAMPLE_PEAK m ->
     ask P E e (QSamplePeak c) = Ret (AValue (Ok f64_zero)) /\ ask P E e (QPrevSamplePeak c) = Ret (AValue (Ok f64_zero))) /\
  (forall c, (c < channels)%N -> has_TRUE_PEAK m ->
     ask P E e (QTruePeak c) = Ret (AValue (Ok f64_zero)) /\ ask P E e (QPrevTruePeak c) = Ret (AValue (Ok f64_zero))).
Proof.
  intros HP HS HF HT Hs Hn Hss HQ.
  pose proof (mute_session P E rate m _ HP HF HT e0 os e Hss HQ (mute_new P E channels rate m e0 HP Hs Hn)) as HM.
  destruct HM as [M1 M2 M3 (t & Ht & Hb) (lg & Hl & (L1 & L2 & L3 & L4 & L5)) M6 M7].
  pose proof (taped_hop P E e t HP Ht) as Hh. pose proof (signals_zero t Hb) as Hz.
  spl.
  - rewrite (ask_momentary P E e t HP Ht), energy_zero by (auto; lia). reflexivity.
  - rewrite (ask_shortterm P E e t HP Ht). unfold recent_loudness. rewrite energy_zero by (auto; lia). reflexivity.
  - intros ms H1 H2. rewrite (ask_window P E e t ms HP Ht H1). unfold recent_loudness. rewrite energy_zero; auto.
    assert (1 <= e_rate e * ms / 1000)%N by (apply N.div_le_lower_bound; lia). lia.
  - intros HI. cbn [ask]. unfold loudness_global. rewrite M2. apply contains_I in HI. rewrite HI. cbn [negb].
    unfold gated_loudness, gated_loudness_multiple. rewrite (no_blocks_count P E _ _ M6). reflexivity.
  - intros HI. cbn [ask]. unfold relative_threshold. rewrite M2. apply contains_I in HI. rewrite HI. cbn [negb].
    unfold history_relative_threshold. pose proof (no_blocks_sums P _ _ M6) as X.
    destruct (history_calc_relative_threshold P (e_block e)) as (n, x). cbn [fst] in X. subst n. cbn [N.eqb]. do 3 f_equal.
    apply sf_eq_spec. vm_cast_no_check (eq_refl true).
  - cbn [ask]. unfold gating_block_count_and_energy, history_gating_block_count_and_energy.
    rewrite (no_blocks_count P E _ _ M6). reflexivity.
  - intros HI. cbn [ask]. unfold loudness_range. rewrite M2. apply contains_LRA in HI. rewrite HI. cbn [negb].
    rewrite (no_blocks_range P E _ _ HS M7). reflexivity.
  - intros c Hc Hm. rewrite <- M2 in Hm. assert (c < N.of_nat (e_channels e))%N as Hc' by (rewrite M3; lia).
    destruct (sample_peak_log P E e lg c HP Hl Hm Hc') as (v & -> & Hv).
    destruct (prev_sample_peak_log P E e lg c HP Hl Hm Hc') as (w & -> & Hw).
    apply largest_zero in Hv; [|now apply levels_zero]. apply largest_zero in Hw; [|now apply levels_zero]. now subst.
  - intros c Hc Hm. rewrite <- M2 in Hm. assert (c < N.of_nat (e_channels e))%N as Hc' by (rewrite M3; lia).
    destruct (true_peak_log P E e lg c HP Hl Hm Hc') as (v & -> & Hv).
    destruct (prev_true_peak_log P E e lg c HP Hl Hm Hc') as (w & -> & Hw).
    apply largest_zero in Hv; [|apply Forall_app; split; [now apply levels_zero|now apply magnitudes_zero]].
    apply largest_zero in Hw; [|apply Forall_app; split; [now apply levels_zero|now apply magnitudes_zero]]. now subst.
Qed.
