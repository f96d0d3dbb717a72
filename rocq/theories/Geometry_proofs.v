(** Buffer geometry: sizes computed by allocate_audio_data. *)
From Coq Require Import List Arith NArith ZArith Bool Lia.
From Verif Require Import Prelude Float Env Utils History Interp TruePeak Filter Ebur128
  Prelude_proofs.
Import ListNotations.
Local Open Scope N_scope.
Ltac Zify.zify_post_hook ::= Z.div_mod_to_equations.

(** Frames in the buffer for a window: whole milliseconds, rounded up to 100 ms steps. *)
Definition buffer_frames (rate window : N) : N :=
  let s := samples_in_100ms rate in
  (rate * window / 1000 + s - 1) / s * s.

Lemma samples_in_100ms_pos rate : 16 <= rate -> 2 <= samples_in_100ms rate.
Proof. unfold samples_in_100ms. intros. lia. Qed.

Lemma round_up_eq f s : 0 < s ->
  (f + s - 1) / s * s = if f mod s =? 0 then f else f + s - f mod s.
Proof.
  intros Hs. pose proof (N.div_mod f s ltac:(lia)) as Hd. pose proof (N.mod_lt f s ltac:(lia)) as Hm.
  set (q := f / s) in *. set (r := f mod s) in *.
  destruct (N.eqb_spec r 0) as [Hr|Hr].
  - replace (f + s - 1) with (q * s + (s - 1)) by nia.
    rewrite N.div_add_l by lia. rewrite (N.div_small (s - 1) s) by lia. nia.
  - replace (f + s - 1) with ((q + 1) * s + (r - 1)) by nia.
    rewrite N.div_add_l by lia. rewrite (N.div_small (r - 1) s) by lia. nia.
Qed.

Lemma audio_data_len_exact P channels rate window n :
  16 <= rate -> audio_data_len P channels rate window = Ok n ->
  n = buffer_frames rate window * channels.
Proof.
  intros Hr. unfold audio_data_len, checked, buffer_frames.
  pose proof (samples_in_100ms_pos rate Hr). set (s := samples_in_100ms rate) in *.
  destruct (rate * window <=? p_usize_max P); [|discriminate].
  rewrite round_up_eq by lia. set (f := rate * window / 1000).
  destruct (f mod s =? 0).
  - destruct (f * channels <=? p_usize_max P); [|discriminate]. congruence.
  - destruct (f + s <=? p_usize_max P); [|discriminate].
    destruct ((f + s - f mod s) * channels <=? p_usize_max P); [|discriminate]. congruence.
Qed.

Definition is64 (P : platform) : Prop := p_usize_max P = usize64_max.

Lemma audio_data_len_64 P channels rate window :
  is64 P -> 16 <= rate -> rate <= MAX_RATE -> channels <= MAX_CHANNELS -> window <= u32_max ->
  audio_data_len P channels rate window = Ok (buffer_frames rate window * channels) /\
  8 * (buffer_frames rate window * channels) <= p_usize_max P / 2.
Proof.
  unfold is64, usize64_max, MAX_RATE, MAX_CHANNELS, u32_max. intros HP H16 Hr Hc Hw.
  pose proof (samples_in_100ms_pos rate H16) as Hs.
  unfold audio_data_len, checked, buffer_frames. rewrite HP.
  set (s := samples_in_100ms rate) in *.
  assert (s <= 282240) as Hs2 by (unfold s, samples_in_100ms; lia).
  assert (rate * window <= 2822400 * 4294967295) as Hrw by (apply N.mul_le_mono; lia).
  destruct (N.leb_spec (rate * window) 18446744073709551615); [|lia].
  set (f := rate * window / 1000).
  assert (f <= 12122115693408) as Hf by (unfold f; lia).
  rewrite round_up_eq by lia.
  pose proof (N.mod_lt f s ltac:(lia)) as Hm.
  generalize dependent (f mod s). intros r Hm. clearbody f s.
  assert ((if r =? 0 then f else f + s - r) <= 12122115975648) as HL
    by (destruct (r =? 0); lia).
  assert ((if r =? 0 then f else f + s - r) * channels <= 12122115975648 * 64) as HLc
    by (apply N.mul_le_mono; lia).
  split.
  - destruct (N.eqb_spec (r) 0).
    + destruct (N.leb_spec (f * channels) 18446744073709551615); [|lia]. reflexivity.
    + destruct (N.leb_spec (f + s) 18446744073709551615); [|lia].
      destruct (N.leb_spec ((f + s - r) * channels) 18446744073709551615); [|lia]. reflexivity.
  - change (18446744073709551615 / 2) with 9223372036854775807. lia.
Qed.

Lemma buffer_frames_mono rate w1 w2 : 16 <= rate -> w1 <= w2 -> buffer_frames rate w1 <= buffer_frames rate w2.
Proof.
  intros Hr Hw. unfold buffer_frames. pose proof (samples_in_100ms_pos rate Hr).
  apply N.mul_le_mono_r. apply N.div_le_mono; [lia|].
  assert (rate * w1 / 1000 <= rate * w2 / 1000) by (apply N.div_le_mono; [lia|]; now apply N.mul_le_mono_l).
  lia.
Qed.

Lemma buffer_frames_divisible rate w : exists k, buffer_frames rate w = k * samples_in_100ms rate.
Proof. unfold buffer_frames. eauto. Qed.

(** How many 100 ms steps fit. *)
Lemma round_up_ge f s k : 0 < s -> (k - 1) * s < f -> k * s <= (f + s - 1) / s * s.
Proof.
  intros Hs H. apply N.mul_le_mono_r. apply N.div_le_lower_bound; [lia|].
  destruct (N.eq_dec k 0); [subst; lia|]. replace k with ((k - 1) + 1) by lia. nia.
Qed.
Lemma round_up_lt f s k : 0 < s -> 0 < k -> f <= (k - 1) * s -> (f + s - 1) / s * s < k * s.
Proof.
  intros Hs Hk H. apply N.mul_lt_mono_pos_r; [lia|]. apply N.div_lt_upper_bound; [lia|]. nia.
Qed.

Lemma buffer_400 rate : 18 <= rate -> 4 * samples_in_100ms rate <= buffer_frames rate 400.
Proof.
  intros Hr. unfold buffer_frames. pose proof (samples_in_100ms_pos rate ltac:(lia)).
  apply round_up_ge; [lia|]. unfold samples_in_100ms. lia.
Qed.
Lemma buffer_3000_4 rate : 16 <= rate -> 4 * samples_in_100ms rate <= buffer_frames rate 3000.
Proof.
  intros Hr. unfold buffer_frames. pose proof (samples_in_100ms_pos rate ltac:(lia)).
  apply round_up_ge; [lia|]. unfold samples_in_100ms. lia.
Qed.
Lemma buffer_3000_30 rate : 16 <= rate ->
  (30 * samples_in_100ms rate <= buffer_frames rate 3000 <-> 29 * samples_in_100ms rate < 3 * rate).
Proof.
  intros Hr. unfold buffer_frames. pose proof (samples_in_100ms_pos rate ltac:(lia)).
  replace (rate * 3000 / 1000) with (3 * rate) by lia. split; intros H0.
  - destruct (N.lt_ge_cases (29 * samples_in_100ms rate) (3 * rate)) as [|H1]; auto.
    pose proof (round_up_lt (3 * rate) (samples_in_100ms rate) 30). lia.
  - apply round_up_ge; lia.
Qed.
Lemma rate_146 rate : 146 <= rate -> 29 * samples_in_100ms rate < 3 * rate.
Proof. unfold samples_in_100ms. intros. lia. Qed.
