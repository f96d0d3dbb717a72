(** Vocabulary of the comparison with the C reference filter (C82, C83). *)
From Coq Require Import List Arith NArith ZArith Bool.
From Verif Require Import Prelude Float Env Utils Filter Capi Cref Cref_filter.
Import ListNotations.

(** The same audio, interleaved and as one list per channel *)
Definition same_audio {T} (channels frames : nat) (interleaved : list T) (planes : list (list T)) : Prop :=
  length interleaved = channels * frames /\ length planes = channels /\ Forall (fun p => length p = frames) planes /\
  forall c i, c < channels -> i < frames ->
    exists plane x, nth_error planes c = Some plane /\ nth_error plane i = Some x /\ nth_error interleaved (i * channels + c) = Some x.

(** C's channel numbers: those of the public C interface *)
Definition code_of (ch : channel) (k : N) : Prop := nth_error channel_table (N.to_nat k) = Some ch.

(** Rust and C read a sample alike, and scale the peak alike *)
Definition same_scale {T} (S : sample T) (t : ctype T) : Prop := s_max S = t_scale t.
Definition reads_same {T} (P : platform) (S : sample T) (t : ctype T) (x : T) : Prop :=
  s_raw S x = t_double t x /\ s_f64 S x = ftz64 P (f64_div (t_double t x) (t_scale t)).

(** Rust's tan is C's tan *)
Definition same_tan (E : ext) (L : libc) : Prop := forall x, e_tan E x = c_tan L x.

(** a Rust filter (without true peaks) and a C filter in the same state *)
Record twin_filters (f : filter) (g : cfilter) : Prop := {
  tf_channels : f_channels f = cf_channels g;
  tf_b : f_b f = cf_b g;
  tf_a : f_a f = cf_a g;
  tf_v : f_state f = cf_v g;
  tf_calc : f_calc_sample_peak f = cf_calc g;
  tf_peak : f_sample_peak f = cf_sample_peak g;
  tf_tp : f_tp f = None;
  tf_pos : 0 < f_channels f;
  tf_states : length (f_state f) = f_channels f;
  tf_peaks : length (f_sample_peak f) = f_channels f;
}.
