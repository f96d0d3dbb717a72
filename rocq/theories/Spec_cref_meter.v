(** Vocabulary of the comparison with the whole C reference filter (C85). *)
From Coq Require Import List Arith NArith ZArith Reals.
From Verif Require Import Prelude Float Env Utils Filter Cref Cref_filter Cref_interp Cref_meter Spec_real Spec_interp Spec_cref_filter.
Import ListNotations.

(** What can be done with a filter: process frames, writing from place [i] of each plane on, or set the peaks to zero *)
Inductive event (T : Type) :=
| Process (frames : list (list T)) (i : nat)
| ResetPeaks.
Arguments Process {T} _ _.
Arguments ResetPeaks {T}.
(** one event in Rust and in C, with the audio ring it writes to (planar in Rust, interleaved in C) *)
Definition rust_event {T} (P : platform) (S : sample T) (C : nat) (cmap : list channel) (s : filter * list f64) (ev : event T) : outcome (filter * list f64) :=
  match ev with
  | Process frames i => filter_process P S (fst s) (Interleaved (concat frames) C) (snd s) i cmap
  | ResetPeaks => Ret (filter_reset_peaks (fst s), snd s)
  end.
Definition c_event {T} (P : platform) (t : ctype T) (C : nat) (codes : list N) (s : cmeter * list f64) (ev : event T) : outcome (cmeter * list f64) :=
  match ev with
  | Process frames i => meter_process_c P t (fst s) (length frames) (concat frames) (snd s) (i * C) codes
  | ResetPeaks => Ret (meter_reset_peaks_c (fst s), snd s)
  end.
(** Frames that fit the ring of [L] frames, and samples that Rust and C read alike.  For true peaks also: frames that fit C's buffers
    (400 ms), samples of magnitude at most [M] *)
Definition suitable {T} (P : platform) (S : sample T) (t : ctype T) (rate : N) (C L : nat) (M : R) (true_peaks : bool) (ev : event T) : Prop :=
  match ev with
  | Process frames i => i + length frames <= L /\ Forall (fun fr => length fr = C /\ Forall (reads_same P S t) fr) frames /\
      (true_peaks = true -> length frames <= N.to_nat ((rate + 5) / 10) * 4 /\
        Forall (Forall (fun x => resampled_c P t x = s_f32 S P x /\ moderate M (s_f32 S P x))) frames)
  | ResetPeaks => True
  end.
(** a Rust filter apart from its true peaks *)
Definition apart_from_true_peaks (f : filter) : filter :=
  {| f_channels := f_channels f; f_b := f_b f; f_a := f_a f; f_state := f_state f; f_calc_sample_peak := f_calc_sample_peak f;
     f_sample_peak := f_sample_peak f; f_tp := None; f_true_peak := f_true_peak f |}.
(** The chain filter - gating block - history: between the calls to the filter the energy of the [w] frames that end at place [i] of
    the ring is measured and noted down *)
Inductive stage (T : Type) :=
| Handle (ev : event T)
| Measure (w i : nat).
Arguments Handle {T} _.
Arguments Measure {T} _ _.
Definition rust_stage {T} (P : platform) (S : sample T) (C : nat) (cmap : list channel) (s : filter * list f64 * list f64) (g : stage T) :
    outcome (filter * list f64 * list f64) :=
  match g with
  | Handle ev => s' <- rust_event P S C cmap (fst s) ev ;; Ret (s', snd s)
  | Measure w i => v <- calc_gating_block w (snd (fst s)) i cmap ;; Ret (fst s, snd s ++ [v])
  end.
Definition c_stage {T} (P : platform) (t : ctype T) (C ring : nat) (codes : list N) (s : cmeter * list f64 * list f64) (g : stage T) :
    outcome (cmeter * list f64 * list f64) :=
  match g with
  | Handle ev => s' <- c_event P t C codes (fst s) ev ;; Ret (s', snd s)
  | Measure w i => v <- calc_gating_block_c w (snd (fst s)) ring (i * C) codes C ;; Ret (fst s, snd s ++ [v])
  end.
Definition stage_suitable {T} (P : platform) (S : sample T) (t : ctype T) (rate : N) (C ring : nat) (M : R) (true_peaks : bool) (g : stage T) : Prop :=
  match g with
  | Handle ev => suitable P S t rate C ring M true_peaks ev
  | Measure w i => w <= ring /\ i <= ring
  end.
