(** C78, C79: the example programs. *)
From Coq Require Import List Arith NArith ZArith Reals.
From Flocq Require Import IEEE754.BinarySingleNaN.
From Verif Require Import Prelude Float Env Filter Ebur128 Programs Spec Spec_real Spec_coeff Spec_history Spec_accuracy Spec_programs
  Instance Instance_accuracy Stream_examples Programs_proofs Programs_examples Normalize_proofs Normalize_examples.
Import ListNotations.
Local Open Scope R_scope.

(** * C78: what the ReplayGain example prints *)
(** One file: the program either stops with a panic, when no block is above the absolute threshold, or reports the answers of
    an analyzer that was given the file, and the largest sample. *)
Theorem C78_track : forall P E w, is_64bit P -> powf_contract E -> bsearch_contract E -> proper_recording w ->
  exists e, analyzed P E w e /\
  ((ask P E e QCount = Ret (ACount None) /\ analyze_file P E w = Panic) \/
   (exists t, analyze_file P E w = Ret t /\ ask P E e QCount = Ret (ACount (Some (t_count t, t_energy t))) /\
      ask P E e QGlobal = Ret (AValue (Ok (t_loudness t))) /\ Spec.largest (sample_levels w) (t_peak t))).
Proof. exact track_answers. Qed.
(** On hardware with flush-to-zero the pieces do not matter. *)
Theorem C78_pieces : forall P E w e e' q, is_64bit P -> p_ftz P = true -> proper_recording w -> analyzed P E w e -> analyzed P E w e' -> is_prev q = false ->
  ask P E e q = ask P E e' q.
Proof. exact analyzed_same. Qed.
(** An album: track gains to -18 LUFS, the album gain from the energies and the numbers of blocks of all tracks, between the
    smallest and the largest track gain, the largest sample of all. *)
Theorem C78_album : forall P E ws, is_64bit P -> powf_contract E -> bsearch_contract E -> log10_accurate E -> ws <> [] -> (N.of_nat (length ws) <= 100000)%N ->
  (N.of_nat (length (flat_map w_samples ws)) < 18446744073709551616)%N -> Forall proper_recording ws -> Forall (audible P E) ws ->
  exists ts gain peak, replaygain P E ws = Ret (map (fun t => (track_gain t, t_peak t)) ts, (gain, peak)) /\
    Forall2 (fun w t => exists e, analyzed P E w e /\ ask P E e QCount = Ret (ACount (Some (t_count t, t_energy t))) /\ Spec.largest (sample_levels w) (t_peak t)) ws ts /\
    Forall (fun t => is_finite (track_gain t) = true /\ Rabs (real (track_gain t) - prescribed_gain (real (t_energy t)) (amount (t_count t))) <= / 10 ^ 9) ts /\
    is_finite gain = true /\ Rabs (real gain - prescribed_gain (total (map (fun t => real (t_energy t)) ts)) (total (map (fun t => amount (t_count t)) ts))) <= / 10 ^ 9 /\
    (forall lo hi, Forall (fun t => lo <= real (track_gain t) <= hi) ts -> lo - 2 / 10 ^ 9 <= real gain <= hi + 2 / 10 ^ 9) /\
    Spec.largest (flat_map sample_levels ws) peak.
Proof. exact album_answers. Qed.
(** a loud and a soft track *)
Example C78_example : powf_contract env1 /\ bsearch_contract env1 /\ log10_accurate env1 /\ Forall proper_recording [tune 100; tune 1] /\ Forall (audible x86_64 env1) [tune 100; tune 1].
Proof. exact (conj env1_powf (conj env1_bsearch (conj env1_accurate tune_album))). Qed.
(** A track shorter than 400 ms stops the program, whatever the other tracks are: no gain is printed. *)
Theorem C78_short : forall P E ws w, is_64bit P -> powf_contract E -> bsearch_contract E -> Forall proper_recording ws ->
  In w ws -> too_short w -> replaygain P E ws = Panic.
Proof. exact short_stops. Qed.
Example C78_short_example : Forall proper_recording [tune 100; short_tune 100] /\ too_short (short_tune 100).
Proof. exact short_case. Qed.
(** So does a silent one. *)
Theorem C78_silent : forall P E ws w, is_64bit P -> powf_contract E -> bsearch_contract E -> sort_contract E -> Forall proper_recording ws ->
  In w ws -> Forall (fun s => s = 0%Z) (w_samples w) -> finite_filter E (w_rate w) -> finite_taps E (w_rate w) -> replaygain P E ws = Panic.
Proof. exact silent_stops. Qed.
Example C78_silent_example : powf_contract env0 /\ bsearch_contract env0 /\ sort_contract env0 /\ Forall proper_recording [tune 100; tune 0] /\
  Forall (fun s => s = 0%Z) (w_samples (tune 0)) /\ finite_filter env0 (w_rate (tune 0)) /\ finite_taps env0 (w_rate (tune 0)).
Proof. exact silent_case. Qed.
(** The album gain is not the gain to -18 LUFS of the loudness that the crate reports for several analyzers together: each
    track is gated by its own level, not by the level of the album. *)
Theorem C78_multiple_refuted : exists e1 e2 gains gain peak l, analyzed x86_64 env0 (tune 100) e1 /\ analyzed x86_64 env0 (tune 1) e2 /\
  replaygain x86_64 env0 [tune 100; tune 1] = Ret (gains, (gain, peak)) /\ loudness_global_multiple x86_64 env0 [e1; e2] = Ret (Ok l) /\
  f64_lt (f64_add (f64_sub (f64_of_Z (-18)) l) (f64_of_Z 3)) gain = true.
Proof. exact album_apart. Qed.


(** * C79: what the normalize example writes *)
(** Whatever `powf` returns, the program ends, and the output has as many samples, all within +-32767. *)
Theorem C79_fits : forall P E powf32 w, is_64bit P -> powf_contract E -> bsearch_contract E -> proper_recording w ->
  exists out, normalize P E powf32 w = Ret out /\ length out = length (w_samples w) /\ Forall (fun z => -32767 <= z <= 32767)%Z out.
Proof. exact output_fits. Qed.
(** Every sample is changed alike, in an increasing and odd way: it is multiplied by the gain from the loudness of the
    recording to -23 LUFS and clipped, to within 3/2 of a step; if the loudness is not a number of LUFS, every sample that is
    not zero becomes full scale. *)
Theorem C79_output : forall P E powf32 w, is_64bit P -> powf_contract E -> bsearch_contract E -> log10_accurate E -> powf32_contract powf32 -> proper_recording w ->
  exists e l f, analyzed P E w e /\ ask P E e QGlobal = Ret (AValue (Ok l)) /\ normalize P E powf32 w = Ret (map f (w_samples w)) /\
    (forall s s', (s <= s' -> f s <= f s')%Z) /\ (forall s, f (- s) = - f s)%Z /\
    (is_finite l = true -> forall s, (-32768 <= s <= 32767)%Z -> Rabs (IZR (f s) - clip (target_gain (real l) * IZR s)) <= 3 / 2) /\
    (is_finite l = false -> forall s, f s = (Z.sgn s * 32767)%Z).
Proof. exact outputs. Qed.
(** The second case exists: a recording shorter than 400 ms becomes full scale. *)
Theorem C79_short : forall P E powf32 w, is_64bit P -> powf_contract E -> bsearch_contract E -> powf32_contract powf32 -> proper_recording w -> too_short w ->
  normalize P E powf32 w = Ret (map (fun s => Z.sgn s * 32767)%Z (w_samples w)).
Proof. exact short_output. Qed.
(** the first too *)
Example C79_example : powf_contract env1 /\ bsearch_contract env1 /\ log10_accurate env1 /\ powf32_contract exact_powf32 /\
  proper_recording (tune 1) /\ (exists e l, analyzed x86_64 env1 (tune 1) e /\ ask x86_64 env1 e QGlobal = Ret (AValue (Ok l)) /\ is_finite l = true) /\
  proper_recording (short_tune 1) /\ too_short (short_tune 1).
Proof. exact (conj env1_powf (conj env1_bsearch (conj env1_accurate normalize_case))). Qed.

(** * Assumptions *)
Print Assumptions C78_track.
Print Assumptions C78_pieces.
Print Assumptions C78_album.
Print Assumptions C78_short.
Print Assumptions C78_silent.
Print Assumptions C78_multiple_refuted.
Print Assumptions C79_fits.
Print Assumptions C79_output.
Print Assumptions C79_short.
