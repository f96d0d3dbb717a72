(** Properties of the loudness measurement over time: C08 to C14, C41, C42, C47 to C49.
    [taped P E e t] (Spec.v): the analyzer [e] was constructed and driven by some calls, and [t]
    is what an observer noted down about the audio in these calls: per channel the K-weighted
    signal since the analyzer was started, reset, reconfigured or given another window
    ([signals t]) and the memory of the filter. *)
From Coq Require Import List Arith NArith ZArith Bool Lia Reals.
From Flocq Require Import IEEE754.BinarySingleNaN.
From Verif Require Import Prelude Float Env Utils Interp History Filter Ebur128 Spec Spec_real Stream_proofs Energy_proofs
  Seed_proofs Loud_proofs Dual_proofs Silence_proofs Window_proofs Accuracy_proofs Parallel_proofs Instance Examples Stream_examples.
Import ListNotations.
Local Open Scope nat_scope.

(** every reachable analyzer has such a record, and only reachable ones have *)
Theorem C09_tape_exists : forall P E e, reachable P E e <-> exists t, taped P E e t.
Proof. intros P E e. split; [apply reachable_taped|]. intros (t & H). exact (taped_reachable P E e t H). Qed.

(** * C09, C10: the blocks *)

(** Any sequence of add calls: the gating history gets, in this order, the energy of the 400 ms
    that end at every block end in the frames added; the loudness-range history those of the 3 s
    that end at every short-term block end.  [signals t'] extends [signals t]. *)
Theorem C09_blocks : forall P E, is_64bit P -> forall e t os e' t', taped_session P E e t os e' t' -> taped P E e t ->
  Forall is_add os ->
  let n := frames_of (signals t) in
  let n' := frames_of (signals t') in
  taped P E e' t' /\ n <= n' /\ settings e' = settings e /\ map (firstn n) (signals t') = signals t /\
  (has_I (e_mode e) ->
   record_all (e_block e) (map (energy_at (capacity e) (4 * hop e) (e_cmap e) (signals t')) (block_ends (hop e) n n')) =
   Ret (e_block e')) /\
  (has_LRA (e_mode e) ->
   record_all (e_short e) (map (energy_at (capacity e) (30 * hop e) (e_cmap e) (signals t')) (short_ends (hop e) n n')) =
   Ret (e_short e')).
Proof. exact session_records. Qed.
(** A single call; also that nothing is recorded without the mode. *)
Theorem C09_one_call : forall P E e t a cols r e', is_64bit P -> taped P E e t -> admissible e (OpAdd a) ->
  step P E e (OpAdd a) = Ret (r, e') -> input P (e_channels e) a = Some cols ->
  let t' := tape_after P E e (OpAdd a) t in
  let n := frames_of (signals t) in
  let n' := n + frames_of cols in
  frames_of (signals t') = n' /\ map (firstn n) (signals t') = signals t /\
  (has_I (e_mode e) ->
   record_all (e_block e) (map (energy_at (capacity e) (4 * hop e) (e_cmap e) (signals t')) (block_ends (hop e) n n')) =
   Ret (e_block e')) /\
  (~ has_I (e_mode e) -> e_block e' = e_block e) /\
  (has_LRA (e_mode e) ->
   record_all (e_short e) (map (energy_at (capacity e) (30 * hop e) (e_cmap e) (signals t')) (short_ends (hop e) n n')) =
   Ret (e_short e')) /\
  (~ has_LRA (e_mode e) -> e_short e' = e_short e).
Proof. exact add_records. Qed.
(** No other call records anything: reset empties the histories, set_max_history may change
    them (C43, C44). *)
Theorem C09_other_calls : forall P E e t o r e', is_64bit P -> taped P E e t -> admissible e o -> step P E e o = Ret (r, e') ->
  (forall a, o <> OpAdd a) -> o <> OpReset -> (forall h, o <> OpSetMaxHistory h) ->
  e_block e' = e_block e /\ e_short e' = e_short e.
Proof. exact others_record. Qed.
Theorem C09_reset : forall P E e t r e', is_64bit P -> taped P E e t -> step P E e OpReset = Ret (r, e') ->
  e_block e' = history_reset (e_block e) /\ e_short e' = history_reset (e_short e).
Proof. exact reset_records. Qed.
(** The ends of the blocks: 4s, 5s, 6s, ... frames. *)
Theorem C09_block_ends : forall s n n' k, In k (block_ends s n n') <-> n < k <= n' /\ 4 * s <= k /\ k mod s = 0.
Proof. exact block_ends_spec. Qed.
Theorem C09_block_ends_in_order : forall s n, 1 <= s -> block_ends s 0 n = map (fun k => k * s) (seq 4 (n / s - 3)).
Proof. exact block_ends_0. Qed.
(** ... and 30s, 40s, 50s, ... frames. *)
Theorem C10_short_ends : forall s n n' k,
  In k (short_ends s n n') <-> n < k <= n' /\ 30 * s <= k /\ (k - 30 * s) mod (10 * s) = 0.
Proof. exact short_ends_spec. Qed.
(** C10 is the last part of C09_blocks; restated for one analyzer from its first frame on. *)
Theorem C10_short_blocks : forall P E, is_64bit P -> forall e t os e' t', taped_session P E e t os e' t' -> taped P E e t ->
  Forall is_add os -> has_LRA (e_mode e) ->
  record_all (e_short e) (map (energy_at (capacity e) (30 * hop e) (e_cmap e) (signals t'))
                            (short_ends (hop e) (frames_of (signals t)) (frames_of (signals t')))) =
  Ret (e_short e').
Proof. intros P E HP e t os e' t' HS HT Ha HL. apply (session_records P E HP e t os e' t' HS HT Ha). exact HL. Qed.
Example C09_case : exists e t e' t', taped x86_64 env0 e t /\ taped_session x86_64 env0 e t stereo_calls e' t' /\
  e_mode e = 63%N /\ frames_of (signals t) = 10 /\ frames_of (signals t') = 90 /\ length (block_ends (hop e) 10 90) = 40 /\
  length (short_ends (hop e) 10 90) = 2 /\ blocks (e_block e') = 42%N /\ blocks (e_short e') = 2%N.
Proof. exact stereo_session. Qed.

(** * C11: what the loudness queries read *)
Theorem C11_momentary : forall P E e t, is_64bit P -> taped P E e t ->
  ask P E e QMomentary = Ret (AValue (Ok (reported E (energy (capacity e) (4 * hop e) (e_cmap e) (signals t))))).
Proof. exact ask_momentary. Qed.
Theorem C11_shortterm : forall P E e t, is_64bit P -> taped P E e t ->
  ask P E e QShortterm = Ret (AValue (recent_loudness E e t (30 * hop e))).
Proof. exact ask_shortterm. Qed.
Theorem C11_window : forall P E e t ms, is_64bit P -> taped P E e t -> (ms <= 4294967295)%N ->
  ask P E e (QWindow ms) = Ret (AValue (recent_loudness E e t (N.to_nat (e_rate e * ms / 1000)))).
Proof. exact ask_window. Qed.
Example C11_case : exists e t, taped x86_64 env0 e t /\ is_finite (energy (capacity e) (4 * hop e) (e_cmap e) (signals t)) = true /\
  energy (capacity e) (4 * hop e) (e_cmap e) (signals t) <> f64_zero /\ e_cmap e = [Filter.Left; Filter.LeftSurround].
Proof. exact stereo_energy. Qed.

(** * C12: channel weights *)

(** The energy of an interval is, up to rounding, the mean over its frames of the sum over the
    channels of weight times square, with the weights of [weight] (Spec_real.v).  The interval
    may have any length that fits into the buffer. *)
Theorem C12_weights : forall P E e t w, is_64bit P -> taped P E e t -> 1 <= w <= capacity e ->
  exists x, energy_in_interval e w = Ret (Ok x) /\
    (is_finite x = true ->
     nearly (w + e_channels e + 4) (3 * INR (e_channels e) + 1) (real x) (mean_square w (e_cmap e) (signals t))).
Proof. exact interval_near. Qed.
(** The same for the blocks of C09 and C10, which are recorded with the energy [energy]. *)
Theorem C12_block_weights : forall P E e t w, is_64bit P -> taped P E e t -> 1 <= w <= capacity e ->
  let x := energy (capacity e) w (e_cmap e) (signals t) in
  is_finite x = true ->
  nearly (w + e_channels e + 4) (3 * INR (e_channels e) + 1) (real x) (mean_square w (e_cmap e) (signals t)).
Proof. exact energy_near_taped. Qed.
(** Bit for bit: Unused channels are left out, and only the named roles are scaled at all. *)
Theorem C12_unit_gain : forall ch x, weight ch = 1%R -> apply_weight ch x = x.
Proof. exact apply_weight_unit. Qed.
Example C12_case : exists e t, taped x86_64 env0 e t /\ is_finite (energy (capacity e) (4 * hop e) (e_cmap e) (signals t)) = true /\
  energy (capacity e) (4 * hop e) (e_cmap e) (signals t) <> f64_zero /\ e_cmap e = [Filter.Left; Filter.LeftSurround].
Proof. exact stereo_energy. Qed.

(** * C08: what does not depend on the chunking on any platform *)
Theorem C08_peaks : forall P E e l l' cols e1 e2, is_64bit P -> reachable P E e ->
  session P E e (map OpAdd l) e1 -> session P E e (map OpAdd l') e2 ->
  all_input P (e_channels e) l = Some cols -> all_input P (e_channels e) l' = Some cols ->
  forall c, ask P E e1 (QSamplePeak c) = ask P E e2 (QSamplePeak c) /\
            ask P E e1 (QTruePeak c) = ask P E e2 (QTruePeak c).
Proof. exact chunking_peaks. Qed.
(** the blocks end at the same frames (C09_blocks) *)
Theorem C08_schedule : forall P E, is_64bit P -> forall l e t e1 t1 cols, taped P E e t ->
  taped_session P E e t (map OpAdd l) e1 t1 -> all_input P (e_channels e) l = Some cols ->
  frames_of (signals t1) = frames_of (signals t) + frames_of cols.
Proof. exact chunking_schedule. Qed.

(** * C13: unused channels *)
Theorem C13_unused_channels : forall P E e e' f', is_64bit P -> reachable P E e -> same_session P E e e e' f' ->
  recorded e' = recorded f' /\ settings e' = settings f' /\
  forall q, about_loudness q = true -> ask P E e' q = ask P E f' q.
Proof. exact unused_irrelevant. Qed.
Example C13_case : exists e e' f', reachable x86_64 env0 e /\ In Unused (e_cmap e) /\ same_session x86_64 env0 e e e' f' /\
  blocks (e_block e') = 37%N.
Proof. exact unused_session. Qed.

(** * C14: dual mono *)
Theorem C14_dual_mono : forall P E rate m mono stereo r e e' f', is_64bit P -> supported m rate ->
  ebur128_new P E 1 rate m = Ret (Ok mono) -> ebur128_new P E 2 rate m = Ret (Ok stereo) ->
  step P E mono (OpSetChannel 0 DualMono) = Ret (r, e) ->
  doubled_session P E e stereo e' f' ->
  recorded e' = recorded f' /\
  forall q, about_loudness q = true -> ask P E e' q = ask P E f' q.
Proof. exact dual_mono_is_stereo. Qed.
Example C14_case : exists mono stereo r e e' f', ebur128_new x86_64 env0 1 20 63%N = Ret (Ok mono) /\
  ebur128_new x86_64 env0 2 20 63%N = Ret (Ok stereo) /\ step x86_64 env0 mono (OpSetChannel 0 DualMono) = Ret (r, e) /\
  doubled_session x86_64 env0 e stereo e' f' /\ blocks (e_block e') = 37%N.
Proof. exact doubled_demo. Qed.

(** * C41: seeding *)

(** seed_frames_* changes nothing but the memories of the filters ... *)
Theorem C41_only_filters : forall P E e a r e', is_64bit P -> reachable P E e -> admissible e (OpSeed a) ->
  step P E e (OpSeed a) = Ret (r, e') -> same_but_memories e e'.
Proof. exact seed_memories. Qed.
(** ... so no query can tell ... *)
Theorem C41_queries : forall P E e e' q, same_but_memories e e' -> ask P E e' q = ask P E e q.
Proof. exact memories_ask. Qed.
Theorem C41_rest : forall e e', same_but_memories e e' ->
  settings e' = settings e /\ recorded e' = recorded e /\ buffered e' = buffered e /\ overall_peaks e' = overall_peaks e.
Proof. exact memories_rest. Qed.
(** ... and leaves these as adding the same audio would (without flush-to-zero the memory of
    the K-weighting filter can differ in tiny values, since adding filters in smaller pieces). *)
Theorem C41_like_add : forall P E e a r r' es ea, is_64bit P -> reachable P E e -> admissible e (OpAdd a) ->
  step P E e (OpSeed a) = Ret (r, es) -> step P E e (OpAdd a) = Ret (r', ea) ->
  r = r' /\ snd (memories es) = snd (memories ea) /\ (p_ftz P = true -> fst (memories es) = fst (memories ea)).
Proof. exact seed_interpolator. Qed.
Theorem C41_like_adds : forall P E e t f u l l' cols e' t' f' u', is_64bit P -> p_ftz P = true ->
  taped P E e t -> taped P E f u -> settings f = settings e -> fst (memories f) = fst (memories e) ->
  taped_session P E e t (map OpAdd l) e' t' -> taped_session P E f u (map OpSeed l') f' u' ->
  all_input P (e_channels e) l = Some cols -> all_input P (e_channels e) l' = Some cols ->
  fst (memories f') = fst (memories e') /\ signals u' = signals u /\ settings f' = settings e'.
Proof. exact seed_like_adds. Qed.

(** * C42: analysis in chunks *)

(** The first chunk ends after [n] frames, the others at [cuts]; every later chunk starts to
    measure 300 ms before its predecessor ends.  Then every block of the whole signal is a block
    of exactly one chunk, in order. *)
Theorem C42_each_block_once : forall s, 1 <= s -> forall cuts n, n mod s = 0 -> 3 * s <= n ->
  Forall (fun k => k mod s = 0) cuts -> increasing n cuts ->
  block_ends s 0 (last cuts n) = block_ends s 0 n ++ concat (chunk_ends s n cuts).
Proof. exact many_chunk_blocks. Qed.
(** If the chunk's analyzer starts with the filter memory of the whole signal's analyzer, every
    interval inside the chunk has the same frames in both.  Its energy is also bit for bit the
    same if the chunk starts at a multiple of the buffer length. *)
Theorem C42_same_frames : forall P E e t e' t' f u f' u' l l' cols, is_64bit P -> p_ftz P = true ->
  taped P E e t -> taped P E f u -> settings f = settings e -> fst (memories f) = fst (memories e) ->
  taped_session P E e t (map OpAdd l) e' t' -> taped_session P E f u (map OpAdd l') f' u' ->
  all_input P (e_channels e) l = Some cols -> all_input P (e_channels e) l' = Some cols ->
  frames_of (signals u) = 0 ->
  let n := frames_of (signals t) in
  forall w k, w <= k -> k <= frames_of cols ->
    same_recent w (e_cmap e) (map (firstn k) (signals u')) (map (firstn (n + k)) (signals t')) /\
    (n mod capacity e = 0 ->
     energy_at (capacity e) w (e_cmap e) (signals u') k = energy_at (capacity e) w (e_cmap e) (signals t') (n + k)).
Proof. exact chunk_frames. Qed.
(** It does so if it was seeded with all of the audio before the chunk ... *)
Theorem C42_seeded_with_all : forall P E e t e1 t1 e2 t2 f u f1 u1 f2 u2 l1 l1' l2 l2' before cols,
  is_64bit P -> p_ftz P = true -> taped P E e t -> taped P E f u -> settings f = settings e ->
  fst (memories f) = fst (memories e) -> frames_of (signals u) = 0 ->
  taped_session P E e t (map OpAdd l1) e1 t1 -> taped_session P E f u (map OpSeed l1') f1 u1 ->
  all_input P (e_channels e) l1 = Some before -> all_input P (e_channels e) l1' = Some before ->
  taped_session P E e1 t1 (map OpAdd l2) e2 t2 -> taped_session P E f1 u1 (map OpAdd l2') f2 u2 ->
  all_input P (e_channels e) l2 = Some cols -> all_input P (e_channels e) l2' = Some cols ->
  let n := frames_of (signals t1) in
  forall w k, w <= k -> k <= frames_of cols ->
    same_recent w (e_cmap e) (map (firstn k) (signals u2)) (map (firstn (n + k)) (signals t2)) /\
    (n mod capacity e = 0 ->
     energy_at (capacity e) w (e_cmap e) (signals u2) k = energy_at (capacity e) w (e_cmap e) (signals t2) (n + k)).
Proof. exact seeded_chunk. Qed.
(** ... but not always with the documented last 100 ms: the whole signal's analyzer may still
    hear the decay of the filter. *)
Theorem C42_seeded_100ms_refuted : exists e f l last next e1 e2 f1 f2 v v',
  ebur128_new x86_64 env0 1 20 MODE_M = Ret (Ok e) /\ f = e /\ length l + length last = 12 /\ length last = hop e /\ length next = 4 * hop e /\
  step x86_64 env0 e (OpAdd (AI16 (l ++ last))) = Ret (Ok tt, e1) /\ step x86_64 env0 f (OpSeed (AI16 last)) = Ret (Ok tt, f1) /\
  step x86_64 env0 e1 (OpAdd (AI16 next)) = Ret (Ok tt, e2) /\ step x86_64 env0 f1 (OpAdd (AI16 next)) = Ret (Ok tt, f2) /\
  ask x86_64 env0 e2 QMomentary = Ret (AValue (Ok v)) /\ ask x86_64 env0 f2 QMomentary = Ret (AValue (Ok v')) /\ f64_lt v' v = true.
Proof. exact seed_100ms. Qed.
(** This case meets the hypotheses of C41_like_adds, C42_same_frames and C42_seeded_with_all. *)
Example C42_case : exists e t e1 t1 e2 t2 f u f1 u1 f2 u2 l1 l2 cols,
  taped x86_64 env0 e t /\ taped_session x86_64 env0 e t (map OpAdd l1) e1 t1 /\ taped_session x86_64 env0 e1 t1 (map OpAdd l2) e2 t2 /\
  taped x86_64 env0 f u /\ taped_session x86_64 env0 f u (map OpSeed l1) f1 u1 /\ taped_session x86_64 env0 f1 u1 (map OpAdd l2) f2 u2 /\
  settings f = settings e /\ fst (memories f) = fst (memories e) /\ frames_of (signals u) = 0 /\
  all_input x86_64 (e_channels e) l2 = Some cols /\ frames_of (signals t1) = 10 /\ frames_of cols = 20 /\
  blocks (e_block e2) = 12%N /\ blocks (e_block f2) = 7%N.
Proof. exact chunk_demo. Qed.
Example C42_blocks_case : let s := 2 in let n := 20 in let cuts := [40; 62] in
  Forall (fun k => k mod s = 0) cuts /\ increasing n cuts /\ length (block_ends s 0 62) = 28 /\
  map (length (A := nat)) (chunk_ends s n cuts) = [10; 11].
Proof. cbv zeta. split; [repeat constructor|]. split; [cbn; lia|]. split; vm_compute; reflexivity. Qed.

(** * C47: silence *)
Theorem C47_silence : forall P E channels rate m e0 os e, is_64bit P -> sort_contract E ->
  finite_filter E rate -> finite_taps E rate -> supported m rate ->
  ebur128_new P E channels rate m = Ret (Ok e0) -> session P E e0 os e -> Forall quiet os ->
  ask P E e QMomentary = Ret (AValue (Ok (f64_neg f64_inf))) /\
  ask P E e QShortterm = Ret (AValue (if capacity e <? 30 * hop e then Err InvalidMode else Ok (f64_neg f64_inf))) /\
  (forall ms, (ms <= 4294967295)%N -> (1000 <= e_rate e * ms)%N ->
   ask P E e (QWindow ms) =
   Ret (AValue (if capacity e <? N.to_nat (e_rate e * ms / 1000) then Err InvalidMode else Ok (f64_neg f64_inf)))) /\
  (has_I m -> ask P E e QGlobal = Ret (AValue (Ok (f64_neg f64_inf)))) /\
  (has_I m -> ask P E e QThreshold = Ret (AValue (Ok (f64_of_Z (-70))))) /\
  ask P E e QCount = Ret (ACount None) /\
  (has_LRA m -> ask P E e QRange = Ret (AValue (Ok f64_zero))) /\
  (forall c, (c < channels)%N -> has_SAMPLE_PEAK m ->
   ask P E e (QSamplePeak c) = Ret (AValue (Ok f64_zero)) /\ ask P E e (QPrevSamplePeak c) = Ret (AValue (Ok f64_zero))) /\
  (forall c, (c < channels)%N -> has_TRUE_PEAK m ->
   ask P E e (QTruePeak c) = Ret (AValue (Ok f64_zero)) /\ ask P E e (QPrevTruePeak c) = Ret (AValue (Ok f64_zero))).
Proof. exact Silence_proofs.silence. Qed.
Example C47_case : (exists e0 e, ebur128_new x86_64 env0 2 20 63%N = Ret (Ok e0) /\ session x86_64 env0 e0 silent_calls e) /\
  Forall quiet silent_calls /\ finite_filter env0 20 /\ finite_taps env0 20.
Proof. split; [exact silent_session|]. split; [exact silent_calls_quiet|exact env0_finite]. Qed.

(** * C48: signs *)
(** every energy the library computes, from any buffer *)
Theorem C48_energies_not_negative : forall n audio i roles x, calc_gating_block n audio i roles = Ret x ->
  is_nan x = true \/ f64_le f64_zero x = true.
Proof. exact gating_block_sign. Qed.
(** The momentary, short-term or window loudness is -infinity if the energy of its interval is
    0, and the loudness of that energy otherwise. *)
Theorem C48_infinity_iff_zero : forall P E e q n v, is_64bit P -> reachable P E e ->
  (q = QMomentary /\ n = 4 * hop e \/ q = QShortterm /\ n = 30 * hop e \/
   exists ms, q = QWindow ms /\ (ms <= 4294967295)%N /\ n = N.to_nat (e_rate e * ms / 1000)) ->
  ask P E e q = Ret (AValue (Ok v)) ->
  exists x, energy_in_interval e n = Ret (Ok x) /\
    (x = f64_zero -> v = f64_neg f64_inf) /\ (x <> f64_zero -> v = loudness E x).
Proof. exact reported_energy. Qed.
Example C48_case : exists e v, reachable x86_64 env0 e /\ ask x86_64 env0 e QMomentary = Ret (AValue (Ok v)) /\
  exists x, energy_in_interval e (4 * hop e) = Ret (Ok x) /\ x <> f64_zero.
Proof.
  destruct stereo_energy as (e & t & HT & _ & H & _). exists e. eexists.
  split; [eapply taped_reachable; eauto|]. split; [apply (ask_momentary x86_64 env0 e t); auto; reflexivity|].
  destruct (C12_weights x86_64 env0 e t (4 * hop e)) as (x & Hx & _); [reflexivity|exact HT| |].
  - destruct (four_hops x86_64 env0 e t) as (H1 & H2); [reflexivity|exact HT|lia].
  - exists x. split; [exact Hx|]. rewrite (interval_ok x86_64 env0 e t _ eq_refl HT) in Hx.
    destruct (_ <? _); [discriminate|]. now injection Hx as <-.
Qed.

(** * C49: windows *)
Theorem C49_window_400 : forall P E e, is_64bit P -> reachable P E e -> (e_rate e mod 10 = 0)%N ->
  ask P E e (QWindow 400) = ask P E e QMomentary.
Proof. exact window_400. Qed.
Theorem C49_window_3000 : forall P E e, is_64bit P -> reachable P E e -> (e_rate e mod 10 = 0)%N ->
  ask P E e (QWindow 3000) = ask P E e QShortterm.
Proof. exact window_3000. Qed.
Theorem C49_window_0 : forall P E e ms, is_64bit P -> reachable P E e -> (ms <= 4294967295)%N ->
  (e_rate e * ms < 1000)%N -> e_log10 E f64_nan = f64_nan ->
  ask P E e (QWindow ms) = Ret (AValue (Ok f64_nan)).
Proof. exact window_0. Qed.
Example C49_case : (exists e, reachable x86_64 env0 e /\ e_rate e = 20%N /\ (e_rate e mod 10 = 0)%N /\ (e_rate e * 49 < 1000)%N /\ has_S (e_mode e)) /\
  e_log10 env0 f64_nan = f64_nan.
Proof. exact window_demo. Qed.

(** * Assumptions *)
Print Assumptions C09_tape_exists.
Print Assumptions C09_blocks.
Print Assumptions C09_one_call.
Print Assumptions C09_other_calls.
Print Assumptions C09_reset.
Print Assumptions C09_block_ends.
Print Assumptions C09_block_ends_in_order.
Print Assumptions C10_short_ends.
Print Assumptions C10_short_blocks.
Print Assumptions C11_momentary.
Print Assumptions C11_shortterm.
Print Assumptions C11_window.
Print Assumptions C12_weights.
Print Assumptions C12_block_weights.
Print Assumptions C12_unit_gain.
Print Assumptions C08_peaks.
Print Assumptions C08_schedule.
Print Assumptions C13_unused_channels.
Print Assumptions C14_dual_mono.
Print Assumptions C41_only_filters.
Print Assumptions C41_queries.
Print Assumptions C41_rest.
Print Assumptions C41_like_add.
Print Assumptions C41_like_adds.
Print Assumptions C42_each_block_once.
Print Assumptions C42_same_frames.
Print Assumptions C42_seeded_with_all.
Print Assumptions C42_seeded_100ms_refuted.
Print Assumptions C47_silence.
Print Assumptions C48_energies_not_negative.
Print Assumptions C48_infinity_iff_zero.
Print Assumptions C49_window_400.
Print Assumptions C49_window_3000.
Print Assumptions C49_window_0.
