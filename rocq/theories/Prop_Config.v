(** Properties of construction, setters, containers, reset and buffer sizes:
    C01, C03, C04, C05, C06, C40, C43, C44, C46, C52. *)
From Coq Require Import List Arith NArith ZArith Bool Lia.
From Verif Require Import Prelude Float Env Utils History Filter Ebur128 Spec Config_proofs Instance Examples.
Import ListNotations.

(** * C01: new accepts exactly the documented configurations *)
Theorem C01_new : forall P E channels rate m, is_64bit P ->
  (~ (channels_valid channels /\ rate_valid rate) -> ebur128_new P E channels rate m = Ret (Err NoMem)) /\
  (channels_valid channels -> rate_valid rate -> ~ has_M m ->
     ebur128_new P E channels rate m = Ret (Err InvalidMode)) /\
  (channels_valid channels -> rate_valid rate -> has_M m ->
     exists e, ebur128_new P E channels rate m = Ret (Ok e) /\
       e_mode e = m /\ e_rate e = rate /\ e_channels e = N.to_nat channels /\
       e_cmap e = default_map_spec (N.to_nat channels) /\
       (has_S m -> e_window e = 3000%N) /\ (~ has_S m -> e_window e = 400%N) /\
       e_history e = p_usize_max P).
Proof. exact new_spec. Qed.
Example C01_example : is_64bit x86_64 /\ channels_valid 6 /\ rate_valid 48000 /\ has_M 63%N /\ has_S 63%N /\
  ~ has_M 64%N /\ ~ rate_valid 15.
Proof. repeat split; try (intros H; vm_compute in H; try discriminate H); try reflexivity; intuition discriminate. Qed.

(** * C03: the buffer holds a 400 ms block *)
Theorem C03_momentary_available : forall P E e, is_64bit P -> reachable P E e ->
  4 * N.to_nat (hundred_ms (e_rate e)) * e_channels e <= length (e_audio e) /\
  exists v, loudness_momentary E e = Ret (Ok v).
Proof. exact momentary_available. Qed.
Example C03_example : exists e, reachable x86_64 env0 e /\ e_rate e = 20%N.
Proof. destruct demo_list_ok as (e & H). exists e. tauto. Qed.

(** At 16 and 17 Hz without S, momentary loudness is never available and adding
    400 ms of audio panics, for every channel count and sample format. *)
Theorem C03_refuted : forall P E channels rate m, is_64bit P -> channels_valid channels ->
  (rate = 16 \/ rate = 17)%N -> has_M m -> ~ has_S m ->
  exists e, ebur128_new P E channels rate m = Ret (Ok e) /\
    loudness_momentary E e = Ret (Err InvalidMode) /\
    forall T (S : sample T) (l : list T) n, 8 <= n -> length l = n * N.to_nat channels ->
      add_frames_interleaved P S e l = Panic.
Proof. exact rates_16_17. Qed.
Example C03_refuted_example :
  match ebur128_new x86_64 env0 1 16 MODE_I with
  | Ret (Ok e) => match add_frames_interleaved x86_64 smp_i16 e [0;0;0;0;0;0;0;0]%Z with Panic => true | _ => false end
  | _ => false end = true.
Proof. vm_compute. reflexivity. Qed.

(** * C04: short-term loudness *)
Theorem C04_shortterm_available : forall P E e, is_64bit P -> reachable P E e ->
  (has_S (e_mode e) -> (146 <= e_rate e)%N \/ (29 * hundred_ms (e_rate e) < 3 * e_rate e)%N ->
     exists v, loudness_shortterm E e = Ret (Ok v)) /\
  (forall a, admissible e (OpAdd a) -> exists r e', step P E e (OpAdd a) = Ret (r, e') /\
     (r = Ok tt \/ r = Err NoMem /\ e' = e)).
Proof. exact shortterm_available. Qed.
Example C04_example : exists e, reachable x86_64 env0 e /\ has_S (e_mode e) /\
  (29 * hundred_ms (e_rate e) < 3 * e_rate e)%N.
Proof.
  destruct demo_list_ok as (e & H & M & R & _). exists e. split; auto. rewrite M, R. split; [|reflexivity].
  split; reflexivity.
Qed.
(** With the default 3 s window and a rate for which 29 rounded 100 ms steps
    reach 3 s, short-term loudness is never available. *)
Theorem C04_refuted : forall P E e, is_64bit P -> reachable P E e -> e_window e = 3000%N ->
  ~ (29 * hundred_ms (e_rate e) < 3 * e_rate e)%N -> loudness_shortterm E e = Ret (Err InvalidMode).
Proof. intros P E e HP Hr. exact (proj2 (shortterm_iff P E e HP Hr)). Qed.
Example C04_refuted_example : exists e, reachable x86_64 env0 e /\ has_S (e_mode e) /\ e_window e = 3000%N /\
  ~ (29 * hundred_ms (e_rate e) < 3 * e_rate e)%N.
Proof. exact low_rate_reachable. Qed.
(** At such a rate (25 Hz), LRA makes add_frames fail in the middle of its input,
    and a later call panics. *)
Theorem C04_lra_refuted :
  exists e0 e1 e2 e3,
    ebur128_new x86_64 env0 1 25 MODE_LRA = Ret (Ok e0) /\
    add_frames_interleaved x86_64 smp_i16 e0 (silence 89) = Ret (Ok tt, e1) /\
    add_frames_interleaved x86_64 smp_i16 e1 (silence 1) = Ret (Err InvalidMode, e2) /\
    add_frames_interleaved x86_64 smp_i16 e2 (silence 1) = Ret (Ok tt, e3) /\
    add_frames_interleaved x86_64 smp_i16 e3 (silence 75) = Panic.
Proof. exact lra_25_fails. Qed.

(** * C05: containers *)
Theorem C05_containers : forall T P E (S : sample T) e, is_64bit P -> reachable P E e ->
  (forall l : list T, length l mod e_channels e <> 0 ->
     add_frames_interleaved P S e l = Ret (Err NoMem, e) /\ seed_frames_interleaved P S e l = Ret (Err NoMem, e)) /\
  (forall l : list T, length l mod e_channels e = 0 -> exists e1 e2,
     add_frames_interleaved P S e l = Ret (Ok tt, e1) /\ seed_frames_interleaved P S e l = Ret (Ok tt, e2)) /\
  (forall l : list (list T), ~ rectangular l ->
     add_frames_planar P S e l = Ret (Err NoMem, e) /\ seed_frames_planar P S e l = Ret (Err NoMem, e)) /\
  (forall l : list (list T), rectangular l -> length l = e_channels e -> exists e1 e2,
     add_frames_planar P S e l = Ret (Ok tt, e1) /\ seed_frames_planar P S e l = Ret (Ok tt, e2)).
Proof. exact @containers. Qed.
Theorem C05_refuted_wrong_plane_count : forall T P E (S : sample T) e l n, is_64bit P -> reachable P E e ->
  l <> [] -> Forall (fun p : list T => length p = n) l -> length l <> e_channels e ->
  (0 < n -> add_frames_planar P S e l = Panic) /\ seed_frames_planar P S e l = Panic.
Proof. intros T P E S e l n HP Hr. exact (wrong_planes_panic P E S e l n (Reach_proofs.reachable_ok P E e HP Hr)). Qed.
Example C05_example : exists e, reachable x86_64 env0 e /\ e_channels e = 2 /\
  length [1;2;3]%Z mod e_channels e <> 0 /\ ~ rectangular [[1;2];[3]]%Z /\
  rectangular [[1;2];[3;4]]%Z /\ length [[1;2]]%Z <> e_channels e.
Proof.
  destruct demo_list_ok as (e & H & _ & _ & C & _). exists e. rewrite C. repeat split; auto; try discriminate.
  - intros (_ & n & HF). inversion_clear HF. inversion_clear H1. simpl in *. congruence.
  - exists 2. repeat constructor.
Qed.

(** * C06: failed calls change nothing (on every platform) *)
Theorem C06_failed_call_unchanged : forall P E e o er e', (forall a, o <> OpAdd a) ->
  step P E e o = Ret (Err er, e') -> e' = e.
Proof. exact failed_setter. Qed.
Theorem C06_failed_add_unchanged : forall P E e a er e', is_64bit P -> reachable P E e ->
  admissible e (OpAdd a) -> step P E e (OpAdd a) = Ret (Err er, e') -> e' = e /\ er = NoMem.
Proof. exact failed_add. Qed.
Example C06_example :
  passes demo_list (fun e => match step x86_64 env0 e (OpSetChannel 2 Left), step x86_64 env0 e (OpChangeParameters 65 20),
      step x86_64 env0 e (OpSetChannelMap [Left]), step x86_64 env0 e (OpAdd (AI16 [1;2;3]%Z)) with
    | Ret (Err _, _), Ret (Err _, _), Ret (Err _, _), Ret (Err _, _) => true | _, _, _, _ => false end) = true.
Proof. vm_compute. reflexivity. Qed.

(** * C40: reset *)
(** After reset the analyzer equals a new one with the same window and channel
    map, up to the bound of the (empty) histories; hence any later sequence of
    calls and queries agrees. *)
Theorem C40_reset_is_fresh : forall P E e, is_64bit P -> reachable P E e ->
  exists e' e0 e1, ebur128_reset e = Ret e' /\
    ebur128_new P E (N.of_nat (e_channels e)) (e_rate e) (e_mode e) = Ret (Ok e0) /\
    run P E e0 [OpSetMaxWindow (e_window e); OpSetChannelMap (e_cmap e)] = Ret ([Ok tt; Ok tt], e1) /\
    e' = limit_history e1 (e_history e) /\ (e_history e = p_usize_max P -> e' = e1).
Proof. exact reset_is_fresh. Qed.
(** With histograms the bound is immaterial and the analyzer equals a new one
    configured by the public setters. *)
Theorem C40_reset_is_fresh_histogram : forall P E e, is_64bit P -> reachable P E e -> has_HISTOGRAM (e_mode e) ->
  exists e' e0, ebur128_reset e = Ret e' /\
    ebur128_new P E (N.of_nat (e_channels e)) (e_rate e) (e_mode e) = Ret (Ok e0) /\
    run P E e0 [OpSetMaxWindow (e_window e); OpSetChannelMap (e_cmap e); OpSetMaxHistory (e_history e)]
      = Ret ([Ok tt; Ok tt; Ok tt], e').
Proof. exact reset_is_fresh_histogram. Qed.
(** In list mode a new analyzer given the same limit by set_max_history differs:
    it already reports 30 gating blocks (see C30). *)
Theorem C40_history_limit_refuted :
  exists e0 e1 e2,
    ebur128_new x86_64 env0 1 20 MODE_I = Ret (Ok e0) /\
    set_max_history e0 3000 = (Ok tt, e1) /\ ebur128_reset e1 = Ret e2 /\
    gating_block_count_and_energy x86_64 env0 e2 = Ret None /\
    gating_block_count_and_energy x86_64 env0 e1 = Ret (Some (30%N, f64_zero)).
Proof. exact reset_limit_differs. Qed.
Example C40_example : exists e, reachable x86_64 env0 e /\ has_HISTOGRAM (e_mode e) /\ blocks (e_block e) = 37%N.
Proof. destruct demo_hist_ok as (e & H & M & _ & _ & B & _). exists e. rewrite M. repeat split; auto. Qed.

(** * C43: change_parameters *)
Theorem C43_change_parameters : forall P E e channels rate, is_64bit P -> reachable P E e ->
  (~ (channels_valid channels /\ rate_valid rate) ->
     change_parameters P E e channels rate = Ret (Err NoMem, e)) /\
  (channels = N.of_nat (e_channels e) -> rate = e_rate e ->
     change_parameters P E e channels rate = Ret (Ok tt, e)) /\
  (channels_valid channels -> rate_valid rate ->
   ~ (channels = N.of_nat (e_channels e) /\ rate = e_rate e) ->
   exists e' e0 e1, change_parameters P E e channels rate = Ret (Ok tt, e') /\
     ebur128_new P E channels rate (e_mode e) = Ret (Ok e0) /\
     set_max_window P e0 (e_window e) = Ret (Ok tt, e1) /\
     buffered e' = buffered e1 /\ e_filter e' = e_filter e1 /\
     recorded e' = recorded e /\
     e_mode e' = e_mode e /\ e_rate e' = rate /\ e_channels e' = N.to_nat channels /\
     e_window e' = e_window e /\ e_history e' = e_history e /\
     (channels = N.of_nat (e_channels e) -> e_cmap e' = e_cmap e /\ overall_peaks e' = overall_peaks e) /\
     (channels <> N.of_nat (e_channels e) -> e_cmap e' = e_cmap e1 /\ overall_peaks e' = overall_peaks e1)).
Proof. exact change_spec. Qed.
Example C43_example : exists e, reachable x86_64 env0 e /\ channels_valid 1 /\ rate_valid 20 /\
  ~ (1%N = N.of_nat (e_channels e) /\ 20%N = e_rate e).
Proof.
  destruct demo_hist_ok as (e & H & _ & _ & C & _). exists e. rewrite C. repeat split; auto; try discriminate.
  intros (X & _). discriminate.
Qed.

(** * C44: set_max_window and set_max_history *)
Theorem C44_set_max_window : forall P E e w, is_64bit P -> reachable P E e -> (w <= 4294967295)%N ->
  exists e', set_max_window P e w = Ret (Ok tt, e') /\
    (has_S (e_mode e) -> e_window e' = N.max w 3000) /\
    (~ has_S (e_mode e) -> e_window e' = N.max w 400) /\
    (e_window e' = e_window e -> e' = e) /\
    (e_window e' <> e_window e ->
       exists e0 e1,
         ebur128_new P E (N.of_nat (e_channels e)) (e_rate e) (e_mode e) = Ret (Ok e0) /\
         set_max_window P e0 w = Ret (Ok tt, e1) /\
         buffered e' = buffered e1) /\
    e_filter e' = e_filter e /\ recorded e' = recorded e /\ overall_peaks e' = overall_peaks e /\
    e_mode e' = e_mode e /\ e_rate e' = e_rate e /\ e_channels e' = e_channels e /\ e_cmap e' = e_cmap e /\
    e_history e' = e_history e.
Proof. exact set_window_spec. Qed.
Theorem C44_set_max_history : forall P E e h, is_64bit P -> reachable P E e ->
  exists e', set_max_history e h = (Ok tt, e') /\
    (has_S (e_mode e) -> e_history e' = N.max h 3000) /\
    (~ has_S (e_mode e) -> e_history e' = N.max h 400) /\
    (e_history e' = e_history e -> e' = e) /\
    buffered e' = buffered e /\ e_filter e' = e_filter e /\ overall_peaks e' = overall_peaks e /\
    e_mode e' = e_mode e /\ e_rate e' = e_rate e /\ e_channels e' = e_channels e /\ e_cmap e' = e_cmap e /\
    e_window e' = e_window e.
Proof. exact set_history_spec. Qed.
Example C44_example : exists e, reachable x86_64 env0 e /\ has_S (e_mode e) /\ e_index e = 20.
Proof. destruct demo_hist_ok as (e & H & M & _ & _ & _ & _ & I). exists e. rewrite M. repeat split; auto. Qed.

(** * C46: channel map *)
Theorem C46_map_rules : forall P E e, is_64bit P -> reachable P E e ->
  length (e_cmap e) = e_channels e /\ (In DualMono (e_cmap e) -> e_channels e = 1).
Proof. exact map_rules. Qed.
Theorem C46_set_channel : forall P E e number v, is_64bit P -> reachable P E e ->
  let good := (number < N.of_nat (e_channels e))%N /\ (v = DualMono -> e_channels e = 1) in
  (good ->
   exists e', set_channel e number v = Ret (Ok tt, e') /\ same_but_map e e' /\
     forall i, nth_error (e_cmap e') i = if i =? N.to_nat number then Some v else nth_error (e_cmap e) i) /\
  (~ good -> set_channel e number v = Ret (Err InvalidChannelIndex, e)).
Proof. exact set_channel_spec. Qed.
Theorem C46_set_channel_map : forall P E e m, is_64bit P -> reachable P E e ->
  let good := length m = e_channels e /\ (In DualMono m -> e_channels e = 1) in
  (good -> exists e', set_channel_map e m = Ret (Ok tt, e') /\ same_but_map e e' /\ e_cmap e' = m) /\
  (~ good -> set_channel_map e m = Ret (Err InvalidChannelIndex, e)).
Proof. exact set_channel_map_spec. Qed.
Example C46_example : exists e, reachable x86_64 env0 e /\ e_cmap e = [DualMono].
Proof. exact dual_mono_reachable. Qed.

(** * C52: sizes *)
Theorem C52_new_size : forall P E channels rate m r, channels_valid channels -> rate_valid rate -> has_M m ->
  ebur128_new P E channels rate m = Ret r ->
  r = Err NoMem \/ exists e, r = Ok e /\
    N.of_nat (length (e_audio e)) = (buffer_size rate (e_window e) * channels)%N.
Proof. exact new_size. Qed.
Theorem C52_change_parameters_size : forall P E e channels rate r e', channels_valid channels -> rate_valid rate ->
  step P E e (OpChangeParameters channels rate) = Ret (r, e') -> e' <> e ->
  N.of_nat (length (e_audio e')) = (buffer_size rate (e_window e) * channels)%N.
Proof. exact change_size. Qed.
Theorem C52_set_max_window_size : forall P E e w r e', (16 <= e_rate e)%N ->
  step P E e (OpSetMaxWindow w) = Ret (r, e') -> e' <> e ->
  N.of_nat (length (e_audio e')) = (buffer_size (e_rate e) (e_window e') * N.of_nat (e_channels e))%N.
Proof. exact window_size. Qed.
(** On a 32-bit target some accepted configurations give NoMem, others panic in
    the allocator instead of returning NoMem. *)
Theorem C52_refuted_32bit : forall E,
  ebur128_new i686 E 1 2822400 MODE_S = Ret (Err NoMem) /\
  ebur128_new i686 E 64 1400000 MODE_S = Panic.
Proof. exact size_32bit. Qed.
Example C52_example : exists e, demo i686 2 20 MODE_S [] = Ret e.
Proof.
  destruct (passes_spec (demo i686 2 20 MODE_S []) (fun _ => true)) as (e & H & _); [vm_compute; reflexivity|].
  exists e. exact H.
Qed.

(** * Assumptions *)
Print Assumptions C01_new.
Print Assumptions C03_momentary_available.
Print Assumptions C03_refuted.
Print Assumptions C04_shortterm_available.
Print Assumptions C04_refuted.
Print Assumptions C04_lra_refuted.
Print Assumptions C05_containers.
Print Assumptions C05_refuted_wrong_plane_count.
Print Assumptions C06_failed_call_unchanged.
Print Assumptions C06_failed_add_unchanged.
Print Assumptions C40_reset_is_fresh.
Print Assumptions C40_reset_is_fresh_histogram.
Print Assumptions C40_history_limit_refuted.
Print Assumptions C43_change_parameters.
Print Assumptions C44_set_max_window.
Print Assumptions C44_set_max_history.
Print Assumptions C46_map_rules.
Print Assumptions C46_set_channel.
Print Assumptions C46_set_channel_map.
Print Assumptions C52_new_size.
Print Assumptions C52_change_parameters_size.
Print Assumptions C52_set_max_window_size.
Print Assumptions C52_refuted_32bit.
