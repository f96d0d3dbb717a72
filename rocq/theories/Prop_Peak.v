(** Properties of the peak meters: C32 to C37.
    [logged P E e lg] (Spec.v): the analyzer [e] was constructed and driven by some
    calls, and [lg] is what an observer noted down about the audio in these calls. *)
From Coq Require Import List Arith NArith ZArith Bool Lia Reals.
From Flocq Require Import IEEE754.BinarySingleNaN.
From Verif Require Import Prelude Float Env Utils Interp History Filter Ebur128 Spec Format_proofs Feed_proofs Peak_proofs
  Instance Examples.
Import ListNotations.

(** every reachable analyzer has such a log, and only reachable ones have *)
Theorem C32_log_exists : forall P E e, reachable P E e <-> exists lg, logged P E e lg.
Proof. intros P E e. split; [apply reachable_logged|]. intros (lg & H). exact (logged_reachable P E e lg H). Qed.

(** * C32: sample peak *)

(** sample_peak is the largest level of the samples of the channel added since
    construction, reset or the last change of the channel count; 0 without samples. *)
Theorem C32_sample_peak : forall P E e lg c, is_64bit P -> logged P E e lg -> has_SAMPLE_PEAK (e_mode e) ->
  (c < N.of_nat (e_channels e))%N ->
  exists v, ask P E e (QSamplePeak c) = Ret (AValue (Ok v)) /\ largest (levels_of (channel c (lg_heard lg))) v.
Proof. exact sample_peak_log. Qed.
(** A new analyzer that is fed any number of calls in any formats and layouts. *)
Theorem C32_fresh : forall P E channels rate m e l rs e1 cols c, is_64bit P ->
  ebur128_new P E channels rate m = Ret (Ok e) -> supported m rate -> has_SAMPLE_PEAK m -> (c < channels)%N ->
  Forall (fun a => admissible e (OpAdd a)) l -> all_input P (N.to_nat channels) l = Some cols ->
  run P E e (map OpAdd l) = Ret (rs, e1) ->
  exists v, ask P E e1 (QSamplePeak c) = Ret (AValue (Ok v)) /\ largest (levels_of (channel c cols)) v.
Proof. exact fresh_sample_peak. Qed.
(** The level of a sample is exactly |x| / full scale ... *)
Theorem C32_level_i16 : forall P z, in_i16 z -> is_finite (r_level (read P smp_i16 z)) = true /\
  B2R (r_level (read P smp_i16 z)) = (IZR (Z.abs z) / 32768)%R.
Proof. exact level_i16. Qed.
Theorem C32_level_i32 : forall P z, in_i32 z -> is_finite (r_level (read P smp_i32 z)) = true /\
  B2R (r_level (read P smp_i32 z)) = (IZR (Z.abs z) / 2147483648)%R.
Proof. exact level_i32. Qed.
(** ... or |x| for floats (NaN stays NaN and is passed over by [largest]) ... *)
Theorem C32_level_f32 : forall P x, r_level (read P smp_f32 x) = f64_of_f32 (f32_abs x).
Proof. exact level_f32. Qed.
Theorem C32_level_f64 : forall P x, (p_ftz P = true -> subnormal64 x = false) -> r_level (read P smp_f64 x) = f64_abs x.
Proof. exact level_f64_normal. Qed.
(** ... except that subnormal f64 samples count as 0 where the hardware flushes. *)
Theorem C32_level_f64_subnormal : forall P x, p_ftz P = true -> subnormal64 x = true ->
  r_level (read P smp_f64 x) = f64_zero.
Proof. exact level_f64_subnormal. Qed.

(** a concrete log: two stereo calls with a reset, a seed and an empty call in between *)
Definition demo_calls : list op :=
  [OpAdd (AI16 [100; 200]%Z); OpReset; OpSeed (AI16 [7; 7]%Z); OpAdd (AI16 [16384; -8192; 5; 8191]%Z);
   OpAdd (AI16 []); OpAdd (AF64 [f64_bin 1 (-3); B754_nan])].
Lemma demo_calls_log : exists e lg, logged x86_64 env0 e lg /\ e_mode e = 63%N /\ e_rate e = 20%N /\ e_channels e = 2 /\
  length (channel 0 (lg_heard lg)) = 3 /\ length (channel 1 (lg_last lg)) = 1 /\ length (channel 1 (lg_past lg)) = 4 /\
  length (channel 1 (lg_inter lg)) = 12.
Proof.
  set (check := fun e lg => (e_mode e =? 63)%N && (e_rate e =? 20)%N && (e_channels e =? 2) && (length (channel 0 (lg_heard lg)) =? 3) &&
           (length (channel 1 (lg_last lg)) =? 1) && (length (channel 1 (lg_past lg)) =? 4) &&
           (length (channel 1 (lg_inter lg)) =? 12)).
  assert (match ebur128_new x86_64 env0 2 20 63%N with
    | Ret (Ok e) => follow x86_64 env0 e (empty_log 2) demo_calls check | _ => false end = true) as H
    by (vm_cast_no_check (eq_refl true)).
  destruct (ebur128_new x86_64 env0 2 20 63%N) as [[e|]| | |] eqn:Hn; try discriminate H.
  destruct (follow_logged x86_64 env0 check demo_calls e (empty_log 2)) as (e' & lg' & Hl & Hk); auto.
  - apply (logged_new x86_64 env0 2 20 63%N); auto. apply supported_dec. reflexivity.
  - repeat constructor.
  - exists e', lg'. unfold check in Hk. rewrite !andb_true_iff, !N.eqb_eq, !Nat.eqb_eq in Hk. tauto.
Qed.
Example C32_example : exists e lg, is_64bit x86_64 /\ logged x86_64 env0 e lg /\ has_SAMPLE_PEAK (e_mode e) /\
  (1 < N.of_nat (e_channels e))%N /\ length (channel 0 (lg_heard lg)) = 3.
Proof.
  destruct demo_calls_log as (e & lg & Hl & Hm & _ & Hc & H1 & _). exists e, lg. rewrite Hm, Hc.
  repeat split; auto; try (vm_compute; reflexivity). 
Qed.

(** * C33: peaks of the last call *)
Theorem C33_prev_sample_peak : forall P E e lg c, is_64bit P -> logged P E e lg -> has_SAMPLE_PEAK (e_mode e) ->
  (c < N.of_nat (e_channels e))%N ->
  exists v, ask P E e (QPrevSamplePeak c) = Ret (AValue (Ok v)) /\ largest (levels_of (channel c (lg_last lg))) v.
Proof. exact prev_sample_peak_log. Qed.
(** [lg_inter_last]: the oversampled signal of the last call, whose first outputs
    still weigh in the last samples before it *)
Theorem C33_prev_true_peak : forall P E e lg c, is_64bit P -> logged P E e lg -> has_TRUE_PEAK (e_mode e) ->
  (c < N.of_nat (e_channels e))%N ->
  exists v, ask P E e (QPrevTruePeak c) = Ret (AValue (Ok v)) /\
    largest (levels_of (channel c (lg_last lg)) ++ magnitudes (channel c (lg_inter_last lg))) v.
Proof. exact prev_true_peak_log. Qed.
(** A call without frames changes nothing at all. *)
Theorem C33_empty_call : forall P E e a cols, is_64bit P -> reachable P E e -> admissible e (OpAdd a) ->
  input P (e_channels e) a = Some cols -> frames_of cols = 0 -> step P E e (OpAdd a) = Ret (Ok tt, e).
Proof. exact empty_add_unchanged. Qed.
Example C33_example : exists e lg, is_64bit x86_64 /\ logged x86_64 env0 e lg /\ has_TRUE_PEAK (e_mode e) /\
  (1 < N.of_nat (e_channels e))%N /\ length (channel 1 (lg_last lg)) = 1 /\ admissible e (OpAdd (PI16 [[]; []])) /\
  input x86_64 (e_channels e) (PI16 [[]; []]) = Some [[]; []].
Proof.
  destruct demo_calls_log as (e & lg & Hl & Hm & _ & Hc & _ & H2 & _). exists e, lg. cbn [admissible planes_match]. rewrite Hm, Hc.
  repeat split; auto; try (vm_compute; reflexivity).
Qed.

(** * C34: order and growth *)
Theorem C34_order : forall P E e c, is_64bit P -> reachable P E e -> has_TRUE_PEAK (e_mode e) ->
  (c < N.of_nat (e_channels e))%N ->
  exists tp sp psp ptp,
    ask P E e (QTruePeak c) = Ret (AValue (Ok tp)) /\ ask P E e (QSamplePeak c) = Ret (AValue (Ok sp)) /\
    ask P E e (QPrevSamplePeak c) = Ret (AValue (Ok psp)) /\ ask P E e (QPrevTruePeak c) = Ret (AValue (Ok ptp)) /\
    f64_le sp tp = true /\ f64_le psp sp = true /\ f64_le psp ptp = true /\ f64_le ptp tp = true /\
    f64_le f64_zero psp = true.
Proof. exact peaks_ordered. Qed.
Theorem C34_growth : forall P E e a r e' c, is_64bit P -> reachable P E e -> admissible e (OpAdd a) ->
  step P E e (OpAdd a) = Ret (r, e') -> (c < N.of_nat (e_channels e))%N ->
  (has_SAMPLE_PEAK (e_mode e) -> exists v v', ask P E e (QSamplePeak c) = Ret (AValue (Ok v)) /\
      ask P E e' (QSamplePeak c) = Ret (AValue (Ok v')) /\ f64_le v v' = true) /\
  (has_TRUE_PEAK (e_mode e) -> exists v v', ask P E e (QTruePeak c) = Ret (AValue (Ok v)) /\
      ask P E e' (QTruePeak c) = Ret (AValue (Ok v')) /\ f64_le v v' = true).
Proof. exact peaks_grow. Qed.
Example C34_example : exists e, is_64bit x86_64 /\ reachable x86_64 env0 e /\ has_TRUE_PEAK (e_mode e) /\
  (1 < N.of_nat (e_channels e))%N /\ admissible e (OpAdd (AF64 [B754_nan; f64_one])).
Proof.
  destruct demo_list_ok as (e & H & Hm & _ & Hc & _). exists e. rewrite Hm, Hc. repeat split; auto; vm_compute; reflexivity.
Qed.

(** * C35: the rolling buffer *)

(** No push and no view is out of bounds ([UB]); the view shows the last n values. *)
Theorem C35_rolling : forall T n (d : T) vs, 0 < n -> n <= 24 ->
  exists r0 r, rolling_new n d = Ret r0 /\ push_all n r0 vs = Ret r /\
    rolling_view n r = Ret (firstn n (rev vs ++ repeat d n)).
Proof. exact @rolling_ok. Qed.
Example C35_example : exists r0 r, rolling_new 12 0 = Ret r0 /\ push_all 12 r0 (seq 1 30) = Ret r /\
  rolling_view 12 r = Ret [30; 29; 28; 27; 26; 25; 24; 23; 22; 21; 20; 19].
Proof. destruct (C35_rolling nat 12 0 (seq 1 30)) as (r0 & r & H); [lia|lia|]. exists r0, r. exact H. Qed.

(** * C36: the interpolator *)

(** Output phase f for frame n in channel c is the FIR sum over the samples of that channel. *)
Theorem C36_interpolator : forall P E taps factor C frames, 0 < C -> taps * factor = 48 -> 2 <= factor ->
  Forall (fun f => length f = C) frames ->
  exists i i' outs, interpf_new E taps factor C = Ret i /\
    interpolate_all P i frames = Ret (i', outs) /\ length outs = length frames /\
    forall n f c, n < length frames -> f < factor -> c < C ->
      nth c (nth f (nth n outs []) []) f32_zero =
      interpolated P E taps factor (map (fun x => nth c x f32_zero) frames) n f.
Proof. exact interpolator_ok. Qed.
(** true_peak is the largest of the sample levels and the magnitudes of the
    oversampled signal ([oversampling]: factor 4 below 96 kHz, 2 below 192 kHz, none above). *)
Theorem C36_true_peak : forall P E e lg c, is_64bit P -> logged P E e lg -> has_TRUE_PEAK (e_mode e) ->
  (c < N.of_nat (e_channels e))%N ->
  exists v, ask P E e (QTruePeak c) = Ret (AValue (Ok v)) /\
    largest (levels_of (channel c (lg_heard lg)) ++ magnitudes (channel c (lg_inter lg))) v.
Proof. exact true_peak_log. Qed.
Example C36_example : (exists e lg, is_64bit x86_64 /\ logged x86_64 env0 e lg /\ has_TRUE_PEAK (e_mode e) /\
    (1 < N.of_nat (e_channels e))%N /\ length (channel 1 (lg_inter lg)) = 12) /\
  (0 < 1 /\ 12 * 4 = 48 /\ 2 <= 4 /\ Forall (fun f => length f = 1) [[f32_zero]; [f32_of_Z 1]]).
Proof.
  destruct demo_calls_log as (e & lg & Hl & Hm & _ & Hc & _ & _ & _ & H2). split.
  - exists e, lg. rewrite Hm, Hc. repeat split; auto; vm_compute; reflexivity.
  - repeat constructor.
Qed.

(** * C37: channels do not disturb each other *)

(** Two new analyzers at one sample rate, with any numbers of channels (and so any
    of the specialised code paths) and any modes: if channel c of one and channel d
    of the other get the same samples in the same calls, their peaks agree. *)
Theorem C37_channels : forall P E c d channels channels' rate m m' e e' os os' e1 e1', is_64bit P ->
  ebur128_new P E channels rate m = Ret (Ok e) -> ebur128_new P E channels' rate m' = Ret (Ok e') ->
  supported m rate -> supported m' rate -> (c < channels)%N -> (d < channels')%N ->
  session P E e os e1 -> session P E e' os' e1' ->
  Forall2 (same_for_channel P (N.to_nat channels) c (N.to_nat channels') d) os os' ->
  (has_SAMPLE_PEAK m -> has_SAMPLE_PEAK m' ->
     ask P E e1 (QSamplePeak c) = ask P E e1' (QSamplePeak d) /\
     ask P E e1 (QPrevSamplePeak c) = ask P E e1' (QPrevSamplePeak d)) /\
  (has_TRUE_PEAK m -> has_TRUE_PEAK m' ->
     ask P E e1 (QTruePeak c) = ask P E e1' (QTruePeak d) /\
     ask P E e1 (QPrevTruePeak c) = ask P E e1' (QPrevTruePeak d)).
Proof. exact channel_independent. Qed.
Example C37_example : exists e e' e1 e1', 
  let os := [OpSeed (AI16 [1]%Z); OpAdd (AI16 [300; -400]%Z)] in
  let os' := [OpSeed (AI16 [9; 1; 8]%Z); OpAdd (PI16 [[5; 6]; [300; -400]; [7; 8]]%Z)] in
  ebur128_new x86_64 env0 1 20 63%N = Ret (Ok e) /\ ebur128_new x86_64 env0 3 20 49%N = Ret (Ok e') /\
  supported 63%N 20 /\ supported 49%N 20 /\ has_TRUE_PEAK 63%N /\ has_TRUE_PEAK 49%N /\
  session x86_64 env0 e os e1 /\ session x86_64 env0 e' os' e1' /\
  Forall2 (same_for_channel x86_64 1 0 3 1) os os'.
Proof.
  assert (match ebur128_new x86_64 env0 1 20 63%N, ebur128_new x86_64 env0 3 20 49%N with
    | Ret (Ok e), Ret (Ok e') => (e_channels e' =? 3) &&
      match step x86_64 env0 e (OpSeed (AI16 [1]%Z)), step x86_64 env0 e' (OpSeed (AI16 [9; 1; 8]%Z)) with
      | Ret (_, e1), Ret (_, e1') => (e_channels e1' =? 3) &&
        match step x86_64 env0 e1 (OpAdd (AI16 [300; -400]%Z)), step x86_64 env0 e1' (OpAdd (PI16 [[5; 6]; [300; -400]; [7; 8]]%Z)) with
        | Ret _, Ret _ => true | _, _ => false end
      | _, _ => false end
    | _, _ => false end = true) as H by (vm_cast_no_check (eq_refl true)).
  destruct (ebur128_new x86_64 env0 1 20 63%N) as [[e|]| | |]; try discriminate H.
  destruct (ebur128_new x86_64 env0 3 20 49%N) as [[e'|]| | |]; try discriminate H.
  apply andb_true_iff in H. destruct H as (_ & H).
  destruct (step x86_64 env0 e (OpSeed (AI16 [1]%Z))) as [[r e1]| | |] eqn:S1; try discriminate H.
  destruct (step x86_64 env0 e' (OpSeed (AI16 [9; 1; 8]%Z))) as [[r' e1']| | |] eqn:S1'; try discriminate H.
  apply andb_true_iff in H. destruct H as (Hc & H). apply Nat.eqb_eq in Hc.
  destruct (step x86_64 env0 e1 _) as [[r2 e2]| | |] eqn:S2; try discriminate H.
  destruct (step x86_64 env0 e1' _) as [[r2' e2']| | |] eqn:S2'; try discriminate H. clear H.
  exists e, e', e2, e2'. cbv zeta. split; [reflexivity|]. split; [reflexivity|].
  split; [apply supported_dec; reflexivity|]. split; [apply supported_dec; reflexivity|].
  split; [repeat split|]. split; [repeat split|]. split; [|split].
  - econstructor; [exact I|exact S1|]. econstructor; [exact I|exact S2|]. constructor.
  - econstructor; [exact I|exact S1'|]. econstructor; [|exact S2'|constructor].
    cbn [admissible planes_match]. rewrite Hc. intros _. reflexivity.
  - repeat constructor.
Qed.

(** * Assumptions *)
Print Assumptions C32_log_exists.
Print Assumptions C32_sample_peak.
Print Assumptions C32_fresh.
Print Assumptions C32_level_i16.
Print Assumptions C32_level_i32.
Print Assumptions C32_level_f32.
Print Assumptions C32_level_f64.
Print Assumptions C32_level_f64_subnormal.
Print Assumptions C33_prev_sample_peak.
Print Assumptions C33_prev_true_peak.
Print Assumptions C33_empty_call.
Print Assumptions C34_order.
Print Assumptions C34_growth.
Print Assumptions C35_rolling.
Print Assumptions C36_interpolator.
Print Assumptions C36_true_peak.
Print Assumptions C37_channels.
