(** Properties of feeding audio: C07, C08, C38, C39.
    [input] and [all_input] (Spec.v) say which audio a call, or a sequence of
    calls, carries: per channel the list of readings, whatever the layout. *)
From Coq Require Import List Arith NArith ZArith Bool Lia Reals.
From Flocq Require Import IEEE754.BinarySingleNaN.
From Verif Require Import Prelude Float Env Utils History Filter Ebur128 Spec Format_proofs Feed_proofs Instance Examples.
Import ListNotations.

(** * C07: chunking *)

(** Two ways of cutting the same audio into add_frames_* calls (any layouts and
    formats) all succeed and leave the same state up to the prev_* peaks. *)
Theorem C07_chunks : forall P E e l l' cols, is_64bit P -> p_ftz P = true -> reachable P E e ->
  Forall (fun a => admissible e (OpAdd a)) l -> Forall (fun a => admissible e (OpAdd a)) l' ->
  all_input P (e_channels e) l = Some cols -> all_input P (e_channels e) l' = Some cols ->
  exists e1 e2, run P E e (map OpAdd l) = Ret (repeat (Ok tt) (length l), e1) /\
                run P E e (map OpAdd l') = Ret (repeat (Ok tt) (length l'), e2) /\
                same_except_prev e1 e2.
Proof. exact chunks_same. Qed.
(** Hence every later call returns the same result and every query except
    prev_sample_peak and prev_true_peak the same answer, bit for bit. *)
Theorem C07_measurement : forall P E e l l' cols, is_64bit P -> p_ftz P = true -> reachable P E e ->
  Forall (fun a => admissible e (OpAdd a)) l -> Forall (fun a => admissible e (OpAdd a)) l' ->
  all_input P (e_channels e) l = Some cols -> all_input P (e_channels e) l' = Some cols ->
  forall os, match run P E e (map OpAdd l ++ os), run P E e (map OpAdd l' ++ os) with
             | Ret (rs, e1), Ret (rs', e2) =>
                 skipn (length l) rs = skipn (length l') rs' /\
                 (forall q, is_prev q = false -> ask P E e1 q = ask P E e2 q) /\ same_except_prev e1 e2
             | Panic, Panic | UB, UB | OutOfFuel, OutOfFuel => True
             | _, _ => False
             end.
Proof. exact chunked_same_measurement. Qed.
Example C07_example : exists e, reachable x86_64 env0 e /\ is_64bit x86_64 /\ p_ftz x86_64 = true /\
  let l := [AI16 [1; 2; 3; 4; 5; 6]%Z] in
  let l' := [PI16 [[1]; [2]]; AI16 []; AI16 [3; 4; 5; 6]]%Z in
  Forall (fun a => admissible e (OpAdd a)) l /\ Forall (fun a => admissible e (OpAdd a)) l' /\
  all_input x86_64 (e_channels e) l = all_input x86_64 (e_channels e) l' /\
  all_input x86_64 (e_channels e) l <> None.
Proof.
  destruct demo_list_ok as (e & H & _ & _ & EC & _). exists e. rewrite EC. split; auto. split; [reflexivity|].
  split; [reflexivity|]. cbn zeta. split; [repeat constructor|]. split; [|split; [reflexivity|discriminate]].
  repeat constructor. intros _. rewrite EC. reflexivity.
Qed.

(** * C08: without hardware flush-to-zero chunking is visible *)
Theorem C08_refuted : exists P E e l l' cols e1 e2 v v', is_64bit P /\ p_ftz P = false /\ reachable P E e /\
  Forall (fun a => admissible e (OpAdd a)) l /\ Forall (fun a => admissible e (OpAdd a)) l' /\
  all_input P (e_channels e) l = Some cols /\ all_input P (e_channels e) l' = Some cols /\
  run P E e (map OpAdd l) = Ret ([Ok tt], e1) /\
  run P E e (map OpAdd l') = Ret ([Ok tt; Ok tt], e2) /\
  ask P E e1 QMomentary = Ret (AValue (Ok v)) /\
  ask P E e2 QMomentary = Ret (AValue (Ok v')) /\ f64_lt v v' = true.
Proof.
  destruct chunks_differ as (e & l & l' & cols & e1 & e2 & v & v' & H).
  exists aarch64, env0, e, l, l', cols, e1, e2, v, v'. repeat (split; [reflexivity|]). exact H.
Qed.

(** * C38: planar and interleaved input *)
Theorem C38_interleaved : forall P E e a, is_64bit P -> reachable P E e -> planar_for (e_channels e) a ->
  step P E e (OpAdd a) = step P E e (OpAdd (to_interleaved a)) /\
  step P E e (OpSeed a) = step P E e (OpSeed (to_interleaved a)).
Proof. exact interleaved_same. Qed.
Theorem C38_planar : forall P E e a, is_64bit P -> reachable P E e -> admissible e (OpAdd a) ->
  whole_frames (e_channels e) a ->
  step P E e (OpAdd a) = step P E e (OpAdd (to_planar (e_channels e) a)) /\
  step P E e (OpSeed a) = step P E e (OpSeed (to_planar (e_channels e) a)).
Proof. exact planar_same. Qed.
Example C38_example : exists e, reachable x86_64 env0 e /\
  planar_for (e_channels e) (PI16 [[1; 3; 5]; [2; 4; 6]]%Z) /\
  to_interleaved (PI16 [[1; 3; 5]; [2; 4; 6]]%Z) = AI16 [1; 2; 3; 4; 5; 6]%Z /\
  to_planar (e_channels e) (AI16 [1; 2; 3; 4; 5; 6]%Z) = PI16 [[1; 3; 5]; [2; 4; 6]]%Z.
Proof.
  destruct demo_list_ok as (e & H & _ & _ & EC & _). exists e. rewrite EC. split; auto.
  repeat split; try reflexivity; try discriminate. exists 3. repeat constructor.
Qed.

(** * C39: sample formats *)
Theorem C39_formats : forall P E e a, is_64bit P -> reachable P E e -> admissible e (OpAdd a) -> samples_ok P a ->
  step P E e (OpAdd a) = step P E e (OpAdd (to_f64 a)) /\
  step P E e (OpSeed a) = step P E e (OpSeed (to_f64 a)).
Proof. exact f64_same. Qed.
(** without an interpolator also for subnormal f32 samples *)
Theorem C39_f32_without_interpolator : forall P E e a, is_64bit P -> reachable P E e ->
  (~ has_TRUE_PEAK (e_mode e) \/ (192000 <= e_rate e)%N) ->
  admissible e (OpAdd a) -> (exists l, a = AF32 l) \/ (exists l, a = PF32 l) ->
  step P E e (OpAdd a) = step P E e (OpAdd (to_f64 a)) /\
  step P E e (OpSeed a) = step P E e (OpSeed (to_f64 a)).
Proof. exact f32_same. Qed.
(** the conversions are exact *)
Theorem C39_i16_exact : forall z, in_i16 z -> is_finite (f64_of_i16 z) = true /\ B2R (f64_of_i16 z) = (IZR z / 32768)%R.
Proof. exact i16_exact. Qed.
Theorem C39_i32_exact : forall z, in_i32 z -> is_finite (f64_of_i32 z) = true /\ B2R (f64_of_i32 z) = (IZR z / 2147483648)%R.
Proof. exact i32_exact. Qed.
Example C39_example : exists e, reachable x86_64 env0 e /\
  admissible e (OpAdd (AI32 [-2147483648; 5; 7; 2147483647]%Z)) /\
  samples_ok x86_64 (AI32 [-2147483648; 5; 7; 2147483647]%Z) /\
  samples_ok x86_64 (AF32 [f32_of_Z 1; f32_bin (-3) (-126)]).
Proof.
  destruct demo_list_ok as (e & H & _). exists e. split; auto. split; [exact I|].
  split; repeat constructor; unfold in_i32; lia || (intros; vm_compute; reflexivity) || idtac.
Qed.

(** * Assumptions *)
Print Assumptions C07_chunks.
Print Assumptions C07_measurement.
Print Assumptions C08_refuted.
Print Assumptions C38_interleaved.
Print Assumptions C38_planar.
Print Assumptions C39_formats.
Print Assumptions C39_f32_without_interpolator.
Print Assumptions C39_i16_exact.
Print Assumptions C39_i32_exact.
