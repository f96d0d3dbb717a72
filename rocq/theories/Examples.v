(** Concrete analyzers used to show that the hypotheses of the theorems are met. *)
From Coq Require Import ZArith NArith List Bool Arith Lia.
From Flocq Require Import IEEE754.BinarySingleNaN.
From Verif Require Import Prelude Float Env Utils History Filter Ebur128 Spec Instance.
Import ListNotations.

(** a new analyzer, then some calls *)
Definition demo (P : platform) (channels rate : N) (m : mode) (os : list op) : outcome ebur128 :=
  match ebur128_new P env0 channels rate m with
  | Ret (Ok e) => '(_, e) <- run P env0 e os ;; Ret e
  | _ => Panic
  end.
(** calls that are admissible whatever the state *)
Definition plain (o : op) : Prop :=
  match o with
  | OpSetChannel _ _ | OpSetChannelMap _ | OpSetMaxHistory _ | OpReset => True
  | OpSetMaxWindow w => (w <= 4294967295)%N
  | OpAdd (AI16 _) | OpAdd (AI32 _) | OpAdd (AF32 _) | OpAdd (AF64 _) => True
  | OpSeed (AI16 _) | OpSeed (AI32 _) | OpSeed (AF32 _) | OpSeed (AF64 _) => True
  | _ => False
  end.
Lemma plain_admissible e o : plain o -> admissible e o.
Proof. destruct o as [| | | | | |[]|[]]; simpl; tauto. Qed.
Lemma run_reachable P E : forall os e rs e', reachable P E e -> Forall plain os -> run P E e os = Ret (rs, e') ->
  reachable P E e'.
Proof.
  induction os as [|o os IH]; cbn [run]; intros e rs e' Hr Hp.
  - intros [= _ <-]. auto.
  - inversion_clear Hp. destruct (step P E e o) as [[r e1]| | |] eqn:Hs; cbn [obind]; try discriminate.
    destruct (run P E e1 os) as [[rs1 e2]| | |] eqn:Hr2; cbn [obind]; try discriminate.
    intros Heq. assert (e2 = e') as <- by (injection Heq; auto).
    eapply (IH e1); eauto. eapply (reach_step P E e o); eauto using plain_admissible.
Qed.
Lemma demo_reachable P channels rate m os e : demo P channels rate m os = Ret e -> supported m rate ->
  Forall plain os -> reachable P env0 e.
Proof.
  unfold demo. destruct (ebur128_new P env0 channels rate m) as [[e0|]| | |] eqn:Hn; try discriminate.
  destruct (run P env0 e0 os) as [[rs e1]| | |] eqn:Hr; cbn [obind]; try discriminate.
  intros Heq Hs Hp. assert (e1 = e) as <- by (injection Heq; auto).
  eapply run_reachable; [|eauto|eauto]. eapply reach_new; eauto.
Qed.

(** some calls, noted down in a log *)
Fixpoint follow (P : platform) (E : ext) (e : ebur128) (lg : log) (os : list op) (check : ebur128 -> log -> bool) : bool :=
  match os with
  | [] => check e lg
  | o :: os => match step P E e o with
               | Ret (_, e') => follow P E e' (log_after P E e o lg) os check
               | _ => false
               end
  end.
Lemma follow_logged P E check : forall os e lg, logged P E e lg -> Forall plain os -> follow P E e lg os check = true ->
  exists e' lg', logged P E e' lg' /\ check e' lg' = true.
Proof.
  induction os as [|o os IH]; cbn [follow]; intros e lg Hl Hp Hc; [eauto|]. inversion_clear Hp.
  destruct (step P E e o) as [[r e']| | |] eqn:Hs; try discriminate Hc.
  eapply (IH e'); [|eauto|exact Hc]. eapply (logged_step P E e o); eauto using plain_admissible.
Qed.

(** 146 samples per channel alternating +1/2, -1/2 ... in two channels *)
Fixpoint wave (n : nat) : list Z :=
  match n with O => [] | S n => [16384; -8192; -16384; 8192]%Z ++ wave n end.
Lemma supported_dec m rate :
  ((N.testbit m 0 && N.testbit m 1) || (18 <=? rate)%N) &&
  (negb (N.testbit m 0 && N.testbit m 1 && N.testbit m 3) || (29 * hundred_ms rate <? 3 * rate)%N) = true ->
  supported m rate.
Proof.
  unfold supported, has_LRA, has_S. rewrite andb_true_iff, !orb_true_iff, negb_true_iff, N.leb_le, N.ltb_lt, andb_true_iff.
  intros ([H1|H1] & H2); split; auto; intros ((A & B) & C); rewrite A, B, C in H2; destruct H2 as [H2|H2]; auto; discriminate.
Qed.

(** Stereo, 20 Hz, every mode: enough audio for one short-term block. *)
Notation demo_list := (demo x86_64 2 20 63%N [OpAdd (AI16 (wave 40))]).
Notation demo_hist := (demo x86_64 2 20 127%N [OpAdd (AI16 (wave 40))]).

Definition passes (o : outcome ebur128) (check : ebur128 -> bool) : bool :=
  match o with Ret e => check e | _ => false end.
Lemma passes_spec o check : passes o check = true -> exists e, o = Ret e /\ check e = true.
Proof. destruct o; simpl; try discriminate. eauto. Qed.
Definition blocks (h : history) : N :=
  match h with HQueue q => N.of_nat (length (q_queue q)) | HHistogram h => fold_left N.add h 0%N end.
Lemma demo_list_ok : exists e, reachable x86_64 env0 e /\ e_mode e = 63%N /\ e_rate e = 20%N /\ e_channels e = 2 /\
  blocks (e_block e) = 37%N /\ blocks (e_short e) = 2%N /\ e_index e = 20.
Proof.
  destruct (passes_spec demo_list (fun e => (e_mode e =? 63)%N && (e_rate e =? 20)%N && (e_channels e =? 2) &&
    (blocks (e_block e) =? 37)%N && (blocks (e_short e) =? 2)%N && (e_index e =? 20))) as (e & H & C).
  { vm_cast_no_check (eq_refl true). }
  exists e. split.
  - apply demo_reachable in H; [exact H|apply supported_dec; reflexivity|repeat constructor].
  - rewrite !andb_true_iff, !N.eqb_eq, !Nat.eqb_eq in C. tauto.
Qed.
Lemma demo_hist_ok : exists e, reachable x86_64 env0 e /\ e_mode e = 127%N /\ e_rate e = 20%N /\ e_channels e = 2 /\
  blocks (e_block e) = 37%N /\ blocks (e_short e) = 2%N /\ e_index e = 20.
Proof.
  destruct (passes_spec demo_hist (fun e => (e_mode e =? 127)%N && (e_rate e =? 20)%N && (e_channels e =? 2) &&
    (blocks (e_block e) =? 37)%N && (blocks (e_short e) =? 2)%N && (e_index e =? 20))) as (e & H & C).
  { vm_cast_no_check (eq_refl true). }
  exists e. split.
  - apply demo_reachable in H; [exact H|apply supported_dec; reflexivity|repeat constructor].
  - rewrite !andb_true_iff, !N.eqb_eq, !Nat.eqb_eq in C. tauto.
Qed.
Lemma low_rate_reachable : exists e, reachable x86_64 env0 e /\ has_S (e_mode e) /\ e_window e = 3000%N /\
  ~ (29 * hundred_ms (e_rate e) < 3 * e_rate e)%N.
Proof.
  destruct (passes_spec (demo x86_64 1 25 MODE_S [OpAdd (AI16 (wave 10))])
    (fun e => (e_mode e =? 3)%N && (e_rate e =? 25)%N && (e_window e =? 3000)%N)) as (e & H & C).
  { vm_compute. reflexivity. }
  exists e. split.
  - apply demo_reachable in H; [exact H|apply supported_dec; reflexivity|repeat constructor].
  - rewrite !andb_true_iff, !N.eqb_eq in C. destruct C as ((-> & ->) & ->). repeat split; auto. discriminate.
Qed.
Lemma dual_mono_reachable : exists e, reachable x86_64 env0 e /\ e_cmap e = [DualMono].
Proof.
  destruct (passes_spec (demo x86_64 1 20 MODE_S [OpSetChannel 0 DualMono; OpAdd (AI16 (wave 10))])
    (fun e => match e_cmap e with [DualMono] => true | _ => false end)) as (e & H & C).
  { vm_compute. reflexivity. }
  exists e. split.
  - apply demo_reachable in H; [exact H|apply supported_dec; reflexivity|repeat constructor].
  - destruct (e_cmap e) as [|[] [|]]; try discriminate C. reflexivity.
Qed.
Definition silence (n : nat) : list Z := repeat 0%Z n.
Definition is_panic {A} (o : outcome A) : bool := match o with Panic => true | _ => false end.
Lemma lra_25_fails :
  exists e0 e1 e2 e3,
    ebur128_new x86_64 env0 1 25 MODE_LRA = Ret (Ok e0) /\
    add_frames_interleaved x86_64 smp_i16 e0 (silence 89) = Ret (Ok tt, e1) /\
    add_frames_interleaved x86_64 smp_i16 e1 (silence 1) = Ret (Err InvalidMode, e2) /\
    add_frames_interleaved x86_64 smp_i16 e2 (silence 1) = Ret (Ok tt, e3) /\
    add_frames_interleaved x86_64 smp_i16 e3 (silence 75) = Panic.
Proof.
  assert (match ebur128_new x86_64 env0 1 25 MODE_LRA with
  | Ret (Ok e0) => match add_frames_interleaved x86_64 smp_i16 e0 (silence 89) with
    | Ret (Ok tt, e1) => match add_frames_interleaved x86_64 smp_i16 e1 (silence 1) with
      | Ret (Err InvalidMode, e2) => match add_frames_interleaved x86_64 smp_i16 e2 (silence 1) with
        | Ret (Ok tt, e3) => is_panic (add_frames_interleaved x86_64 smp_i16 e3 (silence 75))
        | _ => false end
      | _ => false end
    | _ => false end
  | _ => false end = true) as H by (vm_compute; reflexivity).
  destruct (ebur128_new _ _ _ _ _) as [[e0|]| | |] eqn:H0; try discriminate H.
  destruct (add_frames_interleaved x86_64 smp_i16 e0 (silence 89)) as [[[[]|] e1]| | |] eqn:H1; try discriminate H.
  destruct (add_frames_interleaved x86_64 smp_i16 e1 (silence 1)) as [[[|[]] e2]| | |] eqn:H2; try discriminate H.
  destruct (add_frames_interleaved x86_64 smp_i16 e2 (silence 1)) as [[[[]|] e3]| | |] eqn:H3; try discriminate H.
  destruct (add_frames_interleaved x86_64 smp_i16 e3 (silence 75)) as [| | |] eqn:H4; try discriminate H.
  exists e0, e1, e2, e3. auto.
Qed.
Lemma reset_limit_differs :
  exists e0 e1 e2,
    ebur128_new x86_64 env0 1 20 MODE_I = Ret (Ok e0) /\
    set_max_history e0 3000 = (Ok tt, e1) /\ ebur128_reset e1 = Ret e2 /\
    gating_block_count_and_energy x86_64 env0 e2 = Ret None /\
    gating_block_count_and_energy x86_64 env0 e1 = Ret (Some (30%N, f64_zero)).
Proof.
  assert (match ebur128_new x86_64 env0 1 20 MODE_I with
  | Ret (Ok e0) => match ebur128_reset (snd (set_max_history e0 3000)) with
    | Ret e2 => match gating_block_count_and_energy x86_64 env0 e2,
                      gating_block_count_and_energy x86_64 env0 (snd (set_max_history e0 3000)) with
      | Ret None, Ret (Some (n, B754_zero false)) => (n =? 30)%N
      | _, _ => false end
    | _ => false end
  | _ => false end = true) as H by (vm_compute; reflexivity).
  destruct (ebur128_new _ _ _ _ _) as [[e0|]| | |] eqn:H0; try discriminate H.
  assert (fst (set_max_history e0 3000) = Ok tt) as Hf.
  { unfold set_max_history. destruct (_ =? _)%N; reflexivity. }
  destruct (set_max_history e0 3000) as (r & e1) eqn:H1. cbn [fst snd] in *. subst r.
  destruct (ebur128_reset e1) as [e2| | |] eqn:H2; try discriminate H.
  destruct (gating_block_count_and_energy x86_64 env0 e2) as [[|]| | |] eqn:H3; try discriminate H.
  destruct (gating_block_count_and_energy x86_64 env0 e1) as [[[n [[]| | |]]|]| | |] eqn:H4; try discriminate H.
  apply N.eqb_eq in H. subst n. exists e0, e1, e2. auto 6.
Qed.

(** Two tiny samples in one call and in two calls, without flush-to-zero *)
Definition tiny : f64 := f64_bin 1 (-54).
Lemma chunks_differ : exists e l l' cols e1 e2 v v', reachable aarch64 env0 e /\
  Forall (fun a => admissible e (OpAdd a)) l /\ Forall (fun a => admissible e (OpAdd a)) l' /\
  all_input aarch64 (e_channels e) l = Some cols /\ all_input aarch64 (e_channels e) l' = Some cols /\
  run aarch64 env0 e (map OpAdd l) = Ret ([Ok tt], e1) /\
  run aarch64 env0 e (map OpAdd l') = Ret ([Ok tt; Ok tt], e2) /\
  ask aarch64 env0 e1 QMomentary = Ret (AValue (Ok v)) /\
  ask aarch64 env0 e2 QMomentary = Ret (AValue (Ok v')) /\ f64_lt v v' = true.
Proof.
  set (l := [AF64 [tiny; tiny]]). set (l' := [AF64 [tiny]; AF64 [tiny]]).
  set (check := fun e => match run aarch64 env0 e (map OpAdd l), run aarch64 env0 e (map OpAdd l') with
    | Ret ([Ok _], e1), Ret ([Ok _; Ok _], e2) =>
        match ask aarch64 env0 e1 QMomentary, ask aarch64 env0 e2 QMomentary with
        | Ret (AValue (Ok v)), Ret (AValue (Ok v')) => f64_lt v v' && (e_channels e =? 1)
        | _, _ => false
        end
    | _, _ => false end).
  destruct (passes_spec (demo aarch64 1 20 MODE_M []) check) as (e & H & C).
  { vm_compute. reflexivity. }
  apply demo_reachable in H; [|apply supported_dec; reflexivity|repeat constructor].
  exists e, l, l'. unfold check in C.
  destruct (run aarch64 env0 e (map OpAdd l)) as [[[|[[]|] [|]] e1]| | |] eqn:R1; try discriminate C.
  destruct (run aarch64 env0 e (map OpAdd l')) as [[[|[[]|] [|[[]|] [|]]] e2]| | |] eqn:R2; try discriminate C.
  destruct (ask aarch64 env0 e1 QMomentary) as [[[v|]|]| | |] eqn:A1; try discriminate C.
  destruct (ask aarch64 env0 e2 QMomentary) as [[[v'|]|]| | |] eqn:A2; try discriminate C.
  apply andb_true_iff in C. destruct C as (C & EC). apply Nat.eqb_eq in EC. rewrite EC.
  exists [[read aarch64 smp_f64 tiny; read aarch64 smp_f64 tiny]], e1, e2, v, v'.
  repeat split; auto; repeat constructor.
Qed.
