(** Concrete runs for the stream properties. *)
From Coq Require Import ZArith NArith List Bool Arith Lia.
From Flocq Require Import IEEE754.BinarySingleNaN.
From Verif Require Import Prelude Float Env Utils History Filter Ebur128 Spec Instance Examples Peak_proofs.
Import ListNotations.

Lemma taped_session_taped P E : forall e t os e' t', taped_session P E e t os e' t' -> taped P E e t -> taped P E e' t'.
Proof. induction 1 as [|e t o r e1 os e2 t2 Ha Hs HS IH]; intros HT; auto. apply IH. eapply taped_step; eauto. Qed.
Lemma taped_session_session P E : forall e t os e' t', taped_session P E e t os e' t' -> session P E e os e'.
Proof. induction 1; econstructor; eauto. Qed.

(** some calls, with the record of the measured signal *)
Fixpoint play (P : platform) (E : ext) (e : ebur128) (t : list track) (os : list op) : option (ebur128 * list track) :=
  match os with
  | [] => Some (e, t)
  | o :: os => match step P E e o with
               | Ret (_, e') => play P E e' (tape_after P E e o t) os
               | _ => None
               end
  end.
Lemma play_session P E : forall os e t e' t', Forall plain os -> play P E e t os = Some (e', t') -> taped_session P E e t os e' t'.
Proof.
  induction os as [|o os IH]; cbn [play]; intros e t e' t' Hp H.
  - injection H as <- <-. constructor.
  - inversion_clear Hp. destruct (step P E e o) as [[r e1]| | |] eqn:Hs; try discriminate H.
    econstructor; eauto using plain_admissible.
Qed.
(** a new analyzer, some calls, then some more *)
Lemma plays (P : platform) channels rate m os os' (check : ebur128 -> list track -> ebur128 -> list track -> bool) :
  supported m rate -> Forall plain os -> Forall plain os' ->
  match ebur128_new P env0 channels rate m with
  | Ret (Ok e) => match play P env0 e (blank (N.to_nat channels)) os with
                  | Some (e, t) => match play P env0 e t os' with Some (e', t') => check e t e' t' | _ => false end
                  | _ => false end
  | _ => false end = true ->
  exists e t e' t', taped P env0 e t /\ taped_session P env0 e t os' e' t' /\ check e t e' t' = true.
Proof.
  intros Hs H1 H2 H. destruct (ebur128_new P env0 channels rate m) as [[e0|]| | |] eqn:Hn; try discriminate H.
  destruct (play P env0 e0 (blank (N.to_nat channels)) os) as [[e t]|] eqn:Hp; try discriminate H.
  destruct (play P env0 e t os') as [[e' t']|] eqn:Hp'; try discriminate H.
  exists e, t, e', t'. split; [|split; auto].
  - eapply taped_session_taped; [eapply play_session; [exact H1|exact Hp]|]. eapply taped_new; eauto.
  - eapply play_session; eauto.
Qed.

(** 10 frames, then 80 frames in two calls: 37 + 5 blocks and 2 short-term blocks in total *)
Definition stereo_calls : list op := [OpAdd (AI16 (wave 7)); OpAdd (AF64 (map (fun z => f64_of_Z z) (wave 1))); OpAdd (AI16 (wave 32))].
Lemma stereo_session : exists e t e' t', taped x86_64 env0 e t /\ taped_session x86_64 env0 e t stereo_calls e' t' /\
  e_mode e = 63%N /\ frames_of (signals t) = 10 /\ frames_of (signals t') = 90 /\ length (block_ends (hop e) 10 90) = 40 /\
  length (short_ends (hop e) 10 90) = 2 /\ blocks (e_block e') = 42%N /\ blocks (e_short e') = 2%N.
Proof.
  destruct (plays x86_64 2 20 63%N [OpAdd (AI16 (wave 5))] stereo_calls (fun e t e' t' =>
    (e_mode e =? 63)%N && (frames_of (signals t) =? 10) && (frames_of (signals t') =? 90) && (length (block_ends (hop e) 10 90) =? 40) &&
    (length (short_ends (hop e) 10 90) =? 2) && (blocks (e_block e') =? 42)%N && (blocks (e_short e') =? 2)%N))
    as (e & t & e' & t' & H1 & H2 & C).
  - apply supported_dec. reflexivity.
  - repeat constructor.
  - repeat constructor.
  - vm_cast_no_check (eq_refl true).
  - exists e, t, e', t'. rewrite !andb_true_iff, !N.eqb_eq, !Nat.eqb_eq in C. tauto.
Qed.
Lemma stereo_energy : exists e t, taped x86_64 env0 e t /\ is_finite (energy (capacity e) (4 * hop e) (e_cmap e) (signals t)) = true /\
  energy (capacity e) (4 * hop e) (e_cmap e) (signals t) <> f64_zero /\ e_cmap e = [Filter.Left; Filter.LeftSurround].
Proof.
  destruct (plays x86_64 2 20 63%N [OpSetChannel 1 Filter.LeftSurround] [OpAdd (AI16 (wave 50))] (fun e t e' t' =>
    is_finite (energy (capacity e') (4 * hop e') (e_cmap e') (signals t')) && f64_lt f64_zero (energy (capacity e') (4 * hop e') (e_cmap e') (signals t'))
     && (match e_cmap e' with [Filter.Left; Filter.LeftSurround] => true | _ => false end)))
    as (e & t & e' & t' & H1 & H2 & C).
  - apply supported_dec. reflexivity.
  - repeat constructor.
  - repeat constructor.
  - vm_cast_no_check (eq_refl true).
  - exists e', t'. rewrite !andb_true_iff in C. destruct C as ((C1 & C2) & C3). split; [eapply taped_session_taped; eauto|]. split; auto.
    split.
    + intros E0. rewrite E0 in C2. discriminate C2.
    + destruct (e_cmap e') as [|[] [|[] [|]]]; try discriminate C3. reflexivity.
Qed.

Definition odds (l : list Z) : list Z := map (fun k => nth (2 * k) l 0%Z) (seq 0 (length l / 2)).
Definition evens (l : list Z) : list Z := map (fun k => nth (2 * k + 1) l 0%Z) (seq 0 (length l / 2)).
Lemma planar_pair x y C : length x = length y -> input x86_64 C (PI16 [x; y]) = Some [map (read x86_64 smp_i16) x; map (read x86_64 smp_i16) y].
Proof. intros H. cbn [input planar_input forallb]. rewrite <- H, !Nat.eqb_refl. reflexivity. Qed.
Lemma planar_one x C : input x86_64 C (PI16 [x]) = Some [map (read x86_64 smp_i16) x].
Proof. cbn [input planar_input forallb]. rewrite !Nat.eqb_refl. reflexivity. Qed.

(** the same calls up to an unused channel *)
Lemma unused_session : exists e e' f', reachable x86_64 env0 e /\ In Unused (e_cmap e) /\ same_session x86_64 env0 e e e' f' /\
  blocks (e_block e') = 37%N.
Proof.
  set (x := odds (wave 40)). set (y := evens (wave 40)). set (z := repeat 5%Z 80). set (a := PI16 [x; y]). set (b := PI16 [x; z]).
  destruct (passes_spec (demo x86_64 2 20 63%N [OpSetChannel 1 Unused]) (fun e =>
    match step x86_64 env0 e (OpAdd a), step x86_64 env0 e (OpAdd b) with
    | Ret (_, e'), Ret (_, f') => (match e_cmap e with [Filter.Left; Unused] => true | _ => false end) && (e_channels e =? 2) && (blocks (e_block e') =? 37)%N
    | _, _ => false end)) as (e & H & C).
  { vm_cast_no_check (eq_refl true). }
  destruct (step x86_64 env0 e (OpAdd a)) as [[r e']| | |] eqn:S1; try discriminate C.
  destruct (step x86_64 env0 e (OpAdd b)) as [[r' f']| | |] eqn:S2; try discriminate C.
  rewrite !andb_true_iff, N.eqb_eq, Nat.eqb_eq in C. destruct C as ((C1 & C2) & C3).
  exists e, e', f'. split; [apply demo_reachable in H; [exact H|apply supported_dec; reflexivity|repeat constructor]|].
  assert (e_cmap e = [Filter.Left; Unused]) as Ec by (destruct (e_cmap e) as [|[] [|[] [|]]]; try discriminate C1; reflexivity).
  split; [rewrite Ec; right; left; reflexivity|]. split; auto.
  apply (same_cons x86_64 env0 e e (OpAdd a) (OpAdd b) r r' e' f' e' f'); auto; [|intros _; exact (eq_sym C2)|intros _; exact (eq_sym C2)|constructor].
  unfold same_call. rewrite C2, Ec.
  rewrite (planar_pair x y), (planar_pair x z) by reflexivity.
  cbn [same_input]. split; [reflexivity|]. split; [reflexivity|]. intros [|[|c]] ch Hc Hch.
  - reflexivity.
  - cbn in Hc. injection Hc as <-. congruence.
  - destruct c; discriminate Hc.
Qed.

(** a mono signal as dual mono and as stereo *)
Definition mono_wave : list Z := map (fun k => nth (3 * k) (wave 60) 0%Z) (seq 0 80).
Lemma doubled_demo : exists mono stereo r e e' f', ebur128_new x86_64 env0 1 20 63%N = Ret (Ok mono) /\
  ebur128_new x86_64 env0 2 20 63%N = Ret (Ok stereo) /\ step x86_64 env0 mono (OpSetChannel 0 DualMono) = Ret (r, e) /\
  doubled_session x86_64 env0 e stereo e' f' /\ blocks (e_block e') = 37%N.
Proof.
  set (a := PI16 [mono_wave]). set (b := PI16 [mono_wave; mono_wave]).
  assert (match ebur128_new x86_64 env0 1 20 63%N, ebur128_new x86_64 env0 2 20 63%N with
    | Ret (Ok mono), Ret (Ok stereo) =>
       match step x86_64 env0 mono (OpSetChannel 0 DualMono) with
       | Ret (_, e) => match step x86_64 env0 e (OpAdd a), step x86_64 env0 stereo (OpAdd b) with
             | Ret (_, e'), Ret (_, f') => (blocks (e_block e') =? 37)%N && (e_channels e =? 1) && (e_channels stereo =? 2) | _, _ => false end
       | _ => false end
    | _, _ => false end = true) as C by (vm_cast_no_check (eq_refl true)).
  destruct (ebur128_new x86_64 env0 1 20 63%N) as [[mono|]| | |] eqn:N1; try discriminate C.
  destruct (ebur128_new x86_64 env0 2 20 63%N) as [[stereo|]| | |] eqn:N2; try discriminate C.
  destruct (step x86_64 env0 mono (OpSetChannel 0 DualMono)) as [[r e]| | |] eqn:S0; try discriminate C.
  destruct (step x86_64 env0 e (OpAdd a)) as [[r1 e']| | |] eqn:S1; try discriminate C.
  destruct (step x86_64 env0 stereo (OpAdd b)) as [[r2 f']| | |] eqn:S2; try discriminate C.
  rewrite !andb_true_iff, N.eqb_eq, !Nat.eqb_eq in C. destruct C as ((C & D1) & D2). exists mono, stereo, r, e, e', f'. split; auto. split; auto. split; auto. split; auto.
  apply (doubled_cons x86_64 env0 e stereo (OpAdd a) (OpAdd b) r1 r2 e' f' e' f'); auto; [|intros _; exact (eq_sym D1)|intros _; exact (eq_sym D2)|constructor].
  unfold doubled_call.
  rewrite (planar_pair mono_wave mono_wave), (planar_one mono_wave) by reflexivity. auto.
Qed.

(** seeding only the last 100 ms is not enough: the analyzer of the whole signal still hears the
    tail of the filter, the one of the chunk does not *)
Lemma seed_100ms : exists e f l last next e1 e2 f1 f2 v v',
  ebur128_new x86_64 env0 1 20 MODE_M = Ret (Ok e) /\ f = e /\ length l + length last = 12 /\ length last = hop e /\ length next = 4 * hop e /\
  step x86_64 env0 e (OpAdd (AI16 (l ++ last))) = Ret (Ok tt, e1) /\ step x86_64 env0 f (OpSeed (AI16 last)) = Ret (Ok tt, f1) /\
  step x86_64 env0 e1 (OpAdd (AI16 next)) = Ret (Ok tt, e2) /\ step x86_64 env0 f1 (OpAdd (AI16 next)) = Ret (Ok tt, f2) /\
  ask x86_64 env0 e2 QMomentary = Ret (AValue (Ok v)) /\ ask x86_64 env0 f2 QMomentary = Ret (AValue (Ok v')) /\ f64_lt v' v = true.
Proof.
  set (l := [20000; 30000; 20000; 0; 0; 0; 0; 0; 0; 0]%Z). set (last := [0; 0]%Z). set (next := repeat 0%Z 8).
  assert (match ebur128_new x86_64 env0 1 20 MODE_M with
    | Ret (Ok e) => (hop e =? 2) && match step x86_64 env0 e (OpAdd (AI16 (l ++ last))), step x86_64 env0 e (OpSeed (AI16 last)) with
       | Ret (Ok tt, e1), Ret (Ok tt, f1) => match step x86_64 env0 e1 (OpAdd (AI16 next)), step x86_64 env0 f1 (OpAdd (AI16 next)) with
          | Ret (Ok tt, e2), Ret (Ok tt, f2) => match ask x86_64 env0 e2 QMomentary, ask x86_64 env0 f2 QMomentary with
             | Ret (AValue (Ok v)), Ret (AValue (Ok v')) => f64_lt v' v | _, _ => false end
          | _, _ => false end
       | _, _ => false end
    | _ => false end = true) as C by (vm_cast_no_check (eq_refl true)).
  destruct (ebur128_new x86_64 env0 1 20 MODE_M) as [[e|]| | |] eqn:N1; try discriminate C.
  apply andb_true_iff in C. destruct C as (Ch & C). apply Nat.eqb_eq in Ch.
  destruct (step x86_64 env0 e (OpAdd (AI16 (l ++ last)))) as [[[[]|] e1]| | |] eqn:S1; try discriminate C.
  destruct (step x86_64 env0 e (OpSeed (AI16 last))) as [[[[]|] f1]| | |] eqn:S2; try discriminate C.
  destruct (step x86_64 env0 e1 (OpAdd (AI16 next))) as [[[[]|] e2]| | |] eqn:S3; try discriminate C.
  destruct (step x86_64 env0 f1 (OpAdd (AI16 next))) as [[[[]|] f2]| | |] eqn:S4; try discriminate C.
  destruct (ask x86_64 env0 e2 QMomentary) as [[[v|]|]| | |] eqn:A1; try discriminate C.
  destruct (ask x86_64 env0 f2 QMomentary) as [[[v'|]|]| | |] eqn:A2; try discriminate C.
  exists e, e, l, last, next, e1, e2, f1, f2, v, v'. rewrite Ch. repeat (split; [reflexivity|]). auto 10.
Qed.

(** seeding with all of it is *)
Lemma chunk_demo : exists e t e1 t1 e2 t2 f u f1 u1 f2 u2 l1 l2 cols,
  taped x86_64 env0 e t /\ taped_session x86_64 env0 e t (map OpAdd l1) e1 t1 /\ taped_session x86_64 env0 e1 t1 (map OpAdd l2) e2 t2 /\
  taped x86_64 env0 f u /\ taped_session x86_64 env0 f u (map OpSeed l1) f1 u1 /\ taped_session x86_64 env0 f1 u1 (map OpAdd l2) f2 u2 /\
  settings f = settings e /\ fst (memories f) = fst (memories e) /\ frames_of (signals u) = 0 /\
  all_input x86_64 (e_channels e) l2 = Some cols /\ frames_of (signals t1) = 10 /\ frames_of cols = 20 /\
  blocks (e_block e2) = 12%N /\ blocks (e_block f2) = 7%N.
Proof.
  set (l1 := [AI16 (wave 2); AI16 (wave 3)]). set (l2 := [AI16 (wave 10)]).
  assert (match ebur128_new x86_64 env0 2 20 MODE_I with
    | Ret (Ok e) =>
      match play x86_64 env0 e (blank 2) (map OpAdd l1), play x86_64 env0 e (blank 2) (map OpSeed l1) with
      | Some (e1, t1), Some (f1, u1) =>
         match play x86_64 env0 e1 t1 (map OpAdd l2), play x86_64 env0 f1 u1 (map OpAdd l2) with
         | Some (e2, t2), Some (f2, u2) => match all_input x86_64 2 l2 with Some cols => frames_of cols =? 20 | None => false end && (e_channels e =? 2) && (frames_of (signals t1) =? 10) && (blocks (e_block e2) =? 12)%N && (blocks (e_block f2) =? 7)%N
         | _, _ => false end
      | _, _ => false end
    | _ => false end = true) as C by (vm_cast_no_check (eq_refl true)).
  destruct (ebur128_new x86_64 env0 2 20 MODE_I) as [[e|]| | |] eqn:N1; try discriminate C.
  destruct (play x86_64 env0 e (blank 2) (map OpAdd l1)) as [[e1 t1]|] eqn:P1; try discriminate C.
  destruct (play x86_64 env0 e (blank 2) (map OpSeed l1)) as [[f1 u1]|] eqn:P2; try discriminate C.
  destruct (play x86_64 env0 e1 t1 (map OpAdd l2)) as [[e2 t2]|] eqn:P3; try discriminate C.
  destruct (play x86_64 env0 f1 u1 (map OpAdd l2)) as [[f2 u2]|] eqn:P4; try discriminate C.
  rewrite !andb_true_iff, !N.eqb_eq, !Nat.eqb_eq in C. destruct C as ((((C5 & C1) & C2) & C3) & C4).
  assert (taped x86_64 env0 e (blank 2)) as HT by (apply (taped_new x86_64 env0 2 20 MODE_I); auto; apply supported_dec; reflexivity).
  destruct (all_input x86_64 2 l2) as [cols|] eqn:HI; [|discriminate C5]. apply Nat.eqb_eq in C5.
  exists e, (blank 2), e1, t1, e2, t2, e, (blank 2), f1, u1, f2, u2, l1, l2.
  exists cols. rewrite C1. split; auto. 
  split; [eapply play_session; [repeat constructor|exact P1]|]. split; [eapply play_session; [repeat constructor|exact P3]|].
  split; auto. split; [eapply play_session; [repeat constructor|exact P2]|]. split; [eapply play_session; [repeat constructor|exact P4]|].
  split; auto. split; auto. split; [reflexivity|]. split; [exact HI|]. split; auto.
Qed.

(** silence *)
Definition silent_calls : list op :=
  [OpAdd (AI16 (repeat 0%Z 100)); OpSetChannel 1 Filter.LeftSurround; OpSeed (AF32 [B754_zero true; B754_zero false]); OpAdd (AF64 (repeat (B754_zero true) 80))].
Lemma silent_session : exists e0 e, ebur128_new x86_64 env0 2 20 63%N = Ret (Ok e0) /\ session x86_64 env0 e0 silent_calls e.
Proof.
  assert (match ebur128_new x86_64 env0 2 20 63%N with
    | Ret (Ok e) => match play x86_64 env0 e (blank 2) silent_calls with Some _ => true | _ => false end | _ => false end = true) as C
    by (vm_cast_no_check (eq_refl true)).
  destruct (ebur128_new x86_64 env0 2 20 63%N) as [[e0|]| | |] eqn:N1; try discriminate C.
  destruct (play x86_64 env0 e0 (blank 2) silent_calls) as [[e t]|] eqn:P1; try discriminate C.
  exists e0, e. split; auto. eapply taped_session_session. eapply play_session; [|exact P1]. repeat constructor.
Qed.
Lemma silent_calls_quiet : Forall quiet silent_calls.
Proof.
  assert (forall x : f64, x = B754_zero true -> zero64 x) as Z64 by (intros x ->; exists true; reflexivity).
  unfold silent_calls. apply Forall_cons; [|apply Forall_cons; [exact I|apply Forall_cons; [|apply Forall_cons; [|constructor]]]]; cbn [quiet silent_audio].
  - apply Forall_forall. intros z Hz. apply repeat_spec in Hz. auto.
  - apply Forall_cons; [exists true; reflexivity|]. apply Forall_cons; [exists false; reflexivity|constructor].
  - apply Forall_forall. intros z Hz. apply repeat_spec in Hz. auto.
Qed.
Lemma env0_finite : finite_filter env0 20 /\ finite_taps env0 20.
Proof.
  split.
  - unfold finite_filter, finite5. destruct (filter_coefficients env0 (f64_of_N 20)) as (b, a) eqn:EF.
    assert (let '(b, a) := filter_coefficients env0 (f64_of_N 20) in
      forallb (fun x => is_finite x) [v0 b; v1 b; v2 b; v3 b; v4 b; v0 a; v1 a; v2 a; v3 a; v4 a] = true) as H by (vm_compute; reflexivity).
    rewrite EF in H. cbn [forallb] in H. rewrite !andb_true_iff in H. decompose [and] H. split; repeat constructor; auto.
  - intros taps factor j HO Hj. injection HO as <- <-.
    assert (forallb (fun j => is_finite (hann_sinc env0 4 j)) (seq 0 48) = true) as H by (vm_compute; reflexivity).
    rewrite forallb_forall in H. apply H. apply in_seq. lia.
Qed.

Lemma window_demo : (exists e, reachable x86_64 env0 e /\ e_rate e = 20%N /\ (e_rate e mod 10 = 0)%N /\ (e_rate e * 49 < 1000)%N /\ has_S (e_mode e)) /\
  e_log10 env0 f64_nan = f64_nan.
Proof.
  split; [|reflexivity].
  destruct (passes_spec (demo x86_64 2 20 63%N []) (fun e => (e_rate e =? 20)%N && (e_mode e =? 63)%N)) as (f & H & C); [vm_cast_no_check (eq_refl true)|].
  rewrite andb_true_iff, !N.eqb_eq in C. destruct C as (C1 & C2). exists f.
  split; [apply demo_reachable in H; [exact H|apply supported_dec; reflexivity|repeat constructor]|].
  rewrite C1, C2. repeat split.
Qed.
