(** Concrete runs for the symmetry properties. *)
From Coq Require Import ZArith NArith List Bool Arith Lia.
From Flocq Require Import IEEE754.BinarySingleNaN.
From Verif Require Import Prelude Float Env Utils History Filter Ebur128 Spec Instance Examples Spec_symmetry Input_proofs.
Import ListNotations.

Fixpoint inverted_run (P : platform) (E : ext) (flips : nat -> bool) (e f : ebur128) (os : list op) : option (ebur128 * ebur128) :=
  match os with
  | [] => Some (e, f)
  | o :: os => match step P E e o, step P E f (inverted_op flips (e_channels e) o) with
               | Ret (_, e'), Ret (_, f') => inverted_run P E flips e' f' os
               | _, _ => None
               end
  end.
Lemma inverted_plain flips C o : plain o -> plain (inverted_op flips C o).
Proof. destruct o as [| | | | | |[]|[]]; simpl; tauto. Qed.
Lemma inverted_run_session P E flips : forall os e f e' f', Forall plain os -> inverted_run P E flips e f os = Some (e', f') ->
  inverted_session P E flips e f e' f'.
Proof.
  induction os as [|o os IH]; cbn [inverted_run]; intros e f e' f' Hp H.
  - injection H as <- <-. constructor.
  - inversion_clear Hp. destruct (step P E e o) as [[r e1]| | |] eqn:Hs; try discriminate H.
    destruct (step P E f (inverted_op flips (e_channels e) o)) as [[r' f1]| | |] eqn:Hs'; try discriminate H.
    econstructor; eauto using plain_admissible, inverted_plain.
Qed.
Lemma inverts P flips channels rate m os (check : ebur128 -> ebur128 -> bool) : Forall plain os ->
  match ebur128_new P env0 channels rate m with
  | Ret (Ok e) => match inverted_run P env0 flips e e os with Some (e', f') => check e' f' | None => false end
  | _ => false end = true ->
  exists e e' f', ebur128_new P env0 channels rate m = Ret (Ok e) /\ inverted_session P env0 flips e e e' f' /\ check e' f' = true.
Proof.
  intros Hp H. destruct (ebur128_new P env0 channels rate m) as [[e0|]| | |] eqn:Hn; try discriminate H.
  destruct (inverted_run P env0 flips e0 e0 os) as [[e' f']|] eqn:Hr; try discriminate H.
  exists e0, e', f'. eauto using inverted_run_session.
Qed.
(** The second of two channels inverted, in three formats, with the filter seeded on the way: 22 blocks,
    the buffered signals are not the same. *)
Definition second (c : nat) : bool := c =? 1.
Definition some_calls : list op :=
  [OpSetChannel 1 LeftSurround; OpSeed (AI16 (wave 2)); OpAdd (AI32 (map (fun z => (z * 65536)%Z) (wave 5)));
   OpAdd (AF64 (map (fun z => f64_div (f64_of_Z z) (f64_of_Z 40000)) (wave 10))); OpAdd (AI16 (wave 10))].
Definition differ (l m : list f64) : bool := existsb (fun '(x, y) => f64_lt x y) (combine l m).
Lemma inverted_demo : exists e e' f', ebur128_new x86_64 env0 2 20 63%N = Ret (Ok e) /\ supported 63%N 20 /\
  inverted_session x86_64 env0 second e e e' f' /\ blocks (e_block e') = 22%N /\ differ (e_audio e') (e_audio f') = true.
Proof.
  destruct (inverts x86_64 second 2 20 63%N some_calls (fun e' f' => (blocks (e_block e') =? 22)%N && differ (e_audio e') (e_audio f')))
    as (e & e' & f' & H1 & H2 & C); [repeat constructor|vm_cast_no_check (eq_refl true)|].
  exists e, e', f'. rewrite andb_true_iff, N.eqb_eq in C. split; [exact H1|]. split; [apply supported_dec; reflexivity|tauto].
Qed.

(** ** Exchanged channels *)
Fixpoint parallel_run (P : platform) (E : ext) (C : nat) (e f : ebur128) (os : list (op * op)) : option (ebur128 * ebur128) :=
  match os with
  | [] => Some (e, f)
  | (o, o') :: os => match step P E e o, step P E f o' with
                     | Ret (_, e'), Ret (_, f') => if e_channels e =? C then parallel_run P E C e' f' os else None
                     | _, _ => None
                     end
  end.
Definition exchanged_plain (P : platform) (C : nat) (oo : op * op) : Prop :=
  plain (fst oo) /\ plain (snd oo) /\ forall e, e_channels e = C -> exchanged_call P e (fst oo) (snd oo).
Lemma exchanged_run_session P E C : forall os e f e' f', Forall (exchanged_plain P C) os ->
  parallel_run P E C e f os = Some (e', f') -> exchanged_session P E e f e' f'.
Proof.
  induction os as [|(o, o') os IH]; cbn [parallel_run]; intros e f e' f' Hp H.
  - injection H as <- <-. constructor.
  - inversion Hp as [|? ? (P1 & P2 & P3) Hp']; subst. cbn [fst snd] in *. destruct (step P E e o) as [[r e1]| | |] eqn:Hs; try discriminate H.
    destruct (step P E f o') as [[r' f1]| | |] eqn:Hs'; try discriminate H.
    destruct (Nat.eqb_spec (e_channels e) C); try discriminate H.
    eapply exchanged_cons; eauto using plain_admissible.
Qed.
Lemma exchanges P channels rate m os (check : ebur128 -> ebur128 -> bool) : Forall (exchanged_plain P (N.to_nat channels)) os ->
  match ebur128_new P env0 channels rate m with
  | Ret (Ok e) => match parallel_run P env0 (N.to_nat channels) e e os with Some (e', f') => check e' f' | None => false end
  | _ => false end = true ->
  exists e e' f', ebur128_new P env0 channels rate m = Ret (Ok e) /\ exchanged_session P env0 e e e' f' /\ check e' f' = true.
Proof.
  intros Hp H. destruct (ebur128_new P env0 channels rate m) as [[e0|]| | |] eqn:Hn; try discriminate H.
  destruct (parallel_run P env0 (N.to_nat channels) e0 e0 os) as [[e' f']|] eqn:Hr; try discriminate H.
  exists e0, e', f'. eauto using exchanged_run_session.
Qed.
(** Stereo, the second channel weighted as surround; for the other analyzer the first one, and the audio with the two
    channels exchanged, and its own choice of surround role. *)
Fixpoint pairs (n : nat) : list Z := match n with O => [] | S n => [16384; -8192; -16384; 8000; 12000; 7]%Z ++ pairs n end.
Fixpoint pairs' (n : nat) : list Z := match n with O => [] | S n => [-8192; 16384; 8000; -16384; 7; 12000]%Z ++ pairs' n end.
Definition swapped_calls : list (op * op) :=
  [(OpSetChannel 1 LeftSurround, OpSetChannel 0 Mp090); (OpSeed (AI16 (pairs 2)), OpSeed (AI16 (pairs' 2)));
   (OpAdd (AI16 (pairs 12)), OpAdd (AI16 (pairs' 12))); (OpSetMaxHistory 2000, OpSetMaxHistory 2000);
   (OpAdd (AI16 (pairs 8)), OpAdd (AI16 (pairs' 8)))].
Lemma exchanged_i16 P C l l' : length l = length l' -> deinterleave C l' = exchange (deinterleave C l) ->
  same_input (fun x y => y = exchange x) (input P C (AI16 l)) (input P C (AI16 l')).
Proof.
  intros Hl H. cbn [input]. unfold interleaved_input. rewrite <- Hl. destruct (_ =? 0); cbn [same_input]; auto.
  rewrite !deinterleave_map, H. destruct (deinterleave C l) as [|a [|b x]]; reflexivity.
Qed.
Lemma exchanged_demo : exists e e' f', ebur128_new x86_64 env0 2 20 63%N = Ret (Ok e) /\ supported 63%N 20 /\
  exchanged_session x86_64 env0 e e e' f' /\ (0 < blocks (e_block e'))%N /\ differ (e_audio e') (e_audio f') = true.
Proof.
  destruct (exchanges x86_64 2 20 63%N swapped_calls (fun e' f' => (0 <? blocks (e_block e'))%N && differ (e_audio e') (e_audio f')))
    as (e & e' & f' & H1 & H2 & C).
  - unfold swapped_calls. repeat (apply Forall_cons; [|]); try apply Forall_nil;
      (split; [exact I|]; split; [exact I|]; intros e He; cbn [exchanged_call fst snd]; rewrite ?He;
       first [reflexivity | split; reflexivity | apply exchanged_i16; vm_compute; reflexivity]).
  - vm_cast_no_check (eq_refl true).
  - exists e, e', f'. rewrite andb_true_iff, N.ltb_lt in C. split; [exact H1|]. split; [apply supported_dec; reflexivity|tauto].
Qed.

(** ** Other pairs of channels *)
Fixpoint triples (n : nat) : list Z :=
  match n with O => [] | S n => [16384; -8192; 301; -16384; 8000; 5; 12000; 7; 200]%Z ++ triples n end.
Fixpoint triples' (n : nat) : list Z :=
  match n with O => [] | S n => [16384; 301; -8192; -16384; 5; 8000; 12000; 200; 7]%Z ++ triples' n end.
Definition exchange_last_two {A} (l : list A) : list A := match l with [a; b; c] => [a; c; b] | l => l end.
Definition energies (h : history) : list f64 := match h with HQueue q => q_queue q | HHistogram _ => [] end.
Lemma order_matters : exists l l' e e1 e2, ebur128_new x86_64 env0 3 20 MODE_I = Ret (Ok e) /\ supported MODE_I 20 /\
  e_cmap e = [Left; Right; Center] /\ deinterleave 3 l' = exchange_last_two (deinterleave 3 l) /\
  step x86_64 env0 e (OpAdd (AI16 l)) = Ret (Ok tt, e1) /\ step x86_64 env0 e (OpAdd (AI16 l')) = Ret (Ok tt, e2) /\
  recorded e1 <> recorded e2.
Proof.
  assert (match ebur128_new x86_64 env0 3 20 MODE_I with
    | Ret (Ok e) => match step x86_64 env0 e (OpAdd (AI16 (triples 4))), step x86_64 env0 e (OpAdd (AI16 (triples' 4))) with
                    | Ret (Ok _, e1), Ret (Ok _, e2) =>
                        match e_cmap e with [Left; Right; Center] => true | _ => false end &&
                        differ (energies (e_block e1)) (energies (e_block e2))
                    | _, _ => false end
    | _ => false end = true) as H.
  { vm_cast_no_check (eq_refl true). }
  exists (triples 4), (triples' 4).
  destruct (ebur128_new x86_64 env0 3 20 MODE_I) as [[e|]| | |]; try discriminate H. exists e.
  destruct (step x86_64 env0 e (OpAdd (AI16 (triples 4)))) as [[[[]|] e1]| | |]; try discriminate H.
  destruct (step x86_64 env0 e (OpAdd (AI16 (triples' 4)))) as [[[[]|] e2]| | |]; try discriminate H.
  apply andb_true_iff in H. destruct H as (HM & HD). exists e1, e2.
  split; [reflexivity|]. split; [apply supported_dec; reflexivity|].
  split.
  { destruct (e_cmap e) as [|a m]; [discriminate HM|]. destruct a; try discriminate HM.
    destruct m as [|a m]; [discriminate HM|]. destruct a; try discriminate HM.
    destruct m as [|a m]; [discriminate HM|]. destruct a; try discriminate HM.
    destruct m; [reflexivity|discriminate HM]. }
  split; [vm_compute; reflexivity|]. split; [reflexivity|]. split; [reflexivity|].
  unfold recorded. intros [= HB HS]. rewrite HB in HD. revert HD. generalize (energies (e_block e2)). intros l.
  unfold differ. induction l as [|x l IH]; cbn; [discriminate|]. unfold f64_lt, Bltb, SpecFloat.SFltb. 
  replace (SpecFloat.SFcompare (B2SF x) (B2SF x)) with (Bcompare x x) by reflexivity.
  destruct (Bcompare x x) as [[]|] eqn:Ec; auto. exfalso.
  pose proof (Bcompare_swap _ _ x x) as Hsw. rewrite Ec in Hsw. discriminate.
Qed.
