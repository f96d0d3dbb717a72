(** An impulse at the end of half a second, measured in two chunks. *)
From Coq Require Import List Arith NArith ZArith Bool Lia Reals Lra Psatz.
From Flocq Require Import Core IEEE754.BinarySingleNaN.
From Verif Require Import Prelude Float Env Tables Utils History Interp Filter Ebur128 Spec Spec_real Spec_filter Spec_coeff Spec_history Spec_accuracy Spec_exact Spec_programme Spec_chunks Instance Instance_history Instance_accuracy Instance_coeff Instance_interp
  Float_proofs Accuracy_proofs Ebur128_proofs Config_proofs Seed_proofs Coeff_proofs Stream_proofs Loud_proofs Heard_proofs Exact_proofs Instance_exact Played_proofs Instance_played Recipe_proofs.
Import ListNotations.
Import Spec_history Spec_exact Spec_chunks.
Local Open Scope R_scope.

(** one channel at 48 kHz in mode I: the samples [sd] with one seed call, unless there are none, and [l] with one add call *)
Lemma fed_call sd l : exists e t, played x86_64 env4 e t /\ fed x86_64 env4 0 e t sd l /\ e_channels e = 1%nat /\ integrating 48000 [Left] e.
Proof.
  assert (is_64bit x86_64) as HP by (split; reflexivity).
  assert (channels_valid 1) as HC by (split; vm_compute; discriminate || reflexivity). assert (rate_valid 48000) as HR by (split; vm_compute; discriminate).
  destruct (proj2 (proj2 (new_spec x86_64 env4 1 48000 MODE_I HP)) HC HR ltac:(reflexivity)) as (e & Hn & M & R & C & CM & _).
  assert (supported MODE_I 48000) as HS by (split; [right; vm_compute; discriminate|intros _; vm_compute; reflexivity]).
  assert (fed x86_64 env4 0 e (blank 1) [] []) as H0 by (apply (fed_new x86_64 env4 0 1 48000 MODE_I e Hn HS); vm_compute; lia).
  pose proof (noted_new x86_64 env4 1 48000 MODE_I e Hn HS) as N0. change (blank (N.to_nat 1)) with (blank 1) in N0.
  assert (exists e1 t1, fed x86_64 env4 0 e1 t1 sd [] /\ noted x86_64 env4 e1 t1 [] [] /\ frames_of (signals t1) = 0%nat /\ e_channels e1 = 1%nat /\ e_mode e1 = MODE_I /\ e_rate e1 = 48000%N /\ e_cmap e1 = [Left]) as (e1 & t1 & F1 & N1 & Z1 & C1 & M1 & R1 & CM1).
  { destruct sd as [|x sd]; [exists e, (blank 1); rewrite C, M, R, CM; auto 9|]. set (ss := x :: sd).
    assert (admissible e (OpSeed (PF64 [ss]))) as HA by (cbn [admissible]; unfold planes_match; rewrite C; reflexivity).
    destruct (Answers_proofs.steps_total x86_64 env4 e _ HP (reach_new _ _ _ _ _ _ Hn HS) HA) as (r & e' & Hs & _).
    assert (input x86_64 (e_channels e) (PF64 [ss]) = Some [map (read x86_64 smp_f64) ss]) as Hi by (cbn [input planar_input forallb]; rewrite Nat.eqb_refl; reflexivity).
    assert (nth 0 (e_cmap e) Unused <> Unused) as Hu by (rewrite CM; discriminate).
    pose proof (fed_seed x86_64 env4 0 e _ _ _ r e' _ H0 HA Hs Hi Hu) as H1. cbn [app nth] in H1. rewrite map_map in H1. change (map (fun x => r_64 (read x86_64 smp_f64 x)) ss) with (map (fun x : f64 => x) ss) in H1. rewrite map_id in H1.
    exists e', (tape_after x86_64 env4 e (OpSeed (PF64 [ss])) (blank 1)). split; [exact H1|].
    pose proof (Window_proofs.seeds_config x86_64 env4 e _ _ r e' HP (fed_taped x86_64 env4 0 e _ _ _ H0) HA Hs) as HSt.
    pose proof (noted_step x86_64 env4 e _ _ _ _ r e' N0 HA Hs ltac:(discriminate) ltac:(discriminate)) as N1. cbn [ended_blocks app] in N1. split; [exact N1|].
    split. { cbn [tape_after]. rewrite Hi, CM. reflexivity. }
    unfold settings in HSt. injection HSt. intros E1 E2 E3 E4 E5 E6. rewrite E3, E4, E5, E6. auto. }
  assert (admissible e1 (OpAdd (PF64 [l]))) as HA by (cbn [admissible]; unfold planes_match; rewrite C1; reflexivity).
  pose proof (taped_reachable _ _ _ _ (fed_taped x86_64 env4 0 e1 t1 sd [] F1)) as Hr.
  destruct (Answers_proofs.steps_total x86_64 env4 e1 _ HP Hr HA) as (r & e' & Hs & _).
  assert (input x86_64 (e_channels e1) (PF64 [l]) = Some [map (read x86_64 smp_f64) l]) as Hi by (cbn [input planar_input forallb]; rewrite Nat.eqb_refl; reflexivity).
  assert (nth 0 (e_cmap e1) Unused <> Unused) as Hu by (rewrite CM1; discriminate).
  pose proof (fed_add x86_64 env4 0 e1 _ _ _ _ r e' _ F1 HA Hs Hi Hu) as H1. cbn [app nth] in H1. rewrite map_map in H1. change (map (fun x => r_64 (read x86_64 smp_f64 x)) l) with (map (fun x : f64 => x) l) in H1. rewrite map_id in H1.
  assert (taped_session x86_64 env4 e1 t1 [OpAdd (PF64 [l])] e' (tape_after x86_64 env4 e1 (OpAdd (PF64 [l])) t1)) as TS by (econstructor; eauto; constructor).
  exists e', (tape_after x86_64 env4 e1 (OpAdd (PF64 [l])) t1). split; [|split; [exact H1|]].
  - exists e1, t1, [OpAdd (PF64 [l])]. split; [exact N1|]. split; [exact Z1|]. split; [exact TS|]. repeat constructor.
  - destruct (Loud_proofs.session_records x86_64 env4 HP _ _ _ _ _ TS (fed_taped x86_64 env4 0 e1 t1 sd [] F1) ltac:(repeat constructor)) as (_ & _ & HSt & _).
    unfold settings in HSt. injection HSt. intros E1 E2 E3 E4 E5 E6. rewrite E4. split; auto. unfold integrating. rewrite E3, E5, E6, M1. split; auto. split; auto. split; [split; reflexivity|]. intros X; vm_compute in X; discriminate X.
Qed.

Lemma fed_frames sd l e t : samples_below 1 (sd ++ l) -> fed x86_64 env4 0 e t sd l -> e_rate e = 48000%N -> frames_of (signals t) = length l.
Proof.
  intros HB H HR. assert (is_64bit x86_64) as HP by (split; reflexivity).
  destruct (fed_good x86_64 env4 0 HP env4_tan env4_powf e t sd l H ltac:(rewrite HR; split; vm_compute; discriminate)) as (m & ys & pre & Hm & _ & Ly & _).
  destruct t as [|(m0, y0) t]; [discriminate Hm|]. cbn in Hm. injection Hm as -> ->. exact Ly.
Qed.
Lemma late_split q k : (k <= q * N.to_nat 4800 - 1)%nat -> late q = repeat f64_zero k ++ impulse (q * N.to_nat 4800 - 1 - k).
Proof. intros H. unfold late, impulse. rewrite app_assoc, <- repeat_app. f_equal. f_equal. lia. Qed.
Lemma zeros_below n : samples_below 1 (repeat f64_zero n).
Proof. apply Forall_forall. intros x Hx. apply repeat_spec in Hx. subst x. split; [reflexivity|]. unfold real. cbn. rewrite Rabs_R0. lra. Qed.
Lemma late_below q : samples_below 1 (late q).
Proof. apply Forall_app. split; [apply zeros_below|]. constructor; [|constructor]. split; [apply one_normal|]. rewrite (proj2 one_normal : real f64_one = 1), Rabs_R1. lra. Qed.
Lemma firstn_repeat {A} (x : A) : forall n m l, (n <= m)%nat -> firstn n (repeat x m ++ l) = repeat x n.
Proof. induction n as [|n IH]; intros [|m] l H; cbn [repeat app firstn]; auto; try lia. f_equal. apply IH. lia. Qed.
Lemma skipn_repeat {A} (x : A) : forall n l, skipn n (repeat x n ++ l) = l.
Proof. induction n; cbn [repeat app skipn]; auto. Qed.
(** the two blocks: silence, and the one with the impulse *)
Lemma two_energies : exists Z, / 144000 <= Z /\ exact_energies 48000 (4 * N.to_nat 4800) [Left] [late 5] [(4 * N.to_nat 4800)%nat; (5 * N.to_nat 4800)%nat] = [0; Z].
Proof.
  destruct first_coefficient as (b0 & B1 & HB). assert (1 <= N.to_nat 4800)%nat as HS by lia. exists (b0 * b0 / INR (4 * N.to_nat 4800)). split.
  - assert (INR (4 * N.to_nat 4800) = 19200) as -> by (rewrite mult_INR, (INR_IZR_INZ (N.to_nat 4800)), N_nat_Z; cbn; lra). nra.
  - unfold exact_energies. cbn [map]. f_equal.
    + unfold late, impulse. rewrite firstn_repeat by lia. unfold exact_mean_square. cbn [combine map total fold_right weight].
      assert (forall n, weighted 48000 (repeat f64_zero n) = repeat 0 n) as HZ.
      { intros n. pose proof (weighted_firstn 48000 (impulse n) n) as W. unfold impulse in W at 1. rewrite firstn_repeat in W by lia. rewrite W, HB. apply firstn_repeat. lia. }
      rewrite HZ. assert (forall w n, total (map (fun y => y * y) (recentR w (repeat 0 n))) = 0) as ->; [|unfold Rdiv; ring].
      intros w n. unfold recentR. rewrite <- repeat_app, repeat_length. replace (w + n)%nat with (n + w)%nat by lia. rewrite repeat_app, skipn_repeat. induction w as [|w IH]; cbn [repeat map]; [reflexivity|].
      change (total (?x :: ?l)) with (x + total l). rewrite IH. ring.
    + f_equal. rewrite firstn_all2 by (rewrite late_length by lia; lia). apply (impulse_mean b0 B1 HB). lia.
Qed.
Lemma two_ends s : (1 <= s)%nat -> block_ends s 0 (5 * s) = [(4 * s)%nat; (5 * s)%nat].
Proof. intros Hs. rewrite block_ends_0 by auto. rewrite Nat.div_mul by lia. reflexivity. Qed.
Lemma chunk_error_small : 0 <= chunk_error x86_64 48000 1 [Left] <= 6 / 10 ^ 6.
Proof.
  unfold chunk_error, filter_error. cbn [map weight total fold_right p_ftz x86_64]. rewrite Rplus_0_r, sqrt_1. change (IZR (Z.of_N 48000)) with 48000. rewrite Rmult_1_l. replace (48000 / 48000) with 1 by lra. rewrite pow1.
  assert (0 < / 2 ^ 1000 <= / 2 ^ 30); [split; [apply Rinv_0_lt_compat, pow_lt; lra|apply Rinv_le_contravar; [apply pow_lt; lra|apply Rle_pow; [lra|lia]]]|]. lra.
Qed.
Lemma chunks_case : exists et et', measures x86_64 env4 [late 5] 0 (4 * N.to_nat 4800) (fst et) (snd et) /\
  in_chunks x86_64 env4 [late 5] (N.to_nat 4800) (4 * N.to_nat 4800) [(5 * N.to_nat 4800)%nat] [et'] /\
  programme_of 1 [Left] (5 * N.to_nat 4800) [late 5] /\ Forall (fun et => integrating 48000 [Left] (fst et)) [et; et'] /\
  let l := exact_energies 48000 (4 * N.to_nat 4800) [Left] [late 5] (block_ends (N.to_nat 4800) 0 (5 * N.to_nat 4800)) in
  let d := chunk_error x86_64 48000 1 [Left] in let k := (length l + 3 * 2 + 102)%nat in
  (N.of_nat k <= 2 ^ 50)%N /\ decided 10 (2 * d) (tolerance k / 6) l /\ loud l <> [] /\ 5 * d <= sqrt (average (gated_blocks 10 l)).
Proof.
  set (s := N.to_nat 4800). assert (2 <= s)%nat as HS by (unfold s; lia).
  destruct (fed_call [] (repeat f64_zero (4 * s))) as (e & t & HPl & HF & HC & HI). pose proof HI as (HR & HCM & _).
  destruct (fed_call (repeat f64_zero s) (late 4)) as (e' & t' & HPl' & HF' & HC' & HI'). pose proof HI' as (HR' & HCM' & _).
  assert (hop e = s) as Hh by (unfold hop; rewrite HR; vm_compute; reflexivity). assert (hop e' = s) as Hh' by (unfold hop; rewrite HR'; vm_compute; reflexivity).
  exists (e, t), (e', t'). cbn [fst snd]. split; [|split; [|split; [|split]]].
  - split; [exact HPl|]. split; [rewrite (fed_frames [] _ e t ltac:(apply zeros_below) HF HR), repeat_length; lia|]. intros c Hc _. rewrite HC in Hc. replace c with 0%nat by lia. cbn [nth]. rewrite Hh.
    unfold span. rewrite Nat.sub_0_r. cbn [Nat.min firstn skipn]. replace (firstn (4 * s) (late 5)) with (repeat f64_zero (4 * s)); [exact HF|]. symmetry. apply firstn_repeat. fold s. lia.
  - cbn [in_chunks]. split; [apply Nat.mod_mul; lia|]. split; [lia|]. split; [|exact I]. replace (4 * s - 3 * s)%nat with s by lia.
    assert (late 5 = repeat f64_zero s ++ late 4) as EL by (rewrite (late_split 5 s) by (fold s; lia); f_equal; unfold late; fold s; f_equal; lia).
    split; [exact HPl'|]. split; [rewrite (fed_frames _ _ e' t' ltac:(apply Forall_app; split; [apply zeros_below|apply late_below]) HF' HR'), late_length by lia; fold s; lia|].
    intros c Hc _. rewrite HC' in Hc. replace c with 0%nat by lia. cbn [nth]. rewrite Hh', Nat.sub_diag, Nat.min_id. unfold span. rewrite EL, skipn_repeat. change (skipn 0 (repeat f64_zero s ++ late 4)) with (repeat f64_zero s ++ late 4). rewrite firstn_repeat by lia.
    rewrite firstn_all2 by (rewrite late_length by lia; fold s; lia). exact HF'.
  - split; [reflexivity|]. intros c Hc _. cbn [length] in Hc. replace c with 0%nat by lia. cbn [nth]. split; [apply late_below|apply late_length; lia].
  - constructor; [exact HI|]. constructor; [exact HI'|constructor].
  - rewrite two_ends by lia. unfold s. destruct two_energies as (Z & HZ & EZ). rewrite EZ. cbv zeta. cbn [length]. pose proof minus_70_bounds as (M0 & M1). pose proof chunk_error_small as (D0 & D1). set (d := chunk_error x86_64 48000 1 [Left]) in *. clearbody d.
    destruct (one_loud Z HZ) as (HM & HL & HG). pose proof (one_root Z HZ) as RZ. assert (0 < minus_70) as M00 by (assert (0 < / 10 ^ 7) by (apply Rinv_0_lt_compat, pow_lt; lra); lra).
    assert (loud [0; Z] = [Z]) as HL2. { unfold loud, not_below. cbn [List.filter]. destruct (Rle_dec minus_70 0); [lra|]. exact HL. }
    assert (gated_blocks 10 [0; Z] = [Z]) as HG2. { specialize (HG 10 ltac:(lra)). unfold gated_blocks, relative_gate in *. rewrite HL in HG. rewrite HL2. exact HG. }
    assert (/ 10 ^ 4 <= sqrt minus_70 <= / 10 ^ 3) as RM.
    { split; [rewrite <- (sqrt_square (/ 10 ^ 4)) by (cbn; lra)|rewrite <- (sqrt_square (/ 10 ^ 3)) by (cbn; lra)]; apply sqrt_le_1_alt; cbn [pow] in *; lra. }
    split; [vm_compute; discriminate|]. rewrite HL2, HG2. split; [|split; [discriminate|]].
    + assert (decided 10 (2 * d) (tolerance (2 + 3 * 2 + 102) / 6) [Z]) as (X1 & X2).
      { set (n := (2 + 3 * 2 + 102)%nat). assert (n <= 1001)%nat as Hn by (unfold n; lia). clearbody n. split.
        - constructor; [|constructor]. rewrite Rabs_pos_eq; cbn [pow] in *; lra.
        - unfold relative_gate. rewrite HL. constructor; [|constructor]. unfold average. cbn [total fold_right length INR]. rewrite Rplus_0_r. replace (Z / 1) with Z by lra. 
          assert (sqrt (Z / 10) <= sqrt Z / 3) as RG.
          { rewrite sqrt_div by lra. assert (3 <= sqrt 10) as k3. { rewrite <- (sqrt_square 3) by lra. apply sqrt_le_1_alt. lra. } unfold Rdiv. apply Rmult_le_compat_l; [apply sqrt_pos|]. apply Rinv_le_contravar; lra. }
          assert (0 <= tolerance n <= 1) as T.
          { unfold tolerance. apply le_INR in Hn. pose proof (pos_INR n) as P. replace (INR 1001) with 1001 in Hn by (rewrite INR_IZR_INZ; reflexivity). unfold roundoff. cbn [pow]. lra. }
          assert (tolerance n / 6 * sqrt (Z / 10) <= 1 / 6 * (sqrt Z / 3)) by (apply Rmult_le_compat; [lra|apply sqrt_pos|lra|auto]).
          rewrite Rabs_pos_eq; cbn [pow] in *; lra. }
      split.
      * constructor; [|exact X1]. rewrite sqrt_0, Rminus_0_l, Rabs_Ropp, Rabs_pos_eq by apply sqrt_pos. cbn [pow] in *. lra.
      * unfold relative_gate in *. rewrite HL in X2. rewrite HL2. exact X2.
    + unfold average. cbn [total fold_right length INR]. rewrite Rplus_0_r. replace (Z / 1) with Z by lra. cbn [pow] in *. lra.
Qed.
