(** An environment whose tan and powf are accurate, and an analyzer that heard a sample in it. *)
From Coq Require Import List Arith NArith ZArith Bool Lia Reals Lra Psatz.
From Flocq Require Import Core IEEE754.BinarySingleNaN.
From Verif Require Import Prelude Float Env Tables Utils History Interp Filter Ebur128 Spec Spec_real Spec_filter Spec_coeff Instance Instance_history
  Float_proofs Accuracy_proofs Table_proofs Filter_proofs Ebur128_proofs Config_proofs Lufs_proofs Coeff_proofs Peak_proofs Stream_proofs Noise_proofs Heard_proofs.
Import ListNotations.
Local Open Scope R_scope.

(** a real number rounded down to a multiple of 2^-60, then to f64 *)
Definition nearby (y : R) : f64 := f64_bin (Zfloor (y * bpow radix2 60)) (-60).
Definition env2 : ext := {|
  e_tan := fun x => nearby (tan (real x)); e_sin := e_sin env0; e_cos := e_cos env0; e_log10 := e_log10 env0;
  e_powf := fun x y => nearby (Rpower (real x) (real y)); e_bsearch := e_bsearch env0; e_sort := e_sort env0
|}.
Lemma nearby_close y : Rabs y <= 16 -> is_finite (nearby y) = true /\ Rabs (real (nearby y) - y) <= 2 * / 2 ^ 60 + u * Rabs y.
Proof.
  intros H. set (n := Zfloor (y * bpow radix2 60)). pose proof (Zfloor_lb (y * bpow radix2 60)) as B1. pose proof (Zfloor_ub (y * bpow radix2 60)) as B2. fold n in B1, B2.
  assert (bpow radix2 60 = IZR 1152921504606846976) as E1 by reflexivity. assert (bpow radix2 (-60) = / IZR 1152921504606846976) as E2 by reflexivity.
  rewrite E1 in B1, B2. apply Rabs_le_inv in H. 
  assert (Rabs (IZR n * bpow radix2 (-60) - y) <= / 1152921504606846976) as C by (rewrite E2; apply Rabs_le; lra).
  assert (Rabs (IZR n * bpow radix2 (-60)) <= bpow radix2 1000) as D.
  { apply Rle_trans with (bpow radix2 5); [|apply bpow_le; lia]. change (bpow radix2 5) with 32. rewrite E2. apply Rabs_le. lra. }
  destruct (bin_round n (-60) D) as (F & EQ). unfold nearby. fold n. split; auto. unfold real. rewrite EQ. pose proof (rnd_error (IZR n * bpow radix2 (-60))) as R.
  set (m := IZR n * bpow radix2 (-60)) in *. set (r := rnd64 m) in *. clearbody m r.
  assert (Rabs m <= Rabs y + / 1152921504606846976). { replace m with (y + (m - y)) by ring. eapply Rle_trans; [apply Rabs_triang|]. lra. }
  pose proof u_value. pose proof u_pos. assert (eta <= / 2 ^ 70) as HE by (unfold underflow; apply Rinv_le_contravar; [apply pow_lt; lra|apply Rle_pow; [lra|lia]]). assert (u * Rabs m <= u * (Rabs y + / 1152921504606846976)) by (apply Rmult_le_compat_l; lra).
  replace (r - y) with ((r - m) + (m - y)) by ring. eapply Rle_trans; [apply Rabs_triang|]. set (et := eta) in *. clearbody et. lra.
Qed.
Lemma env2_tan : tan_accurate env2.
Proof.
  intros x _ Hx. change (e_tan env2 x) with (nearby (tan (real x))). set (y := tan (real x)).
  assert (Rabs y <= 4) as HY.
  { pose proof (tan_lipschitz (real x) 0 ltac:(lra) ltac:(lra)) as L. rewrite tan_0, Rminus_0_r in L. rewrite (Rabs_pos_eq (real x - 0)) in L by lra. unfold y. lra. }
  destruct (nearby_close y ltac:(lra)) as (F & C). split; auto. pose proof u_value. pose proof u_pos. assert (u * Rabs y <= u * 4) by (apply Rmult_le_compat_l; lra). lra.
Qed.
Lemma env2_powf : powf_accurate env2.
Proof.
  intros x y _ _ Hx Hy. change (e_powf env2 x y) with (nearby (Rpower (real x) (real y))). set (z := Rpower (real x) (real y)).
  assert (Rabs z <= 10) as HZ.
  { assert (0 < z) by apply exp_pos. rewrite Rabs_pos_eq by lra. unfold z. destruct (Req_dec (real y) 0) as [E|N]; [rewrite E, Rpower_O by lra; lra|].
    apply Rle_trans with (Rpower (real x) 1); [apply Rle_Rpower; lra|]. rewrite Rpower_1 by lra. lra. }
  destruct (nearby_close z ltac:(lra)) as (F & C). split; auto. pose proof u_value. pose proof u_pos. assert (u * Rabs z <= u * 10) by (apply Rmult_le_compat_l; lra). lra.
Qed.

Lemma times_zero P x : is_finite x = true -> exists s, ftz64 P (f64_mul x f64_zero) = B754_zero s.
Proof.
  intros F. assert (exists s, f64_mul x f64_zero = B754_zero s) as (s & ->).
  { unfold f64_zero, f64_mul. destruct x as [s|s| |s m e B]; try discriminate F; eexists; reflexivity. }
  exists s. unfold ftz64. destruct (p_ftz P); reflexivity.
Qed.
Lemma one_normal : is_finite f64_one = true /\ B2R f64_one = 1.
Proof. destruct (off_int 1 ltac:(lia)) as (F & D & _). split; [exact F|]. rewrite Rmult_0_l in D. apply Rminus_diag_uniq. destruct (Req_dec (real (f64_of_Z 1) - 1) 0) as [E|N]; [exact E|]. apply Rabs_pos_lt in N. lra. Qed.
Lemma one_sub P x : is_finite x = true -> ftz64 P (f64_sub f64_one (ftz64 P (f64_mul x f64_zero))) = f64_one.
Proof.
  intros F. destruct (times_zero P x F) as (s & ->). destruct one_normal as (F1 & R1).
  assert (f64_sub f64_one (B754_zero s) = f64_one) as ->.
  { destruct f64_one as [s1|s1| |s1 m e B]; try discriminate F1; [cbn in R1; lra|reflexivity]. }
  unfold ftz64. destruct (p_ftz P); [|reflexivity]. apply flush64_normal; [exact F1|]. rewrite R1, Rabs_R1. change 1 with (bpow radix2 0). apply bpow_le. lia.
Qed.
Lemma add_nothing P x y : is_finite x = true -> is_finite y = true -> is_finite (ftz64 P (f64_add x (ftz64 P (f64_mul y f64_zero)))) = true.
Proof.
  intros FX FY. destruct (times_zero P y FY) as (s & ->). rewrite (proj1 (flush_near P _)). destruct x as [s'|s'| |s' m' e' B']; try discriminate FX; [|exact FX].
  unfold f64_add. cbn. destruct (Bool.eqb s' s); reflexivity.
Qed.
Lemma first_sample P b a B A : close5 b B -> close5 a A -> v0 (fst (filter_step (ar64_ftz P) b a zero5 f64_one)) = f64_one /\ is_finite (snd (filter_step (ar64_ftz P) b a zero5 f64_one)) = true.
Proof.
  intros ((F0 & E0) & (F1 & _) & (F2 & _) & (F3 & _) & (F4 & _)) ((A0 & _) & (A1 & _) & (A2 & _) & (A3 & _) & (A4 & _)).
  unfold filter_step, zero5. cbn [fst snd v0 v1 v2 v3 v4 ar_add ar_mul ar_sub ar64_ftz]. rewrite !one_sub by auto. split; auto.
  repeat apply add_nothing; auto. rewrite (proj1 (flush_near P _)).
  destruct (off_mul 65536 0 60 (v0 b) (v0 B) f64_one 1 60 1) as (F & _); auto; unfold small; try lra.
  - split; auto.
  - pose proof (off_int 1 ltac:(lia)) as O. rewrite Rabs_pos_eq in O by lra. exact O.
  - rewrite Rmult_1_r. apply E0.
Qed.
Lemma heard_mono : exists e t, heard x86_64 env2 0 e t [f64_one] [f64_one] /\ e_channels e = 1%nat /\ e_rate e = 48000%N /\ exists y, nth 0 (signals t) [] = [y] /\ is_finite y = true.
Proof.
  assert (is_64bit x86_64) as HP by (split; reflexivity).
  assert (channels_valid 1) as HC by (split; vm_compute; discriminate || reflexivity). assert (rate_valid 48000) as HR by (split; vm_compute; discriminate).
  destruct (proj2 (proj2 (new_spec x86_64 env2 1 48000 MODE_M HP)) HC HR ltac:(reflexivity)) as (e & Hn & M & R & C & CM & _).
  assert (supported MODE_M 48000) as HS by (split; [right; vm_compute; discriminate|intros (_ & H); vm_compute in H; discriminate H]).
  assert (heard x86_64 env2 0 e (blank 1) [] []) as H0 by (apply (heard_new x86_64 env2 0 1 48000 MODE_M e Hn HS); vm_compute; lia).
  assert (admissible e (OpAdd (AF64 [f64_one]))) as HA by exact I.
  destruct (proj2 (shortterm_available x86_64 env2 e HP (reach_new _ _ _ _ _ _ Hn HS)) _ HA) as (r & e' & Hs & _).
  assert (input x86_64 (e_channels e) (AF64 [f64_one]) = Some [[read x86_64 smp_f64 f64_one]]) as Hi by (rewrite C; reflexivity).
  assert (nth 0 (e_cmap e) Unused <> Unused) as Hu by (rewrite CM; discriminate).
  pose proof (heard_add x86_64 env2 0 e _ _ _ _ r e' _ H0 HA Hs Hi Hu) as H1.
  assert (pieces 1 (hop e) 0 1 = [1%nat]) as EP.
  { cbn [pieces Nat.eqb]. pose proof (next_block_gt (hop e) 0). unfold next_block. unfold hop. rewrite R. vm_compute. reflexivity. }
  destruct (coefficients_off env2 48000 env2_tan env2_powf) as (CB & CA); [split; vm_compute; discriminate|].
  destruct (filter_coefficients env2 (f64_of_N 48000)) as (b, a) eqn:EF. cbn [fst snd] in CB, CA. destruct (first_sample x86_64 b a _ _ CB CA) as (V & F).
  cbn [tape_after nth] in H1. rewrite Hi in H1. unfold tape_add in H1. change (frames_of [[read x86_64 smp_f64 f64_one]]) with 1%nat in H1. change (frames_of (signals (blank 1))) with 0%nat in H1.
  rewrite EP in H1.
  assert (nth_error (e_cmap e) 0 = Some (nth 0 (e_cmap e) Unused)) as Ec by (rewrite CM; reflexivity).
  assert (unused (nth 0 (e_cmap e) Unused) = false) as Eu by (rewrite CM; reflexivity).
  pose proof (pieces_through x86_64 env2 e 0 _ Ec Eu [1%nat] (blank 1) [[read x86_64 smp_f64 f64_one]] (zero5, []) _ eq_refl eq_refl) as PT.
  exists e', (tape_pieces x86_64 env2 e [1%nat] (blank 1) [[read x86_64 smp_f64 f64_one]]). split; [|split; [|split]].
  - match type of H1 with heard _ _ _ _ _ _ ?w => assert (w = [f64_one]) as EW end.
    { cbn [kept_pieces app]. rewrite R, EF. rewrite app_nil_r.
      change ([v0 (fst (filter_step (ar64_ftz x86_64) b a zero5 f64_one))] = [f64_one]). now rewrite V. }
    rewrite EW in H1. exact H1.
  - destruct (Capi_proofs.kept_config x86_64 env2 e _ r e' HP (reach_new _ _ _ _ _ _ Hn HS) HA Hs ltac:(discriminate)) as (-> & _). exact C.
  - destruct (Capi_proofs.kept_config x86_64 env2 e _ r e' HP (reach_new _ _ _ _ _ _ Hn HS) HA Hs ltac:(discriminate)) as (_ & ->). exact R.
  - exists (snd (filter_step (ar64_ftz x86_64) b a zero5 f64_one)). split; [|exact F].
    apply (map_nth_error snd) in PT. unfold signals. rewrite (Parallel_proofs.nth_of_error _ _ _ [] PT). rewrite R. cbn [fst snd through app]. unfold weigh. rewrite EF.
    change (map r_64 (firstn 1 [read x86_64 smp_f64 f64_one])) with [f64_one]. cbn [filter_run]. destruct (filter_step (ar64_ftz x86_64) b a zero5 f64_one) as (st, y). reflexivity.
Qed.
Lemma heard_case : exists e t, heard x86_64 env2 0 e t [f64_one] [f64_one] /\ e_rate e = 48000%N /\ exists y, nth 0 (signals t) [] = [y] /\ is_finite y = true.
Proof. destruct heard_mono as (e & t & H & _ & R & Y). exists e, t. auto. Qed.
Lemma reachable_case : exists e, reachable x86_64 env2 e /\ e_rate e = 48000%N.
Proof. destruct heard_case as (e & t & H & R & _). exists e. split; auto. apply (taped_reachable _ _ _ t). eapply heard_taped; [split; reflexivity|exact H]. Qed.
