(** Proofs: the sample formats, the coefficients and sequences of calls of the C reference filter. *)
From Coq Require Import List Arith NArith ZArith Bool Lia Reals Lra.
From Flocq Require Import Core IEEE754.BinarySingleNaN.
From Verif Require Import Prelude Float Env Utils Interp TruePeak Filter Capi Ref Cref Cref_filter Spec Spec_real Spec_cref Spec_cref_filter
  Prelude_proofs Utils_proofs Float_proofs Input_proofs Format_proofs Peak_proofs TruePeak_proofs Filter_proofs Cref_filter_proofs.
Import ListNotations.
Local Open Scope R_scope.

Lemma div_one (x : f64) : f64_div x (f64_of_Z 1) = x.
Proof.
  destruct x as [[]|[]| |s m e B] eqn:Ex; try reflexivity. rewrite <- Ex. assert (is_finite x = true) as Hf by (rewrite Ex; reflexivity).
  unfold f64_div. pose proof (Bdiv_correct 53 1024 eq_refl eq_refl mode_NE x (f64_of_Z 1)) as H. destruct (f64_of_Z_exact 1 ltac:(lia)) as (_ & Z2 & _). rewrite Z2 in H.
  assert (B2R x / 1 = B2R x) as E1 by field. rewrite E1 in H. rewrite round_generic in H; [|apply valid_rnd_N|apply generic_format_B2R].
  rewrite Rlt_bool_true in H by apply abs_B2R_lt_emax. destruct H as (H1 & H2 & H3); [lra|].
  assert (is_finite (Bdiv mode_NE x (f64_of_Z 1)) = true) as H4 by (transitivity (is_finite x); [exact H2|exact Hf]).
  apply B2R_Bsign_inj; [exact H4|exact Hf|exact H1|].
  transitivity (xorb (Bsign x) (Bsign (f64_of_Z 1))); [apply H3; destruct (Bdiv mode_NE x (f64_of_Z 1)); try reflexivity; discriminate H4|].
  replace (Bsign (f64_of_Z 1)) with false by (vm_compute; reflexivity). apply xorb_false_r.
Qed.
Lemma short_scale : t_scale c_short = f64_of_Z (2 ^ 15). Proof. apply B2SF_inj. vm_compute. reflexivity. Qed.
Lemma int_scale : t_scale c_int = f64_of_Z (2 ^ 31). Proof. apply B2SF_inj. vm_compute. reflexivity. Qed.
Lemma one_scale : c_max (f64_neg (f64_of_Z (-1))) (f64_of_Z 1) = f64_of_Z 1. Proof. apply B2SF_inj. vm_compute. reflexivity. Qed.
Lemma scales : same_scale smp_i16 c_short /\ same_scale smp_i32 c_int /\ same_scale smp_f32 c_float /\ same_scale smp_f64 c_double.
Proof. repeat split; apply B2SF_inj; vm_compute; reflexivity. Qed.
Lemma scaled_normal P z k : (0 <= k <= 31)%Z -> (Z.abs z <= 2 ^ 31)%Z -> ftz64 P (f64_div (f64_of_Z z) (f64_of_Z (2 ^ k))) = f64_div (f64_of_Z z) (f64_of_Z (2 ^ k)).
Proof.
  intros Hk Hz. destruct (scale64 z k Hk Hz) as (H1 & H2 & _). apply ftz64_normal; auto. rewrite H2.
  destruct (Z.eq_dec z 0) as [->|Hn]; [left; lra|right]. rewrite Rabs_mult, (Rabs_pos_eq (bpow radix2 (-k))) by apply bpow_ge_0. rewrite <- abs_IZR.
  assert (1 <= IZR (Z.abs z)) by (apply IZR_le; lia). assert (bpow radix2 (-1022) <= bpow radix2 (-k)) by (apply bpow_le; lia). pose proof (bpow_gt_0 radix2 (-k)). nra.
Qed.
Lemma reads_i16 P z : in_i16 z -> reads_same P smp_i16 c_short z.
Proof. intros H. split; [reflexivity|]. rewrite short_scale. cbn [smp_i16 s_f64 c_short t_double]. change (f64_of_Z 32768) with (f64_of_Z (2 ^ 15)). symmetry. apply scaled_normal; [lia|]. unfold in_i16 in H. lia. Qed.
Lemma reads_i32 P z : in_i32 z -> reads_same P smp_i32 c_int z.
Proof. intros H. split; [reflexivity|]. rewrite int_scale. cbn [smp_i32 s_f64 c_int t_double]. change (f64_of_Z 2147483648) with (f64_of_Z (2 ^ 31)). symmetry. apply scaled_normal; [lia|]. unfold in_i32 in H. lia. Qed.
Lemma reads_f64 P x : (p_ftz P = true -> subnormal64 x = false) -> reads_same P smp_f64 c_double x.
Proof.
  intros H. split; [reflexivity|]. cbn [smp_f64 s_f64 c_double t_double t_scale]. rewrite one_scale, div_one. unfold ftz64. destruct (p_ftz P); auto. specialize (H eq_refl).
  destruct x; auto. unfold flush64. cbn [subnormal64] in H. now rewrite H.
Qed.
Lemma reads_f32 P x : reads_same P smp_f32 c_float x.
Proof.
  split; [reflexivity|]. cbn [smp_f32 s_f64 c_float t_double t_scale]. rewrite one_scale, div_one. symmetry.
  destruct (is_finite x) eqn:Hf; [|destruct x as [[]|[]| |]; try discriminate Hf; unfold ftz64; destruct (p_ftz P); reflexivity].
  destruct (f64_of_f32_finite x Hf) as (H1 & H2 & _). apply ftz64_normal; auto. rewrite H2.
  destruct x as [s|s| |s m e B]; try discriminate; [left; reflexivity|right]. cbn [B2R]. rewrite <- F2R_Zabs.
  assert (Z.abs (SpecFloat.cond_Zopp s (Zpos m)) = Zpos m) as -> by (destruct s; reflexivity).
  unfold F2R. cbn [Fnum Fexp]. apply Rle_trans with (1 * bpow radix2 e)%R.
  - rewrite Rmult_1_l. apply bpow_le. pose proof (proj1 (proj1 (andb_true_iff _ _) B)) as K.
    unfold SpecFloat.canonical_mantissa in K. apply Zeq_bool_eq in K. unfold SpecFloat.fexp, SpecFloat.emin in K. lia.
  - apply Rmult_le_compat_r; [apply bpow_ge_0|]. apply IZR_le. lia.
Qed.

(** * Coefficients *)
Lemma create_twins E L rate C sp : same_pow E L -> same_tan E L -> (0 < rate)%N -> (0 < C)%nat ->
  exists f, filter_new E rate C sp false = Ret f /\ twin_filters f (filter_create_c L rate C sp) /\ f_channels f = C.
Proof.
  intros HP HT Hr HC. unfold filter_new. unfold assert_. destruct (N.ltb_spec 0 rate); [|lia]. destruct (Nat.ltb_spec 0 C); [|lia].
  assert (filter_coefficients E (f64_of_N rate) = coefficients_c L rate) as Ec.
  { unfold filter_coefficients, coefficients_c, filter_product, filter_sections, coeff_inputs64. cbn [c_zero c_one c_two c_mtwo c_K1 c_Q1 c_Vh c_Vb c_K2 c_Q2 ar64 ar_add ar_sub ar_mul ar_div
      pb0 pb1 pb2 pa0 pa1 pa2 rb0 rb1 rb2 ra0 ra1 ra2]. cbv zeta. rewrite !HP, !HT. reflexivity. }
  rewrite Ec. destruct (coefficients_c L rate) as (b, a) eqn:Eba. cbn [obind]. eexists. split; [reflexivity|]. split; [|reflexivity].
  constructor; unfold filter_create_c; cbn [f_channels f_b f_a f_state f_calc_sample_peak f_sample_peak f_tp cf_channels cf_b cf_a cf_v cf_calc cf_sample_peak]; auto; try (rewrite Eba; reflexivity); apply repeat_length.
Qed.
Lemma reset_twins f g : twin_filters f g -> twin_filters (filter_reset_peaks f) (filter_reset_peaks_c g).
Proof.
  intros [T1 T2 T3 T4 T5 T6 T7 T8 T9 T10].
  constructor; unfold filter_reset_peaks, filter_reset_peaks_c; cbn [f_channels f_b f_a f_state f_calc_sample_peak f_sample_peak f_tp cf_channels cf_b cf_a cf_v cf_calc cf_sample_peak]; auto.
  - now rewrite T6.
  - now rewrite map_length.
Qed.

(** * Sequences of calls *)
Lemma stream_same {T} P (S : sample T) (t : ctype T) cmap codes L C : p_ftz P = true -> same_scale S t -> Forall2 code_of cmap codes -> (0 < L)%nat -> length cmap = C ->
  forall calls f g planes data, Forall (fun '(src, n, i) => length src = (C * n)%nat /\ Forall (reads_same P S t) src /\ (i + n <= L)%nat) calls ->
  twin_filters f g -> f_channels f = C -> same_audio C L data planes ->
  exists f' g' planes' data',
    ofold (fun '(f, dest) '(src, n, i) => filter_process P S f (Interleaved src C) dest i cmap) (f, concat planes) calls = Ret (f', concat planes') /\
    ofold (fun '(g, dest) '(src, n, i) => filter_process_c P t g n src dest (i * C) codes) (g, data) calls = Ret (g', data') /\
    twin_filters f' g' /\ same_audio C L data' planes'.
Proof.
  intros HP HM HF HL Hcm. induction calls as [|((src, n), i) calls IH]; intros f g planes data HC HT Hch HA.
  - exists f, g, planes, data. auto.
  - destruct (Forall_inv HC) as (C1 & C2 & C3). subst C.
    destruct (filter_same P S t f g src n planes data L i cmap codes HP HT HM) as (f1 & g1 & p1 & d1 & R1 & R2 & R3 & R4 & R5); auto; try congruence.
    rewrite Hch in *. destruct (IH f1 g1 p1 d1 (Forall_inv_tail HC) R3 R4 R5) as (f' & g' & p' & d' & Q1 & Q2 & Q3 & Q4).
    exists f', g', p', d'. cbn [ofold]. rewrite R1, R2. cbn [obind]. auto.
Qed.
