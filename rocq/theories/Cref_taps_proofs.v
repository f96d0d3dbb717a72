(** The taps of the C interpolator against the exact ones. *)
From Coq Require Import List Arith NArith ZArith Bool Lia Reals Lra Psatz.
From Flocq Require Import Core IEEE754.BinarySingleNaN.
From Verif Require Import Prelude Float Env Utils Interp Cref Cref_filter Cref_interp Spec Spec_real Spec_interp Spec_cref_interp
  Float_proofs Table_proofs Format_proofs Accuracy_proofs Lufs_proofs Coeff_proofs Taps_proofs Ripple_proofs Oversample_proofs Noise_proofs Peak_proofs Prelude_proofs Instance.
Import ListNotations.
Local Open Scope R_scope.

(** a Rust library with C's sin and cos *)
Definition ext_of (L : libc) : ext := {| e_tan := e_tan env0; e_sin := c_sin L; e_cos := c_cos L; e_log10 := e_log10 env0; e_powf := e_powf env0;
  e_bsearch := e_bsearch env0; e_sort := e_sort env0 |}.
Lemma ext_of_sin L : csin_accurate L -> sin_accurate (ext_of L). Proof. exact (fun H => H). Qed.
Lemma ext_of_cos L : ccos_accurate L -> cos_accurate (ext_of L). Proof. exact (fun H => H). Qed.

Definition tapc64 (E : ext) (factor j : nat) : f64 :=
  f64_mul (if (j =? 24)%nat then f64_one else
    let x := f64_div (f64_mul (f64_of_Z (Z.of_nat j - 24)) PI64) (f64_of_nat factor) in f64_div (e_sin E x) x) (hann E j).
Lemma tap_c_spec L factor j : (j <= 48)%nat -> tap_c L 49 factor j = tapc64 (ext_of L) factor j.
Proof.
  intros Hj. unfold tap_c, tapc64, hann. cbv zeta. change (f64_of_nat (49 - 1)) with (f64_of_nat 48). change (e_sin (ext_of L)) with (c_sin L). change (e_cos (ext_of L)) with (c_cos L).
  assert (f64_sub (f64_of_nat j) (f64_div (f64_of_nat 48) f64_two) = f64_of_Z (Z.of_nat j - 24) /\
          f64_gt (f64_abs (f64_of_Z (Z.of_nat j - 24))) ALMOST_ZERO = negb (j =? 24)%nat) as (-> & ->).
  { assert (forallb (fun j => sf_eq (B2SF (f64_sub (f64_of_nat j) (f64_div (f64_of_nat 48) f64_two))) (B2SF (f64_of_Z (Z.of_nat j - 24))) &&
        Bool.eqb (f64_gt (f64_abs (f64_of_Z (Z.of_nat j - 24))) ALMOST_ZERO) (negb (j =? 24)%nat)) (seq 0 49) = true) as Hall
      by (vm_cast_no_check (eq_refl true)).
    rewrite forallb_forall in Hall. specialize (Hall j ltac:(apply in_seq; lia)). apply andb_true_iff in Hall.
    destruct Hall as (H1 & H2). split; [now apply sf_eq_spec|now apply eqb_prop]. }
  destruct (Nat.eqb_spec j 24); reflexivity.
Qed.
Lemma tapc_near E factor j : sin_accurate E -> cos_accurate E -> factor = 4%nat \/ factor = 2%nat -> (j <= 48)%nat -> off 1600 1 (tapc64 E factor j) (tapR factor j).
Proof.
  intros HS HC HF Hj. pose proof PI_digits as HP. pose proof u_value. unfold tapc64. pose proof (hann_close E j HC Hj) as AH. pose proof (hann_unit j) as HU.
  destruct (Nat.eqb_spec j 24) as [->|Nj].
  - assert (tapR factor 24 = 1 * hannR 24) as ->. { unfold tapR, sincR. rewrite INR_24. destruct (Req_EM_T ((24 - 24) / INR factor) 0) as [_|n]; [ring|]. exfalso. apply n. unfold Rdiv. ring. }
    assert (off 0 1 f64_one 1) as O1 by (unfold f64_one; pose proof (off_int 1 ltac:(lia)) as O; rewrite Rabs_pos_eq in O by lra; exact O).
    eapply off_weaken; [apply (off_mul 0 32 1 _ _ _ _ 1 1 O1 AH)|lra|lra]; try smalls. apply Rabs_le. lra.
  - assert (2 <= INR factor <= 4) as FB by (destruct HF as [->| ->]; rewrite INR_IZR_INZ; cbn [Z.of_nat Pos.of_succ_nat Pos.succ]; lra).
    set (m := INR j - 24). assert (IZR (Z.of_nat j - 24) = m) as Em by (unfold m; rewrite minus_IZR, INR_IZR_INZ; reflexivity).
    assert (1 <= Rabs m <= 24) as HM. { rewrite <- Em, <- abs_IZR. split; apply IZR_le; lia. }
    assert (off 0 24 (f64_of_Z (Z.of_nat j - 24)) m) as OM. { rewrite <- Em. eapply off_weaken; [apply off_int; lia|lra|]. rewrite Em. lra. }
    assert (Rabs (m * PI) <= 76) as B1 by (rewrite Rabs_mult, (Rabs_pos_eq PI) by lra; nra).
    pose proof (off_mul 0 2 76 _ _ _ _ 24 4 OM off_pi ltac:(smalls) ltac:(smalls) ltac:(smalls) ltac:(smalls) B1) as A1.
    assert (off 0 4 (f64_of_nat factor) (INR factor)) as OF. { eapply off_weaken; [apply off_nat; lia|lra|lra]. }
    assert (Rabs (m * PI / INR factor) <= 37.8) as B2.
    { unfold Rdiv. rewrite Rabs_mult, Rabs_mult, (Rabs_pos_eq PI), (Rabs_pos_eq (/ INR factor)) by (try apply Rlt_le, Rinv_0_lt_compat; lra).
      assert (0 < / INR factor <= / 2) by (split; [apply Rinv_0_lt_compat; lra|apply Rinv_le_contravar; lra]). assert (Rabs m * PI <= 24 * 3.1416) by nra. nra. }
    assert (off 170 37.8 (f64_div (f64_mul (f64_of_Z (Z.of_nat j - 24)) PI64) (f64_of_nat factor)) (m * PI / INR factor)) as A2.
    { eapply off_weaken; [apply (off_div _ 0 37.8 _ _ _ _ _ _ 2 A1 OF)|lra|lra]; try smalls; lra. }
    cbv zeta. set (x := f64_div (f64_mul (f64_of_Z (Z.of_nat j - 24)) PI64) (f64_of_nat factor)) in *. clearbody x.
    pose proof (off_oracle (e_sin E) sin _ _ _ _ 38 A2 sin_lipschitz sin_unit ltac:(lra) HS) as A3.
    set (h := hannR j) in *. set (X := m * PI / INR factor) in *.
    assert (/ 2 <= Rabs X) as BX.
    { unfold X, Rdiv. rewrite Rabs_mult, Rabs_mult, (Rabs_pos_eq PI), (Rabs_pos_eq (/ INR factor)) by (try apply Rlt_le, Rinv_0_lt_compat; lra).
      assert (/ 4 <= / INR factor) by (apply Rinv_le_contravar; lra). assert (3.14 <= Rabs m * PI) by nra. nra. }
    assert (sincR (m / INR factor) = sin X / X) as ES.
    { unfold sincR. destruct (Req_EM_T (m / INR factor) 0) as [e|_].
      - exfalso. assert (X = 0) as Z by (unfold X; replace (m * PI / INR factor) with (m / INR factor * PI) by (field; lra); rewrite e; ring). rewrite Z, Rabs_R0 in BX. lra.
      - replace (PI * (m / INR factor)) with X by (unfold X; field; lra). reflexivity. }
    assert (Rabs (sin X / X) <= 1) as B3 by (rewrite <- ES; apply sinc_unit).
    pose proof (off_div_abs _ _ 1 _ _ _ _ _ _ (/ 2) A3 A2 ltac:(lra) ltac:(smalls) ltac:(smalls) ltac:(smalls) ltac:(smalls) B3) as A4.
    replace (tapR factor j) with (sin X / X * h) by (unfold tapR; fold h; fold m; rewrite ES; ring).
    eapply off_weaken; [apply (off_mul _ 32 1 _ _ _ _ 1 1 A4 AH)|lra|lra]; try smalls.
    rewrite Rabs_mult, (Rabs_pos_eq h) by lra. pose proof (Rabs_pos (sin X / X)). nra.
Qed.
Lemma tap_c_near L factor j : csin_accurate L -> ccos_accurate L -> factor = 4%nat \/ factor = 2%nat -> (j <= 48)%nat -> off 1600 1 (tap_c L 49 factor j) (tapR factor j).
Proof. intros HS HC HF Hj. rewrite tap_c_spec by auto. apply tapc_near; auto. Qed.

(** * Taps that are left out vanish *)
Lemma sinc_zero factor i : factor = 4%nat \/ factor = 2%nat -> (i <= 24)%nat -> nth i (tapT factor) 0%Z = 0%Z -> tap_at factor i = 0.
Proof.
  intros HF Hi Hz. unfold tap_at. rewrite sinc_values by auto. 
  assert (sinc_at factor i = 0) as ->; [|ring]. destruct HF as [->| ->]; cases i 25%nat; try lia; try (vm_compute in Hz; discriminate Hz); clear; unfold sinc_at;
  match goal with |- context [eighth ?r] => let r' := eval vm_compute in r in change r with r' end; cbn [eighth]; unfold Rdiv; ring.
Qed.
Lemma almost_zero_small : B2R ALMOST_ZERO <= 0.0000011.
Proof. unfold ALMOST_ZERO. destruct (bin_real 4722366482869645 (-72) ltac:(lia) ltac:(lia)) as (_ & ->). change (bpow radix2 (-72)) with (/ 4722366482869645213696). lra. Qed.
Lemma dropped_zero L factor j : csin_accurate L -> ccos_accurate L -> factor = 4%nat \/ factor = 2%nat -> (j <= 48)%nat ->
  f64_gt (f64_abs (tap_c L 49 factor j)) ALMOST_ZERO = false -> tapR factor j = 0.
Proof.
  intros HS HC HF Hj HD. destruct (tap_c_near L factor j HS HC HF Hj) as (F & N & _). set (c := tap_c L 49 factor j) in *. clearbody c.
  assert (Rabs (real c) <= 0.0000011) as B.
  { apply Rnot_lt_le. intros G. unfold f64_gt in HD. rewrite Bltb_correct in HD; [|vm_compute; reflexivity|destruct c; auto; discriminate F]. unfold f64_abs in HD. rewrite B2R_Babs in HD. fold (real c) in HD.
    rewrite Rlt_bool_true in HD; [discriminate|]. eapply Rle_lt_trans; [|exact G]. apply almost_zero_small. }
  pose proof (tap_near factor j HF Hj) as T. assert (gap j <= 24)%nat as G by (unfold gap; destruct (Nat.leb_spec j 24); lia).
  rewrite tap_gap in * by auto. destruct (Z.eq_dec (nth (gap j) (tapT factor) 0%Z) 0) as [Z|NZ]; [now apply sinc_zero|exfalso].
  assert (4 <= Z.abs (nth (gap j) (tapT factor) 0%Z))%Z as A4.
  { revert NZ. generalize (gap j) G. clear - HF. intros i Hi. destruct HF as [->| ->]; cases i 25%nat; try lia; vm_compute; congruence. }
  apply IZR_le in A4. rewrite abs_IZR in A4. set (z := IZR (nth _ _ _)) in *. clearbody z. set (t := tap_at _ _) in *. clearbody t. pose proof u_value.
  assert (Rabs t <= 0.0000015). { replace t with (real c - (real c - t)) by ring. unfold Rminus at 1. eapply Rle_trans; [apply Rabs_triang|]. rewrite Rabs_Ropp. lra. }
  assert (Rabs (z / 10 ^ 6) <= 0.0000035). { replace (z / 10 ^ 6) with (t - (t - z / 10 ^ 6)) by ring. unfold Rminus at 1. eapply Rle_trans; [apply Rabs_triang|]. rewrite Rabs_Ropp. lra. }
  unfold Rdiv in *. rewrite Rabs_mult, (Rabs_pos_eq (/ 10 ^ 6)) in * by lra. lra.
Qed.

(** * The subfilters *)
Definition keep (L : libc) (factor j : nat) : bool := f64_gt (f64_abs (tap_c L 49 factor j)) ALMOST_ZERO.
Definition in_phase (factor f : nat) : list nat := List.filter (fun j => j mod factor =? f)%nat (seq 0 49).
Definition subfilter (L : libc) (factor f : nat) : list (nat * f64) :=
  map (fun j => (j / factor, tap_c L 49 factor j)%nat) (List.filter (keep L factor) (in_phase factor f)).
Lemma nth_upd_all {A} (l : list A) i x d k : (i < length l)%nat -> nth k (upd l i x) d = if (k =? i)%nat then x else nth k l d.
Proof.
  revert i k. induction l as [|a l IH]; intros i k Hi; [cbn in Hi; lia|]. destruct i as [|i], k as [|k]; cbn; auto. apply IH. cbn in Hi. lia.
Qed.
Lemma filters_fold L factor : (0 < factor)%nat -> forall l fs, length fs = factor ->
  length (fold_left (add_tap_c L 49 factor) l fs) = factor /\
  forall f, (f < factor)%nat -> nth f (fold_left (add_tap_c L 49 factor) l fs) [] =
    nth f fs [] ++ map (fun j => (j / factor, tap_c L 49 factor j)%nat) (List.filter (fun j => keep L factor j && (j mod factor =? f)%nat) l).
Proof.
  intros HF. induction l as [|j l IH]; intros fs Hl; cbn [fold_left List.filter map].
  { split; auto. intros f _. now rewrite app_nil_r. }
  assert (length (add_tap_c L 49 factor fs j) = factor) as Hl'. { unfold add_tap_c. destruct (f64_gt _ _); auto. now rewrite upd_length. }
  destruct (IH _ Hl') as (L1 & N1). split; auto. intros f Hf. rewrite N1 by auto. unfold add_tap_c. fold (keep L factor j).
  destruct (keep L factor j); cbn [andb]; auto. pose proof (Nat.mod_upper_bound j factor ltac:(lia)).
  rewrite nth_upd_all by lia. rewrite Nat.eqb_sym. destruct (Nat.eqb_spec (j mod factor) f) as [->|]; auto. cbn [map]. now rewrite <- app_assoc.
Qed.
Lemma filter_andb {A} (p q : A -> bool) l : List.filter (fun x => p x && q x) l = List.filter p (List.filter q l).
Proof. induction l as [|a l IH]; cbn; auto. destruct (q a); cbn; destruct (p a); cbn; now rewrite IH. Qed.
Lemma created_filter L factor C : (0 < factor)%nat -> ci_filter (interp_create_c L 49 factor C) = map (subfilter L factor) (seq 0 factor).
Proof.
  intros HF. destruct (filters_fold L factor HF (seq 0 49) (repeat [] factor) (repeat_length _ _)) as (L1 & N1).
  unfold interp_create_c. cbn [ci_filter]. apply (nth_ext _ _ [] (subfilter L factor 0)); [now rewrite L1, map_length, seq_length|]. rewrite L1. intros f Hf.
  rewrite N1 by auto. rewrite map_nth, seq_nth by auto. cbn [Nat.add]. rewrite nth_repeat. unfold subfilter, in_phase.
  rewrite <- (filter_andb (keep L factor) (fun j => j mod factor =? f)%nat (seq 0 49)). cbn [app]. generalize (seq 0 49). intros l. apply eq_refl.
Qed.
Lemma in_phase_spec taps factor f : (taps = 12 /\ factor = 4 \/ taps = 24 /\ factor = 2)%nat -> (f < factor)%nat ->
  in_phase factor f = map (fun k => (k * factor + f)%nat) (seq 0 taps) ++ (if (f =? 0)%nat then [48%nat] else []).
Proof. intros [(-> & ->)|(-> & ->)] Hf; cases f 4%nat; try lia; reflexivity. Qed.

(** * One output sample *)
Definition near64 (x : f64) (X d : R) : Prop := is_finite x = true /\ Rabs (real x - X) <= d.
Lemma mul64 x y : is_finite x = true -> is_finite y = true -> Rabs (real x * real y) <= 2 ^ 110 -> is_finite (f64_mul x y) = true /\ real (f64_mul x y) = rnd64 (real x * real y).
Proof.
  intros Fx Fy H. pose proof (Bmult_correct 53 1024 Hprec64 Hmax64 mode_NE x y) as C. change (round radix2 (SpecFloat.fexp 53 1024) (round_mode mode_NE) ?z) with (rnd64 z) in C.
  unfold real in *. rewrite Rlt_bool_true in C. { destruct C as (C1 & C2 & _). unfold f64_mul. rewrite C1, C2, Fx, Fy. auto. }
  apply Rle_lt_trans with (bpow radix2 110); [|apply bpow_lt; lia].
  apply abs_round_le_generic; [typeclasses eauto|apply valid_rnd_N|apply generic_format_bpow; unfold SpecFloat.fexp, SpecFloat.emin; lia|].
  change 110%Z with (Z.of_nat 110). rewrite pow2_bpow. exact H.
Qed.
Lemma add64 x y : is_finite x = true -> is_finite y = true -> Rabs (real x + real y) <= 2 ^ 110 -> is_finite (f64_add x y) = true /\ real (f64_add x y) = rnd64 (real x + real y).
Proof.
  intros Fx Fy H. pose proof (Bplus_correct 53 1024 Hprec64 Hmax64 mode_NE x y Fx Fy) as C. change (round radix2 (SpecFloat.fexp 53 1024) (round_mode mode_NE) ?z) with (rnd64 z) in C.
  unfold real in *. rewrite Rlt_bool_true in C. { destruct C as (C1 & C2 & _). unfold f64_add. rewrite C1, C2. auto. }
  apply Rle_lt_trans with (bpow radix2 110); [|apply bpow_lt; lia].
  apply abs_round_le_generic; [typeclasses eauto|apply valid_rnd_N|apply generic_format_bpow; unfold SpecFloat.fexp, SpecFloat.emin; lia|].
  change 110%Z with (Z.of_nat 110). rewrite pow2_bpow. exact H.
Qed.
Lemma settle64 P r X : is_finite r = true /\ real r = rnd64 X -> near64 (ftz64 P r) X (u * Rabs X + tiny).
Proof.
  intros (F & E). destruct (flush_near P r) as (F' & N). split; [congruence|]. pose proof (rnd_error X) as R. pose proof tiny_eta. pose proof tiny_pos. rewrite E in N.
  replace (real (ftz64 P r) - X) with ((real (ftz64 P r) - rnd64 X) + (rnd64 X - X)) by ring. eapply Rle_trans; [apply Rabs_triang|]. lra.
Qed.
(** acc + x * c *)
Definition mac (P : platform) (acc : f64) (x : f32) (c : f64) : f64 := ftz64 P (f64_add acc (ftz64 P (f64_mul (f64_of_f32 x) c))).
Lemma tiny_small : tiny <= / 2 ^ 130 /\ tiny <= / 1000.
Proof.
  unfold tiny. split; [apply Rinv_le_contravar; [apply pow_lt; lra|apply Rle_pow; [lra|lia]]|]. apply Rle_trans with (/ 2 ^ 10); [apply Rinv_le_contravar; [lra|apply Rle_pow; [lra|lia]]|lra].
Qed.
Lemma mac_near P acc x c A e C M : is_finite x = true -> Rabs (real32 x) <= M -> off 1600 1 c C -> near64 acc A e -> Rabs A <= 2.4 * M -> e <= 0.1 * M + 200 * tiny -> 0 <= M <= 2 ^ 100 ->
  near64 (mac P acc x c) (A + real32 x * C) (e + 1610 * u * M + 4 * tiny).
Proof.
  intros Fx Mx (Fc & Nc & BC) (Fa & Na) HA He (M0 & M1). destruct (f64_of_f32_finite x Fx) as (F1 & R1 & _). fold (real (f64_of_f32 x)) (real32 x) in R1.
  pose proof u_value as Hu. pose proof u_pos. pose proof pow_105. pose proof pow_100. pose proof tiny_pos. destruct tiny_small as (_ & T1).
  set (Z := 2 ^ 110) in *. set (Y := 2 ^ 105) in *. set (X := 2 ^ 100) in *. clearbody X Y.
  assert (Rabs (real c) <= 1.001) as Bc by (replace (real c) with (C + (real c - C)) by ring; eapply Rle_trans; [apply Rabs_triang|]; lra).
  assert (Rabs (real32 x * real c) <= 1.001 * M) as Bp by (rewrite Rabs_mult, Rmult_comm; apply Rmult_le_compat; auto using Rabs_pos).
  assert (Rabs (real32 x * real c - real32 x * C) <= 1600 * (u * M)) as Bd.
  { rewrite <- Rmult_minus_distr_l, Rabs_mult. replace (1600 * (u * M)) with (M * (1600 * u)) by ring. apply Rmult_le_compat; auto using Rabs_pos. }
  destruct (settle64 P _ _ (mul64 (f64_of_f32 x) c F1 Fc ltac:(rewrite R1; fold Z; lra))) as (F2 & N2). rewrite R1 in N2. unfold mac. set (p := ftz64 P (f64_mul (f64_of_f32 x) c)) in *. clearbody p.
  set (xc := real32 x * real c) in *. set (xC := real32 x * C) in *. clearbody xc xC.
  assert (0 <= u * M) by nra. assert (u * M <= M / 9007199254740992) by (replace M with ((u * 9007199254740992) * M) at 2 by (rewrite Hu; ring); lra).
  assert (u * Rabs xc <= 1.001 * (u * M)) by nra.
  assert (Rabs (real p - xc) <= 1.001 * (u * M) + tiny) as N2' by lra.
  assert (Rabs (real p) <= 1.01 * M + tiny) as Bp'. { replace (real p) with (xc + (real p - xc)) by ring. eapply Rle_trans; [apply Rabs_triang|]. lra. }
  assert (Rabs (real acc) <= 2.5 * M + 200 * tiny) as Ba. { replace (real acc) with (A + (real acc - A)) by ring. eapply Rle_trans; [apply Rabs_triang|]. lra. }
  assert (Rabs (real acc + real p) <= 3.6 * M + 201 * tiny) as Bs. { eapply Rle_trans; [apply Rabs_triang|]. lra. }
  destruct (settle64 P _ _ (add64 acc p Fa F2 ltac:(fold Z; lra))) as (F3 & N3). split; auto. set (r := real (ftz64 P (f64_add acc p))) in *. clearbody r.
  replace (r - (A + xC)) with ((r - (real acc + real p)) + ((real acc - A) + ((real p - xc) + (xc - xC)))) by ring.
  assert (u * tiny <= tiny / 9007199254740992) by (replace tiny with ((u * 9007199254740992) * tiny) at 2 by (rewrite Hu; ring); lra).
  assert (u * Rabs (real acc + real p) <= 3.6 * (u * M) + 201 * (u * tiny)) by nra.
  eapply Rle_trans; [apply Rabs_triang|]. eapply Rle_trans; [apply Rplus_le_compat_l, Rabs_triang|]. eapply Rle_trans; [apply Rplus_le_compat_l, Rplus_le_compat_l, Rabs_triang|]. lra.
Qed.
Lemma mac_fold P L factor (x : nat -> f32) M : csin_accurate L -> ccos_accurate L -> factor = 4%nat \/ factor = 2%nat -> 0 <= M <= 2 ^ 100 -> (forall k, moderate M (x k)) ->
  forall js (n : nat) acc A, Forall (fun j => j <= 48)%nat js -> (n + length js <= 25)%nat -> Rabs A + M * magnitude_sum factor js <= 2.4 * M -> near64 acc A (INR n * (1610 * u * M + 4 * tiny)) ->
  near64 (fold_left (fun acc '(k, c) => mac P acc (x k) c) (map (fun j => (j / factor, tap_c L 49 factor j)%nat) (List.filter (keep L factor) js)) acc)
    (A + total (map (fun j => real32 (x (j / factor)%nat) * tapR factor j) js)) (INR (n + length js) * (1610 * u * M + 4 * tiny)).
Proof.
  intros HS HC HF HM HX. pose proof u_value as Hu. pose proof u_pos. pose proof tiny_pos.
  assert (0 <= 1610 * u * M + 4 * tiny) as D0 by (destruct HM; assert (0 <= u * M) by nra; lra).
  induction js as [|j js IH]; intros n acc A L1 Hn HA HN.
  { cbn [List.filter map fold_left total fold_right length]. rewrite Nat.add_0_r, Rplus_0_r. exact HN. }
  apply Forall_cons_iff in L1. destruct L1 as (Hj & L1). cbn [length] in Hn.
  assert (total (map (fun j => real32 (x (j / factor)%nat) * tapR factor j) (j :: js)) = real32 (x (j / factor)%nat) * tapR factor j + total (map (fun j => real32 (x (j / factor)%nat) * tapR factor j) js)) as -> by reflexivity.
  assert (magnitude_sum factor (j :: js) = Rabs (tapR factor j) + magnitude_sum factor js) as EM by reflexivity. rewrite EM in HA. clear EM.
  assert (0 <= magnitude_sum factor js) as P0.
  { unfold magnitude_sum. clear. induction js as [|a r IH]; cbn [map total fold_right]; [lra|]. unfold total in IH. pose proof (Rabs_pos (tapR factor a)). lra. }
  replace (n + length (j :: js))%nat with (S n + length js)%nat by (cbn; lia). rewrite <- Rplus_assoc.
  destruct (HX (j / factor)%nat) as (Fx & Mx). destruct HM as (M0 & M1).
  assert (Rabs (real32 (x (j / factor)%nat) * tapR factor j) <= M * Rabs (tapR factor j)) as HP by (rewrite Rabs_mult; apply Rmult_le_compat_r; auto using Rabs_pos).
  assert (Rabs A <= 2.4 * M) as HA'. { assert (0 <= M * (Rabs (tapR factor j) + magnitude_sum factor js)) by (apply Rmult_le_pos; auto; pose proof (Rabs_pos (tapR factor j)); lra). lra. }
  assert (Rabs (A + real32 (x (j / factor)%nat) * tapR factor j) + M * magnitude_sum factor js <= 2.4 * M) as HA2.
  { pose proof (Rabs_triang A (real32 (x (j / factor)%nat) * tapR factor j)). lra. }
  cbn [List.filter]. destruct (keep L factor j) eqn:K.
  - cbn [map fold_left]. apply IH; auto; try lia. rewrite S_INR. replace ((INR n + 1) * (1610 * u * M + 4 * tiny)) with (INR n * (1610 * u * M + 4 * tiny) + 1610 * u * M + 4 * tiny) by ring.
    apply mac_near with (M := M); auto. { now apply tap_c_near. }
    assert (INR n <= 25) as J by (replace 25 with (INR 25) by (rewrite INR_IZR_INZ; reflexivity); apply le_INR; lia).
    eapply Rle_trans; [apply Rmult_le_compat_r; [exact D0|exact J]|].
    assert (u * M <= M / 9007199254740992) by (replace M with ((u * 9007199254740992) * M) at 2 by (rewrite Hu; ring); lra). lra.
  - apply IH; auto; try lia. rewrite (dropped_zero L factor j HS HC HF Hj K), Rmult_0_r, Rplus_0_r. destruct HN as (F & N). split; auto. rewrite S_INR. lra.
Qed.
Lemma total_app a b : total (a ++ b) = total a + total b.
Proof. unfold total. induction a as [|x a IH]; cbn [app fold_right]; lra. Qed.
Lemma tap_last factor : tapR factor 48 = 0.
Proof.
  unfold tapR, hannR. replace (2 * PI * INR 48 / 48) with (2 * PI) by (replace (INR 48) with 48 by (rewrite INR_IZR_INZ; reflexivity); field). rewrite cos_2PI. lra.
Qed.
Lemma round_out P acc X M (n : nat) : near64 acc X (INR n * (1610 * u * M + 4 * tiny)) -> (n <= 25)%nat -> Rabs X <= 2.307 * M -> 0 <= M <= 2 ^ 100 ->
  near32 (ftz32 P (f32_of_f64 acc)) X (fir_noise_c M).
Proof.
  intros (F & N) Hn B (M0 & M1).
  assert (INR n <= 25) as J. { replace 25 with (INR 25) by (rewrite INR_IZR_INZ; reflexivity). now apply le_INR. }
  pose proof u_value as Hu. pose proof u_pos. pose proof tiny_pos. destruct tiny_small as (T1 & _).
  assert (0 <= u * M) by nra. assert (u * M <= M / 9007199254740992) by (replace M with ((u * 9007199254740992) * M) at 2 by (rewrite Hu; ring); lra).
  assert (Rabs (real acc - X) <= / 2 ^ 36 * M + 100 * tiny) as N'.
  { eapply Rle_trans; [exact N|]. eapply Rle_trans; [apply Rmult_le_compat_r; [|exact J]|]; lra. }
  assert (Rabs (real acc) <= 2.31 * M + 100 * tiny) as Ba. { replace (real acc) with (X + (real acc - X)) by ring. eapply Rle_trans; [apply Rabs_triang|]. lra. }
  assert (Rabs (B2R acc) <= 2 ^ 110) as A'.
  { pose proof pow_105. pose proof pow_100. fold (real acc). pose proof (proj2 tiny_small). set (Z := 2 ^ 110) in *. set (Y := 2 ^ 105) in *. set (V := 2 ^ 100) in *. clearbody V Y Z. lra. }
  pose proof (rnd32_fits _ A') as O.
  destruct (f32_of_f64_rounded acc F) as (F' & E' & _); [apply Rnot_le_lt; intros G; apply Rlt_bool_false in G; congruence|].
  destruct (settle P (f32_of_f64 acc) (real acc) (conj F' E')) as (F2 & N2). split; auto.
  replace (real32 (ftz32 P (f32_of_f64 acc)) - X) with ((real32 (ftz32 P (f32_of_f64 acc)) - real acc) + (real acc - X)) by ring.
  eapply Rle_trans; [apply Rabs_triang|]. unfold fir_noise_c.
  assert (101 * tiny + w <= / 2 ^ 124) as T2.
  { assert (tiny <= / 2 ^ 132) by (unfold tiny; apply Rinv_le_contravar; [apply pow_lt; lra|apply Rle_pow; [lra|lia]]).
    assert (/ 2 ^ 132 = / 2 ^ 124 * / 256) as E1 by (replace 132%nat with (124 + 8)%nat by lia; rewrite pow_split; lra).
    assert (/ 2 ^ 125 = / 2 ^ 124 * / 2) as E2 by (replace 125%nat with (124 + 1)%nat by lia; rewrite pow_split; lra).
    assert (0 < / 2 ^ 124) by (apply Rinv_0_lt_compat, pow_lt; lra). rewrite E2. rewrite E1 in *. set (z := / 2 ^ 124) in *. clearbody z. lra. }
  assert (/ 2 ^ 24 * Rabs (real acc) <= / 2 ^ 24 * (2.31 * M + 100 * tiny)) by (apply Rmult_le_compat_l; lra). lra.
Qed.
(** one phase of the C filter, rounded to f32 *)
Definition phase_c (P : platform) (L : libc) (factor f : nat) (x : nat -> f32) : f32 :=
  ftz32 P (f32_of_f64 (fold_left (fun acc '(k, c) => mac P acc (x k) c) (subfilter L factor f) f64_zero)).
Section phase.
Context (taps factor f : nat) (HT : (taps = 12 /\ factor = 4 \/ taps = 24 /\ factor = 2)%nat) (Hf : (f < factor)%nat).
Lemma phase_size : (length (in_phase factor f) <= 25)%nat.
Proof. rewrite (in_phase_spec taps factor f HT Hf), app_length, map_length, seq_length. destruct HT as [(-> & ->)|(-> & ->)]; destruct (f =? 0)%nat; cbn [length Nat.add]; lia. Qed.
Lemma phase_range : Forall (fun j => j <= 48)%nat (in_phase factor f).
Proof.
  rewrite (in_phase_spec taps factor f HT Hf). apply Forall_app. split; [|destruct (f =? 0)%nat; [constructor; [lia|constructor]|constructor]].
  apply Forall_map, Forall_forall. intros k Hk. apply in_seq in Hk. destruct HT as [(-> & ->)|(-> & ->)]; lia.
Qed.
Lemma phase_worst : magnitude_sum factor (map (fun k => (k * factor + f)%nat) (seq 0 taps)) <= 2.307.
Proof.
  assert (factor = 4 \/ factor = 2)%nat as HF by (clear - HT; lia). pose proof (magnitude_worst factor f HF Hf) as MW. pose proof (worst_bounds factor) as WB.
  replace (map _ (seq 0 taps)) with (phase factor f); [lra|]. rewrite phase_taps. destruct HT as [(-> & ->)|(-> & ->)]; reflexivity.
Qed.
Lemma phase_magnitude : magnitude_sum factor (in_phase factor f) <= 2.307.
Proof.
  rewrite (in_phase_spec taps factor f HT Hf). unfold magnitude_sum. rewrite map_app, total_app. pose proof phase_worst as W. unfold magnitude_sum in W. set (s := total _) in W |- *. clearbody s.
  destruct (f =? 0)%nat; unfold total; cbn [map fold_right]; [rewrite tap_last, Rabs_R0|]; lra.
Qed.
Lemma phase_total xs n : total (map (fun j => real32 (sample_before xs n (j / factor)%nat) * tapR factor j) (in_phase factor f)) = interpolatedR taps factor xs n f.
Proof.
  rewrite (in_phase_spec taps factor f HT Hf), map_app, total_app, map_map. unfold interpolatedR.
  assert (total (map (fun j => real32 (sample_before xs n (j / factor)%nat) * tapR factor j) (if (f =? 0)%nat then [48%nat] else [])) = 0) as ->.
  { destruct (f =? 0)%nat; unfold total; cbn [map fold_right]; [rewrite tap_last|]; lra. }
  rewrite Rplus_0_r. f_equal. apply map_ext. intros k. rewrite Nat.div_add_l by lia. rewrite (Nat.div_small f factor) by auto. now rewrite Nat.add_0_r.
Qed.
Lemma phase_near P L xs n M : csin_accurate L -> ccos_accurate L -> 0 <= M <= 2 ^ 100 -> Forall (moderate M) xs ->
  near32 (phase_c P L factor f (sample_before xs n)) (interpolatedR taps factor xs n f) (fir_noise_c M).
Proof.
  intros HS HC HM HX. assert (factor = 4 \/ factor = 2)%nat as HF by (clear - HT; lia).
  assert (forall k, moderate M (sample_before xs n k)) as HB by (intros k; apply sample_before_all; auto; apply moderate_zero; lra).
  assert (near64 f64_zero 0 (INR 0 * (1610 * u * M + 4 * tiny))) as H0 by (split; [reflexivity|]; unfold real, f64_zero; cbn [B2R]; rewrite Rminus_0_r, Rabs_R0; cbn [INR]; lra).
  assert (Rabs 0 + M * magnitude_sum factor (in_phase factor f) <= 2.4 * M) as H1.
  { rewrite Rabs_R0. assert (M * magnitude_sum factor (in_phase factor f) <= M * 2.307) by (apply Rmult_le_compat_l; [lra|exact phase_magnitude]). lra. }
  pose proof (mac_fold P L factor (sample_before xs n) M HS HC HF HM HB (in_phase factor f) 0 f64_zero 0 phase_range phase_size H1 H0) as H.
  rewrite Rplus_0_l, phase_total in H. pose proof phase_size as HL. unfold phase_c, subfilter. revert H HL. generalize (in_phase factor f). intros js H HL. rewrite Nat.add_0_l in H.
  apply (round_out P _ _ M (length js) H HL); auto.
  unfold interpolatedR. eapply Rle_trans.
  - apply (total_bound (fun k => real32 (sample_before xs n k)) (fun k => tapR factor (k * factor + f)) M); [lra|]. apply Forall_forall. intros k _. apply HB.
  - pose proof phase_worst as MW. unfold magnitude_sum in MW. rewrite map_map in MW. rewrite Rmult_comm. apply Rmult_le_compat_r; lra.
Qed.
End phase.
