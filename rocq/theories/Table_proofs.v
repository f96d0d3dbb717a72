(** The histogram tables of src/histogram_bins.rs: rounding of the literals, order, and distance
    from the powers of ten they stand for. *)
From Coq Require Import List Arith NArith ZArith Bool Lia Reals Lra Psatz.
From Flocq Require Import Core IEEE754.BinarySingleNaN.
From Verif Require Import Prelude Float Env Tables Utils History Float_proofs History_proofs Spec_real.
Import ListNotations.

(** * Order *)
Lemma table_order : forall i, i < 1000 -> f64_lt (bnd i) (cen i) = true /\ f64_lt (cen i) (bnd (S i)) = true.
Proof.
  assert (forallb (fun i => f64_lt (bnd i) (cen i) && f64_lt (cen i) (bnd (S i))) (seq 0 1000) = true) as H
    by (vm_cast_no_check (eq_refl true)).
  rewrite forallb_forall in H. intros i Hi. apply andb_true_iff. apply H. apply in_seq. lia.
Qed.
Lemma table_finite : forall i, i <= 1000 -> is_finite (bnd i) = true /\ is_finite (cen i) = true /\ Bsign (bnd i) = false.
Proof.
  assert (forallb (fun i => is_finite (bnd i) && (is_finite (cen i) && negb (Bsign (bnd i)))) (seq 0 1001) = true) as H
    by (vm_cast_no_check (eq_refl true)).
  rewrite forallb_forall in H. intros i Hi. rewrite <- negb_true_iff, <- !andb_true_iff. apply H. apply in_seq. lia.
Qed.
Lemma bnd_lt_S i : i < 1000 -> f64_lt (bnd i) (bnd (S i)) = true.
Proof. intros H. destruct (table_order i H). eapply Bltb_trans; eauto. Qed.
Lemma bnd_lt i j : i < j -> j <= 1000 -> f64_lt (bnd i) (bnd j) = true.
Proof.
  intros H. induction H as [|j H IH]; intros Hj; [apply bnd_lt_S; lia|].
  eapply Bltb_trans; [apply IH; lia|apply bnd_lt_S; lia].
Qed.
Lemma cen_lt i j : i < j -> j < 1000 -> f64_lt (cen i) (cen j) = true.
Proof.
  intros H Hj. eapply Bltb_trans; [apply (table_order i); lia|].
  destruct (Nat.eq_dec (S i) j) as [<-|]; [apply table_order; lia|].
  eapply Bltb_trans; [apply (bnd_lt (S i) j); lia|apply table_order; lia].
Qed.
Lemma bnd_real i : i <= 1000 -> (0 <= B2R (bnd i))%R.
Proof. intros H. destruct (table_finite i H) as (H1 & _ & H2). destruct (bnd i) as [[]| | |[]]; try discriminate H2; try (cbn; lra); discriminate H1 || (cbn; apply F2R_ge_0; cbn; lia). Qed.

(** * Literals *)
Local Open Scope R_scope.
Lemma bin_real m e : (2 ^ 52 <= m < 2 ^ 53)%Z -> (-1074 <= e <= 971)%Z ->
  is_finite (f64_bin m e) = true /\ B2R (f64_bin m e) = IZR m * bpow radix2 e.
Proof.
  intros Hm He. unfold f64_bin.
  pose proof (binary_normalize_correct 53 1024 Hprec64 Hmax64 mode_NE m e false) as X. cbv zeta in X.
  assert (mag radix2 (F2R (Float radix2 m e)) = (53 + e)%Z :> Z) as Hmag.
  { rewrite mag_F2R by lia. f_equal. apply mag_unique. rewrite <- abs_IZR, Z.abs_eq by lia.
    change (bpow radix2 (53 - 1)) with (IZR (2 ^ 52)). change (bpow radix2 53) with (IZR (2 ^ 53)). split; [apply IZR_le|apply IZR_lt]; lia. }
  assert (round radix2 (SpecFloat.fexp 53 1024) (round_mode mode_NE) (F2R (Float radix2 m e)) = F2R (Float radix2 m e)) as ER.
  { apply round_generic; [apply valid_rnd_N|]. apply generic_format_F2R. intros Hz. unfold cexp. rewrite Hmag.
    unfold SpecFloat.fexp, SpecFloat.emin. lia. }
  rewrite ER in X. rewrite Rlt_bool_true in X.
  - destruct X as (H1 & H2 & _). split; [exact H2|exact H1].
  - apply Rlt_le_trans with (bpow radix2 (53 + e)); [|apply bpow_le; lia]. rewrite <- Hmag. apply bpow_mag_gt.
Qed.

(** The literal [d / 10^36] is rounded to [m * 2^e]. *)
Definition rounded (d m e : Z) : bool :=
  ((2 ^ 52 <? m) && (m <? 2 ^ 53) && (-1074 <=? e) && (e <? 0) && (2 * Z.abs (Z.shiftl d (- e) - m * 10 ^ 36) <? 10 ^ 36))%Z.
Lemma rounded_spec d m e : rounded d m e = true ->
  is_finite (f64_bin m e) = true /\ B2R (f64_bin m e) = IZR m * bpow radix2 e /\
  B2R (f64_bin m e) = round radix2 (FLT_exp (-1074) 53) ZnearestE (IZR d / 10 ^ 36).
Proof.
  unfold rounded. rewrite !andb_true_iff, !Z.ltb_lt, Z.leb_le. intros ((((H1 & H2) & H3) & H4) & H5). rewrite Z.shiftl_mul_pow2 in H5 by lia.
  destruct (bin_real m e) as (F & E); [lia|lia|]. split; [auto|]. split; [auto|].
  set (x := IZR d / 10 ^ 36). set (v := IZR m * bpow radix2 e) in *.
  assert (generic_format radix2 (FLT_exp (-1074) 53) v) as Gv.
  { rewrite <- E. apply (generic_format_B2R 53 1024). }
  assert (0 < v) as Hv by (apply Rmult_lt_0_compat; [apply IZR_lt; lia|apply bpow_gt_0]).
  assert (Rabs (x - v) < bpow radix2 e / 2) as Hd.
  { assert (x - v = IZR (d * 2 ^ (- e) - m * 10 ^ 36) * (bpow radix2 e / 10 ^ 36)) as ->.
    { rewrite minus_IZR, !mult_IZR. unfold x, v. change (2 ^ (- e))%Z with (radix2 ^ (- e))%Z.
      rewrite (IZR_Zpower radix2 (- e)) by lia. rewrite bpow_opp. change (IZR (10 ^ 36)) with (IZR (10 ^ Z.of_nat 36)). rewrite <- pow_IZR.
      pose proof (bpow_gt_0 radix2 e). assert (0 < 10 ^ 36) by (apply pow_lt; lra). field. lra. }
    rewrite Rabs_mult, <- abs_IZR.
    assert (0 < bpow radix2 e / 10 ^ 36) as Hp.
    { apply Rdiv_lt_0_compat; [apply bpow_gt_0|apply pow_lt; lra]. }
    rewrite (Rabs_pos_eq (bpow radix2 e / 10 ^ 36)) by lra.
    replace (bpow radix2 e / 2) with ((10 ^ 36 / 2) * (bpow radix2 e / 10 ^ 36)) by (field; apply pow_nonzero; lra).
    apply Rmult_lt_compat_r; auto. apply IZR_lt in H5. rewrite mult_IZR in H5. change (IZR (10 ^ 36)) with (IZR (10 ^ Z.of_nat 36)) in H5. rewrite <- pow_IZR in H5. lra. }
  assert (ulp radix2 (FLT_exp (-1074) 53) v = bpow radix2 e) as Hu.
  { rewrite ulp_neq_0 by lra. f_equal. unfold cexp. unfold v. change (IZR m * bpow radix2 e) with (F2R (Float radix2 m e)). rewrite mag_F2R by lia.
    rewrite (mag_unique radix2 (IZR m) 53). { unfold FLT_exp. lia. }
    rewrite <- abs_IZR, Z.abs_eq by lia. change (bpow radix2 (53 - 1)) with (IZR (2 ^ 52)). change (bpow radix2 53) with (IZR (2 ^ 53)). split; [apply IZR_le|apply IZR_lt]; lia. }
  apply Rabs_def2 in Hd. destruct Hd as (Hd1 & Hd2). rewrite E. apply Rle_antisym.
  - apply round_N_ge_midp; auto; [apply FLT_exp_valid; reflexivity|].
    rewrite pred_eq_pos by lra. unfold pred_pos. 
    rewrite Req_bool_false.
    + rewrite Hu. lra.
    + intros E0. unfold v in E0.
      assert (mag radix2 v = (53 + e)%Z :> Z) as Hmag.
      { unfold v. change (IZR m * bpow radix2 e) with (F2R (Float radix2 m e)). rewrite mag_F2R by lia.
        rewrite (mag_unique radix2 (IZR m) 53); [lia|]. rewrite <- abs_IZR, Z.abs_eq by lia. change (bpow radix2 (53 - 1)) with (IZR (2 ^ 52)). change (bpow radix2 53) with (IZR (2 ^ 53)). split; [apply IZR_le|apply IZR_lt]; lia. }
      fold v in E0. rewrite Hmag in E0. replace (53 + e - 1)%Z with (52 + e)%Z in E0 by lia. rewrite bpow_plus in E0. unfold v in E0.
      apply Rmult_eq_reg_r in E0; [|pose proof (bpow_gt_0 radix2 e); lra].
      change (bpow radix2 52) with (IZR (2 ^ 52)) in E0. apply eq_IZR in E0. lia.
  - apply round_N_le_midp; auto; [apply FLT_exp_valid; reflexivity|].
    rewrite succ_eq_pos by lra. rewrite Hu. lra.
Qed.
Lemma energies_rounded : forallb (fun '(d, m, e) => rounded d m e) energies_raw = true.
Proof. vm_cast_no_check (eq_refl true). Qed.
Lemma boundaries_rounded : forallb (fun '(d, m, e) => rounded d m e) boundaries_raw = true.
Proof. vm_cast_no_check (eq_refl true). Qed.

(** * Powers of ten *)

(** 10^(1/100) and 10^(1/10000) between multiples of 2^-80 *)
Definition K : Z := 80.
Definition scale : R := bpow radix2 K.
Definition encl (x : R) (b : Z * Z) : Prop := (0 <= fst b)%Z /\ IZR (fst b) <= x * scale <= IZR (snd b).
Definition imul (a b : Z * Z) : Z * Z := (Z.shiftr (fst a * fst b) K, Z.shiftr (snd a * snd b) K + 1)%Z.
Lemma scale_pos : 0 < scale. Proof. apply bpow_gt_0. Qed.
Lemma scale_IZR : scale = IZR (2 ^ K). Proof. reflexivity. Qed.
Lemma div_IZR a b : (0 < b)%Z -> IZR (a / b) <= IZR a / IZR b < IZR (a / b) + 1.
Proof.
  intros Hb. pose proof (Z.div_mod a b ltac:(lia)) as E. pose proof (Z.mod_pos_bound a b Hb) as M.
  assert (0 < IZR b) as Hb' by (apply IZR_lt; lia).
  assert (IZR a = IZR b * IZR (a / b) + IZR (a mod b)) as E' by (rewrite <- mult_IZR, <- plus_IZR; f_equal; exact E).
  assert (0 <= IZR (a mod b) < IZR b) as M' by (split; [apply IZR_le|apply IZR_lt]; lia).
  rewrite E'. replace ((IZR b * IZR (a / b) + IZR (a mod b)) / IZR b) with (IZR (a / b) + IZR (a mod b) / IZR b) by (field; lra).
  assert (0 <= IZR (a mod b) / IZR b < 1). { split; [apply Rle_mult_inv_pos; lra|]. apply Rmult_lt_reg_r with (IZR b); auto. unfold Rdiv. rewrite Rmult_assoc, Rinv_l by lra. lra. }
  lra.
Qed.
Lemma encl_mul x y a b : encl x a -> encl y b -> encl (x * y) (imul a b).
Proof.
  intros (Ha & Hx) (Hb & Hy). pose proof scale_pos as Hs. unfold imul, encl. cbn [fst snd]. rewrite !Z.shiftr_div_pow2 by (unfold K; lia).
  assert (0 < 2 ^ K)%Z as HK by reflexivity.
  assert (0 <= IZR (fst a)) as Ha' by (apply IZR_le; auto). assert (0 <= IZR (fst b)) as Hb' by (apply IZR_le; auto).
  split; [apply Z.div_pos; [apply Z.mul_nonneg_nonneg; auto|auto]|].
  destruct (div_IZR (fst a * fst b) (2 ^ K) HK) as (D1 & _). destruct (div_IZR (snd a * snd b) (2 ^ K) HK) as (_ & D2).
  rewrite plus_IZR. rewrite mult_IZR in D1, D2. rewrite <- scale_IZR in D1, D2.
  assert (x * y * scale = (x * scale) * (y * scale) / scale) as -> by (field; lra).
  assert (IZR (fst a) * IZR (fst b) <= x * scale * (y * scale)) as M1 by (apply Rmult_le_compat; lra).
  assert (x * scale * (y * scale) <= IZR (snd a) * IZR (snd b)) as M2 by (apply Rmult_le_compat; lra).
  assert (0 < / scale) as Hi by (apply Rinv_0_lt_compat; auto).
  unfold Rdiv in *. split.
  - eapply Rle_trans; [exact D1|]. apply Rmult_le_compat_r; lra.
  - apply Rle_trans with (IZR (snd a) * IZR (snd b) * / scale); [apply Rmult_le_compat_r; lra|lra].
Qed.
Fixpoint ipow (a : Z * Z) (n : nat) : Z * Z := match n with O => (2 ^ K, 2 ^ K)%Z | S n => imul a (ipow a n) end.
Lemma encl_one : encl 1 (2 ^ K, 2 ^ K)%Z.
Proof. unfold encl. cbn [fst snd]. rewrite <- scale_IZR. split; [apply Z.leb_le; reflexivity|lra]. Qed.
Lemma encl_pow x a n : encl x a -> encl (x ^ n) (ipow a n).
Proof. intros H. induction n; cbn [pow ipow]; [apply encl_one|]. now apply encl_mul. Qed.

Lemma root_le a x n : 0 <= x -> 0 <= a -> (0 < n)%nat -> a ^ n <= x ^ n -> a <= x.
Proof.
  intros Hx Ha Hn H. destruct (Rle_lt_dec a x) as [|L]; auto. exfalso.
  assert (forall n, (0 < n)%nat -> x ^ n < a ^ n) as HL.
  { clear H n Hn. induction n as [|n IH]; intros Hn; [lia|]. destruct n as [|n]; [cbn; lra|].
    change (x * x ^ S n < a * a ^ S n). specialize (IH ltac:(lia)). assert (0 <= x ^ S n) by now apply pow_le. nra. }
  specialize (HL n Hn). lra.
Qed.
Definition ihundredth (c : Z) : Z * Z := ipow (ipow (c, c) 10) 10.
Lemma encl_hundredth c : (0 <= c)%Z -> encl ((IZR c / scale) ^ 100) (ihundredth c).
Proof.
  intros Hc. replace 100%nat with (10 * 10)%nat by reflexivity. rewrite pow_mult. apply encl_pow, encl_pow. unfold encl. cbn [fst snd]. pose proof scale_pos. split; [auto|].
  replace (IZR c / scale * scale) with (IZR c) by (field; lra). lra.
Qed.
Lemma encl_root x y a b : 0 <= x -> x ^ 100 = y -> encl y b -> (0 <= fst a)%Z -> (0 <= snd a)%Z ->
  (snd (ihundredth (fst a)) <=? fst b)%Z = true -> (snd b <=? fst (ihundredth (snd a)))%Z = true -> encl x a.
Proof.
  intros Hx Hy (_ & B1 & B2) H0 H1 C1 C2. apply Z.leb_le in C1, C2. apply IZR_le in C1, C2.
  destruct (encl_hundredth _ H0) as (_ & _ & L). destruct (encl_hundredth _ H1) as (_ & U & _). pose proof scale_pos as Hs. rewrite <- Hy in B1, B2.
  assert (forall c, (0 <= c)%Z -> 0 <= IZR c / scale) as Hc.
  { intros c Hc. apply IZR_le in Hc. apply Rmult_le_pos; auto. left. now apply Rinv_0_lt_compat. }
  assert (forall u v, u * scale <= v * scale -> u <= v) as HR by (intros u v; apply Rmult_le_reg_r; auto).
  split; [auto|]. split.
  - replace (IZR (fst a)) with (IZR (fst a) / scale * scale) by (field; lra). apply Rmult_le_compat_r; [lra|]. apply root_le with 100%nat; auto; [lia|]. apply HR. lra.
  - replace (IZR (snd a)) with (IZR (snd a) / scale * scale) by (field; lra). apply Rmult_le_compat_r; [lra|]. apply root_le with 100%nat; auto; [lia|]. apply HR. lra.
Qed.
Definition r100 : R := Rpower 10 (1 / 100).
Definition r10000 : R := Rpower 10 (1 / 10000).
Lemma Rpower_root x n : 0 < x -> (0 < n)%nat -> forall z, Rpower x z ^ n = Rpower x (z * INR n).
Proof. intros Hx Hn z. rewrite <- Rpower_pow by (unfold Rpower; apply exp_pos). now rewrite Rpower_mult. Qed.
Definition i100 : Z * Z := (1237085319398917093044166, 1237085319398917093044175)%Z.
Definition i10000 : Z * Z := (1209204217122174710791952, 1209204217122174710791967)%Z.
Lemma i100_ok : encl r100 i100.
Proof.
  apply (encl_root r100 10 i100 (10 * 2 ^ K, 10 * 2 ^ K)%Z); try (vm_compute; reflexivity); try (vm_compute; discriminate).
  - left. apply exp_pos.
  - unfold r100. rewrite Rpower_root by (lra || lia). replace (1 / 100 * INR 100) with 1 by (rewrite INR_IZR_INZ; cbn; lra). apply Rpower_1. lra.
  - unfold encl. cbn [fst snd]. rewrite mult_IZR, <- scale_IZR. split; [apply Z.leb_le; reflexivity|lra].
Qed.
Lemma i10000_ok : encl r10000 i10000.
Proof.
  apply (encl_root r10000 r100 i10000 i100); try (vm_compute; reflexivity); try (vm_compute; discriminate).
  - left. apply exp_pos.
  - unfold r100, r10000. rewrite Rpower_root by (lra || lia). f_equal. rewrite INR_IZR_INZ; cbn; lra.
  - apply i100_ok.
Qed.
(** 10^-7 *)
Definition itenth : Z * Z := (2 ^ K / 10 ^ 7, 2 ^ K / 10 ^ 7 + 1)%Z.
Lemma itenth_ok : encl (/ 10 ^ 7) itenth.
Proof.
  unfold encl, itenth. cbn [fst snd]. split; [apply Z.leb_le; reflexivity|].
  destruct (div_IZR (2 ^ K) (10 ^ 7) ltac:(reflexivity)) as (H1 & H2). rewrite <- scale_IZR in H1, H2.
  rewrite plus_IZR. change (IZR (10 ^ 7)) with (IZR (10 ^ Z.of_nat 7)) in H1, H2. rewrite <- pow_IZR in H1, H2. unfold Rdiv in *. rewrite (Rmult_comm scale) in *. lra.
Qed.

Lemma decibel_plus y z : decibel (y + z) = decibel y * decibel z.
Proof. unfold decibel. rewrite <- Rpower_plus. f_equal. lra. Qed.
Lemma decibel_pow z n : decibel z ^ n = decibel (z * INR n).
Proof. unfold decibel. destruct n as [|n]; [|rewrite Rpower_root by (lra || lia); f_equal; lra]. cbn [pow INR]. rewrite Rmult_0_r. unfold Rdiv. rewrite Rmult_0_l. rewrite Rpower_O; lra. Qed.
Lemma decibel_pos z : 0 < decibel z. Proof. apply exp_pos. Qed.

Fixpoint near_table (raw : list (Z * Z * Z)) (t : Z * Z) : bool :=
  match raw with
  | [] => true
  | (_, m, e) :: raw =>
      let v := Z.shiftl m (K + e) in
      ((0 <=? K + e) && (10 ^ 12 * (v - fst t) <=? fst t) && (10 ^ 12 * (snd t - v) <=? fst t))%Z && near_table raw (imul t i100)
  end.
Lemma near_table_spec raw : forall t T, encl T t -> near_table raw t = true ->
  forall i d m e, nth_error raw i = Some (d, m, e) -> Rabs (IZR m * bpow radix2 e - T * r100 ^ i) <= / 10 ^ 12 * (T * r100 ^ i).
Proof.
  induction raw as [|((d0, m0), e0) raw IH]; intros t T HT H i d m e Hi; [destruct i; discriminate Hi|].
  cbn [near_table] in H. rewrite !andb_true_iff, !Z.leb_le in H. destruct H as (((Hk & H1) & H2) & H3). rewrite Z.shiftl_mul_pow2 in H1, H2 by exact Hk.
  destruct i as [|i].
  - cbn [nth_error] in Hi. injection Hi as <- <- <-. rewrite pow_O, Rmult_1_r.
    destruct HT as (HT0 & HT1 & HT2). pose proof scale_pos as Hs. apply IZR_le in H1, H2.
    rewrite mult_IZR, minus_IZR, mult_IZR in H1, H2. change (2 ^ (K + e0))%Z with (radix2 ^ (K + e0))%Z in H1, H2. rewrite (IZR_Zpower radix2 _ Hk), bpow_plus in H1, H2.
    fold scale in H1, H2. change (IZR (10 ^ 12)) with (IZR (10 ^ Z.of_nat 12)) in H1, H2. rewrite <- pow_IZR in H1, H2.
    set (q := 10 ^ 12) in *. assert (0 < q) as Hq by (apply pow_lt; lra).
    set (v := IZR m0 * bpow radix2 e0) in *. replace (IZR m0 * (scale * bpow radix2 e0)) with (v * scale) in H1, H2 by (unfold v; ring).
    assert (q * (v - T) <= T) as K1.
    { apply Rmult_le_reg_r with scale; auto. apply Rle_trans with (q * (v * scale - IZR (fst t))); [|lra].
      rewrite Rmult_assoc. apply Rmult_le_compat_l; lra. }
    assert (q * (T - v) <= T) as K2.
    { apply Rmult_le_reg_r with scale; auto. apply Rle_trans with (q * (IZR (snd t) - v * scale)); [|lra].
      rewrite Rmult_assoc. apply Rmult_le_compat_l; lra. }
    apply Rabs_le. assert (0 < / q) as Hiq by (apply Rinv_0_lt_compat; auto).
    assert (forall z, q * z <= T -> z <= / q * T) as HZ.
    { intros z Hz. apply Rmult_le_reg_l with q; auto. rewrite <- Rmult_assoc, Rinv_r by lra. lra. }
    pose proof (HZ _ K1) as Z1. pose proof (HZ _ K2) as Z2. fold q. clearbody q v. clear - Z1 Z2. split; lra.
  - cbn [nth_error] in Hi. replace (T * r100 ^ S i) with (T * r100 * r100 ^ i) by (cbn [pow]; ring). apply (IH (imul t i100) (T * r100)) with (d := d); auto.
    apply encl_mul; auto. apply i100_ok.
Qed.

Lemma r100_db : r100 = decibel (1 / 10). Proof. unfold r100, decibel. f_equal. lra. Qed.
Lemma r10000_db : r10000 = decibel (1 / 1000). Proof. unfold r10000, decibel. f_equal. lra. Qed.
Lemma tenth_db : / 10 ^ 7 = decibel (-70).
Proof.
  unfold decibel. replace (-70 / 10) with (- INR 7) by (rewrite INR_IZR_INZ; cbn; lra). rewrite Rpower_Ropp, Rpower_pow by lra. reflexivity.
Qed.
Definition start_bnd : Z * Z := imul itenth (imul (ipow i100 6) (ipow i10000 91)).
Definition start_cen : Z * Z := imul itenth (imul (ipow i100 7) (ipow i10000 41)).
Lemma start_bnd_ok : encl (decibel (-70 + 691 / 1000)) start_bnd.
Proof.
  replace (decibel (-70 + 691 / 1000)) with (/ 10 ^ 7 * (r100 ^ 6 * r10000 ^ 91)).
  - apply encl_mul; [apply itenth_ok|]. apply encl_mul; apply encl_pow; [apply i100_ok|apply i10000_ok].
  - rewrite r100_db, r10000_db, tenth_db, !decibel_pow, <- !decibel_plus. f_equal. rewrite !INR_IZR_INZ; cbn; lra.
Qed.
Lemma start_cen_ok : encl (decibel (-70 + 5 / 100 + 691 / 1000)) start_cen.
Proof.
  replace (decibel (-70 + 5 / 100 + 691 / 1000)) with (/ 10 ^ 7 * (r100 ^ 7 * r10000 ^ 41)).
  - apply encl_mul; [apply itenth_ok|]. apply encl_mul; apply encl_pow; [apply i100_ok|apply i10000_ok].
  - rewrite r100_db, r10000_db, tenth_db, !decibel_pow, <- !decibel_plus. f_equal. rewrite !INR_IZR_INZ; cbn; lra.
Qed.
Lemma boundaries_near : near_table boundaries_raw start_bnd = true.
Proof. vm_cast_no_check (eq_refl true). Qed.
Lemma energies_near : near_table energies_raw start_cen = true.
Proof. vm_cast_no_check (eq_refl true). Qed.
Lemma raw_nth (raw : list (Z * Z * Z)) i : (i < length raw)%nat -> forallb (fun '(d, m, e) => rounded d m e) raw = true ->
  exists d m e, nth_error raw i = Some (d, m, e) /\ nth i (map (fun '(_, m, e) => f64_bin m e) raw) f64_zero = f64_bin m e /\ rounded d m e = true.
Proof.
  intros Hi H. destruct (nth_error raw i) as [((d, m), e)|] eqn:E; [|apply nth_error_None in E; lia].
  exists d, m, e. split; [auto|]. split.
  - change (f64_bin m e) with ((fun '(_, m, e) => f64_bin m e) (d, m, e)). apply nth_error_nth. apply (map_nth_error (fun '(_, m, e) => f64_bin m e) _ _ E).
  - rewrite forallb_forall in H. apply nth_error_In in E. apply (H _ E).
Qed.
Lemma bnd_near i : (i <= 1000)%nat ->
  let ideal := decibel (INR i / 10 - 70 + 691 / 1000) in Rabs (B2R (bnd i) - ideal) <= / 10 ^ 12 * ideal.
Proof.
  intros Hi ideal. destruct (raw_nth boundaries_raw i) as (d & m & e & E1 & E2 & E3); [|apply boundaries_rounded|].
  { pose proof BOUNDARIES_length as L. unfold BOUNDARIES in L. rewrite map_length in L. lia. }
  unfold bnd, BOUNDARIES. rewrite E2. destruct (rounded_spec d m e E3) as (_ & -> & _).
  pose proof (near_table_spec _ _ _ start_bnd_ok boundaries_near i d m e E1) as H.
  rewrite r100_db, decibel_pow, <- decibel_plus in H. unfold ideal. replace (INR i / 10 - 70 + 691 / 1000) with (-70 + 691 / 1000 + 1 / 10 * INR i) by lra. exact H.
Qed.
Lemma cen_near i : (i < 1000)%nat ->
  let ideal := decibel (INR i / 10 - 70 + 5 / 100 + 691 / 1000) in Rabs (B2R (cen i) - ideal) <= / 10 ^ 12 * ideal.
Proof.
  intros Hi ideal. destruct (raw_nth energies_raw i) as (d & m & e & E1 & E2 & E3); [|apply energies_rounded|].
  { pose proof ENERGIES_length as L. unfold ENERGIES in L. rewrite map_length in L. lia. }
  unfold cen, ENERGIES. rewrite E2. destruct (rounded_spec d m e E3) as (_ & -> & _).
  pose proof (near_table_spec _ _ _ start_cen_ok energies_near i d m e E1) as H.
  rewrite r100_db, decibel_pow, <- decibel_plus in H. unfold ideal. replace (INR i / 10 - 70 + 5 / 100 + 691 / 1000) with (-70 + 5 / 100 + 691 / 1000 + 1 / 10 * INR i) by lra. exact H.
Qed.

(** * Quantisation error of a histogram *)
Lemma ln10_gt_1 : 1 < ln 10.
Proof. rewrite <- (ln_exp 1) at 1. apply ln_increasing; [apply exp_pos|]. pose proof exp_le_3. lra. Qed.
Lemma lufs_decibel z : lufs (decibel z) = z - 691 / 1000.
Proof.
  unfold lufs, decibel, Rpower. rewrite ln_exp. pose proof ln10_gt_1. field. lra.
Qed.
Lemma lufs_le x y : 0 < x -> x <= y -> lufs x <= lufs y.
Proof.
  intros Hx H. unfold lufs. pose proof ln10_gt_1. assert (ln x <= ln y).
  { destruct (Rle_lt_or_eq_dec _ _ H) as [L| ->]; [left; now apply ln_increasing|lra]. }
  assert (ln x / ln 10 <= ln y / ln 10). { apply Rmult_le_compat_r; auto. left. apply Rinv_0_lt_compat. lra. } lra.
Qed.
Lemma lufs_mul x y : 0 < x -> 0 < y -> lufs (x * y) = lufs x + 10 * (ln y / ln 10).
Proof. intros. unfold lufs. rewrite ln_mult by auto. field. pose proof ln10_gt_1. lra. Qed.
(** a relative error of 1e-12 moves the loudness by less than 2e-11 LU *)
Lemma lufs_near v ideal : 0 < ideal -> Rabs (v - ideal) <= / 10 ^ 12 * ideal -> 0 < v /\ Rabs (lufs v - lufs ideal) <= 2 / 10 ^ 11.
Proof.
  intros Hi H. set (q := 10 ^ 12) in *. assert (q = 1000000000000) as Eq by (unfold q; cbn; lra).
  replace (2 / 10 ^ 11) with (20 / q) by (unfold q; cbn [pow]; field).
  apply Rabs_le_inv in H. assert (/ q = 1 / 1000000000000) as Eiq by (rewrite Eq; lra). clearbody q.
  assert (0 < v) as Hv by nra. split; auto.
  set (u := v / ideal). assert (v = ideal * u) as Ev by (unfold u; field; lra).
  assert (1 - / q <= u <= 1 + / q) as Hu.
  { split; apply Rmult_le_reg_l with ideal; auto; rewrite <- Ev; nra. }
  rewrite Ev, lufs_mul by (auto; lra). replace (lufs ideal + 10 * (ln u / ln 10) - lufs ideal) with (10 * (ln u / ln 10)) by ring.
  pose proof ln10_gt_1 as H10.
  assert (forall z, 0 < z -> ln z <= z - 1) as Hln.
  { intros z Hz. pose proof (exp_ineq1_le (ln z)) as X. rewrite exp_ln in X by auto. lra. }
  assert (ln u <= / q) as L1 by (specialize (Hln u ltac:(lra)); lra).
  assert (- (2 / q) <= ln u) as L2.
  { specialize (Hln (/ u) ltac:(apply Rinv_0_lt_compat; lra)). rewrite ln_Rinv in Hln by lra.
    assert (/ u <= 1 + 2 / q). { apply Rmult_le_reg_l with u; [lra|]. rewrite Rinv_r by lra. unfold Rdiv. nra. } lra. }
  assert (forall t, Rabs t <= 2 / q -> Rabs (10 * (t / ln 10)) <= 20 / q) as HT.
  { intros t Ht. rewrite Rabs_mult, (Rabs_pos_eq 10) by lra. unfold Rdiv. rewrite Rabs_mult, (Rabs_pos_eq (/ ln 10)) by (left; apply Rinv_0_lt_compat; lra).
    assert (/ ln 10 <= 1) by (rewrite <- Rinv_1; apply Rinv_le_contravar; lra). assert (0 < / ln 10) by (apply Rinv_0_lt_compat; lra).
    pose proof (Rabs_pos t). unfold Rdiv in Ht. nra. }
  apply HT. apply Rabs_le. split; lra.
Qed.
Lemma bin_error i x : (i < 1000)%nat -> B2R (bnd i) <= x <= B2R (bnd (i + 1)) ->
  Rabs (lufs (B2R (cen i)) - lufs x) <= 5 / 100 + / 10 ^ 9.
Proof.
  intros Hi (H1 & H2).
  pose proof (bnd_near i ltac:(lia)) as N1. pose proof (bnd_near (i + 1) ltac:(lia)) as N2. pose proof (cen_near i Hi) as N3. cbv zeta in N1, N2, N3.
  apply lufs_near in N1; [|apply decibel_pos]. apply lufs_near in N2; [|apply decibel_pos]. apply lufs_near in N3; [|apply decibel_pos].
  destruct N1 as (P1 & N1), N2 as (P2 & N2), N3 as (P3 & N3). rewrite lufs_decibel in N1, N2, N3.
  pose proof (lufs_le _ _ P1 H1) as L1. pose proof (lufs_le x _ ltac:(lra) H2) as L2.
  rewrite plus_INR in N2. change (INR 1) with 1 in N2.
  apply Rabs_le_inv in N1, N2, N3. assert (6 / 10 ^ 11 <= / 10 ^ 9) as HQ.
  { replace (/ 10 ^ 9) with (100 / 10 ^ 11) by (cbn [pow]; field). unfold Rdiv. apply Rmult_le_compat_r; [left; apply Rinv_0_lt_compat, pow_lt; lra|lra]. }
  unfold Rdiv in *. set (t := / 10 ^ 11) in *. set (t9 := / 10 ^ 9) in *. clearbody t t9. apply Rabs_le. split; lra.
Qed.
