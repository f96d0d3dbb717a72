(** Bounds of trigonometric sums over an interval, by exact polynomial arithmetic. *)
From Coq Require Import List Arith NArith ZArith Bool Lia Reals Lra Psatz.
From Flocq Require Import Core.
From Verif Require Import Prelude Float Env Spec Spec_real Spec_interp Coeff_proofs Taps_proofs.
Import ListNotations.
Local Open Scope R_scope.

(** * Polynomials with integer coefficients *)
Fixpoint peval (p : list Z) (x : R) : R := match p with [] => 0 | a :: q => IZR a + x * peval q x end.
Fixpoint padd (p q : list Z) : list Z :=
  match p, q with [], _ => q | _, [] => p | a :: p', b :: q' => (a + b)%Z :: padd p' q' end.
Definition pscale (c : Z) (p : list Z) : list Z := map (Z.mul c) p.
Lemma peval_padd p : forall q x, peval (padd p q) x = peval p x + peval q x.
Proof. induction p as [|a p IH]; intros [|b q] x; cbn [padd peval]; try ring. rewrite IH, plus_IZR. ring. Qed.
Lemma peval_pscale c p x : peval (pscale c p) x = IZR c * peval p x.
Proof. induction p as [|a p IH]; cbn [pscale map peval]; [ring|]. unfold pscale in IH. rewrite IH, mult_IZR. ring. Qed.

(** the polynomial in [t = x - m] *)
Fixpoint shift (p : list Z) (m : Z) : list Z :=
  match p with [] => [] | a :: q => let r := shift q m in padd [a] (padd (pscale m r) (0%Z :: r)) end.
Lemma peval_shift p m t : peval (shift p m) t = peval p (IZR m + t).
Proof.
  induction p as [|a q IH]; [reflexivity|]. cbn [shift]. rewrite !peval_padd, peval_pscale. cbn [peval]. rewrite IH. ring.
Qed.
Fixpoint bound (p : list Z) (r : Z) : Z := match p with [] => 0%Z | a :: q => (Z.abs a + r * bound q r)%Z end.
Lemma bound_nonneg p r : (0 <= r)%Z -> (0 <= bound p r)%Z.
Proof. intros H. induction p as [|a q IH]; cbn [bound]; [lia|]. nia. Qed.
Lemma bound_ok p r t : Rabs t <= IZR r -> Rabs (peval p t) <= IZR (bound p r).
Proof.
  intros H. assert (0 <= r)%Z as Hr by (apply le_IZR; pose proof (Rabs_pos t); lra).
  induction p as [|a q IH]; cbn [peval bound]; [rewrite Rabs_R0; lra|]. rewrite plus_IZR, mult_IZR, abs_IZR.
  eapply Rle_trans; [apply Rabs_triang|]. rewrite Rabs_mult. apply Rplus_le_compat_l. apply Rmult_le_compat; auto using Rabs_pos.
Qed.
(** [|p| <= B] on [lo, lo + 2 r n] *)
Fixpoint covered (p : list Z) (r B lo : Z) (n : nat) : bool :=
  match n with O => true | S n => (bound (shift p (lo + r)) r <=? B)%Z && covered p r B (lo + 2 * r) n end.
Lemma covered_ok p r B : forall n lo x, (0 < n)%nat -> covered p r B lo n = true -> IZR lo <= x <= IZR (lo + 2 * r * Z.of_nat n) -> Rabs (peval p x) <= IZR B.
Proof.
  induction n as [|n IH]; intros lo x Hn H Hx; [lia|]. cbn [covered] in H. apply andb_true_iff in H. destruct H as (H1 & H2).
  destruct (Rle_dec x (IZR (lo + 2 * r))) as [L|L].
  - apply Z.leb_le in H1. apply Rle_trans with (IZR (bound (shift p (lo + r)) r)); [|now apply IZR_le].
    replace x with (IZR (lo + r) + (x - IZR (lo + r))) by ring. rewrite <- peval_shift. apply bound_ok. rewrite plus_IZR, mult_IZR in *. apply Rabs_le. lra.
  - destruct n as [|n].
    + exfalso. replace (lo + 2 * r * Z.of_nat 1)%Z with (lo + 2 * r)%Z in Hx by lia. lra.
    + apply (IH (lo + 2 * r)%Z); [lia|exact H2|]. replace (lo + 2 * r + 2 * r * Z.of_nat (S n))%Z with (lo + 2 * r * Z.of_nat (S (S n)))%Z by lia. lra.
Qed.
(** the polynomial in [u = D x], with its factor *)
Fixpoint dilate (D : Z) (p : list Z) : list Z * Z :=
  match p with [] => ([], 1%Z) | a :: q => let '(q, s) := dilate D q in ((s * D * a)%Z :: q, (s * D)%Z) end.
Lemma dilate_ok D p x : peval (fst (dilate D p)) (IZR D * x) = IZR (snd (dilate D p)) * peval p x.
Proof.
  induction p as [|a q IH]; cbn [dilate]; [cbn; ring|]. destruct (dilate D q) as (q', s). cbn [fst snd peval] in *. rewrite IH, !mult_IZR. ring.
Qed.
Lemma dilate_pos D p : (0 < D)%Z -> (0 < snd (dilate D p))%Z.
Proof. intros H. induction p as [|a q IH]; cbn [dilate]; [cbn; lia|]. destruct (dilate D q) as (q', s). cbn [snd] in *. nia. Qed.
(** [|p| <= B] for [lo <= D x <= lo + 2 r n] *)
Definition below (D : Z) (p : list Z) (r B lo : Z) (n : nat) : bool := let '(q, s) := dilate D p in covered q r (s * B) lo n.
Lemma below_ok D p r B lo n x : (0 < D)%Z -> (0 < n)%nat -> below D p r B lo n = true -> IZR lo <= IZR D * x <= IZR (lo + 2 * r * Z.of_nat n) -> Rabs (peval p x) <= IZR B.
Proof.
  intros HD Hn H Hx. unfold below in H. pose proof (dilate_ok D p x) as E. pose proof (dilate_pos D p HD) as Ps. destruct (dilate D p) as (q, s). cbn [fst snd] in *.
  pose proof (covered_ok q r (s * B) n lo (IZR D * x) Hn H Hx) as C. rewrite E, Rabs_mult, mult_IZR in C. apply IZR_lt in Ps. rewrite Rabs_pos_eq in C by lra.
  apply Rmult_le_reg_l with (IZR s); auto.
Qed.

(** * Chebyshev polynomials *)
(** [cos (n t)] and [cos ((n + 1) t)] in [cos t]; [sin ((2 n + 1) t)] and [sin ((2 n - 1) t)] in [sin t] *)
Fixpoint cheb (n : nat) : list Z * list Z :=
  match n with O => ([1]%Z, [0; 1]%Z) | S n => let '(a, b) := cheb n in (b, padd (0%Z :: pscale 2 b) (pscale (-1) a)) end.
Lemma cheb_ok n t : peval (fst (cheb n)) (cos t) = cos (INR n * t) /\ peval (snd (cheb n)) (cos t) = cos (INR (S n) * t).
Proof.
  induction n as [|n (I1 & I2)].
  - cbn [cheb fst snd peval INR]. rewrite Rmult_0_l, cos_0, Rmult_1_l. split; ring.
  - cbn [cheb]. destruct (cheb n) as (a, b). cbn [fst snd] in *. split; [exact I2|]. rewrite peval_padd, peval_pscale. cbn [peval]. rewrite peval_pscale, I1, I2.
    rewrite !S_INR. replace ((INR n + 1 + 1) * t) with ((INR n + 1) * t + t) by ring. replace (INR n * t) with ((INR n + 1) * t - t) by ring.
    rewrite cos_plus, cos_minus. ring.
Qed.
Fixpoint sheb (n : nat) : list Z * list Z :=
  match n with O => ([0; 1]%Z, [0; -1]%Z) | S n => let '(a, b) := sheb n in (padd (padd (pscale 2 a) (0%Z :: 0%Z :: pscale (-4) a)) (pscale (-1) b), a) end.
Lemma sheb_ok n t : peval (fst (sheb n)) (sin t) = sin ((2 * INR n + 1) * t) /\ peval (snd (sheb n)) (sin t) = sin ((2 * INR n - 1) * t).
Proof.
  induction n as [|n (I1 & I2)].
  - cbn [sheb fst snd peval INR]. replace ((2 * 0 + 1) * t) with t by ring. replace ((2 * 0 - 1) * t) with (- t) by ring. rewrite sin_neg. split; ring.
  - cbn [sheb]. destruct (sheb n) as (a, b). cbn [fst snd] in *. rewrite S_INR. split.
    + rewrite !peval_padd, !peval_pscale. cbn [peval]. rewrite peval_pscale, I1, I2.
      replace ((2 * (INR n + 1) + 1) * t) with ((2 * INR n + 1) * t + 2 * t) by ring. replace ((2 * INR n - 1) * t) with ((2 * INR n + 1) * t - 2 * t) by ring.
      rewrite sin_plus, sin_minus, cos_2a_sin, sin_2a. ring.
    + rewrite I1. f_equal. ring.
Qed.
(** [sum_k z_k cos (n_k t)] and [sum_k z_k sin ((2 n_k + 1) t)] *)
Definition csum (l : list (Z * nat)) : list Z := fold_right (fun '(z, n) acc => padd (pscale z (fst (cheb n))) acc) [] l.
Definition ssum (l : list (Z * nat)) : list Z := fold_right (fun '(z, n) acc => padd (pscale z (fst (sheb n))) acc) [] l.
Lemma csum_ok l t : peval (csum l) (cos t) = total (map (fun '(z, n) => IZR z * cos (INR n * t)) l).
Proof.
  induction l as [|(z, n) l IH]; [reflexivity|]. cbn [csum fold_right]. fold (csum l). rewrite peval_padd, peval_pscale, IH, (proj1 (cheb_ok n t)). reflexivity.
Qed.
Lemma ssum_ok l t : peval (ssum l) (sin t) = total (map (fun '(z, n) => IZR z * sin ((2 * INR n + 1) * t)) l).
Proof.
  induction l as [|(z, n) l IH]; [reflexivity|]. cbn [ssum fold_right]. fold (ssum l). rewrite peval_padd, peval_pscale, IH, (proj1 (sheb_ok n t)). reflexivity.
Qed.

(** * The taps of one phase *)
Definition tapT (factor : nat) : list Z := if (factor =? 4)%nat then tapT4 else tapT2.
Definition gap (j : nat) : nat := if (j <=? 24)%nat then 24 - j else j - 24.
Definition phase (factor f : nat) : list nat := map (fun k => k * factor + f)%nat (seq 0 (48 / factor)).
Lemma tap_gap factor j : factor = 4%nat \/ factor = 2%nat -> (j <= 48)%nat -> tapR factor j = tap_at factor (gap j).
Proof.
  intros HF Hj. unfold gap. destruct (Nat.leb_spec j 24) as [H|H].
  - rewrite <- tap_below by lia. f_equal. lia.
  - rewrite <- tap_above by lia. f_equal. lia.
Qed.
Lemma tap_near factor j : factor = 4%nat \/ factor = 2%nat -> (j <= 48)%nat -> Rabs (tapR factor j - IZR (nth (gap j) (tapT factor) 0%Z) / 10 ^ 6) <= 2 * / 10 ^ 6.
Proof.
  intros HF Hj. rewrite tap_gap by auto. assert (gap j <= 24)%nat as G by (unfold gap; destruct (Nat.leb_spec j 24); lia).
  destruct HF as [->| ->]; [exact (tap4_near _ G)|exact (tap2_near _ G)].
Qed.
Definition ccheck (factor f : nat) (D r B lo : Z) (n : nat) : bool :=
  below D (padd [-1000000]%Z (csum (map (fun j => (nth (gap j) (tapT factor) 0%Z, gap j)) (phase factor f)))) r B lo n.
Definition scheck (D r B lo : Z) (n : nat) : bool :=
  below D (ssum (map (fun j => let z := nth (gap j) tapT4 0%Z in (if (j <? 24)%nat then - z else z, ((gap j - 1) / 2)%nat)%Z) (phase 4 1))) r B lo n.

(** * The response of one phase *)
Definition csumR (factor : nat) (l : list nat) (t : R) : R := total (map (fun j => tapR factor j * cos ((INR j - 24) * t)) l).
Definition ssumR (factor : nat) (l : list nat) (t : R) : R := total (map (fun j => tapR factor j * sin ((INR j - 24) * t)) l).
Lemma INR_24 : INR 24 = 24. Proof. rewrite INR_IZR_INZ. reflexivity. Qed.
Lemma gap_angle j t : (j <= 48)%nat -> cos ((INR j - 24) * t) = cos (INR (gap j) * t) /\
  sin ((INR j - 24) * t) = (if (j <? 24)%nat then -1 else 1) * sin (INR (gap j) * t).
Proof.
  intros H. unfold gap. destruct (Nat.leb_spec j 24), (Nat.ltb_spec j 24); try lia.
  - rewrite minus_INR, INR_24 by lia. replace ((INR j - 24) * t) with (- ((24 - INR j) * t)) by ring. rewrite cos_neg, sin_neg. split; ring.
  - assert (j = 24%nat) as -> by lia. rewrite INR_24. cbn [Nat.sub INR]. replace ((24 - 24) * t) with (0 * t) by ring. split; ring.
  - rewrite minus_INR, INR_24 by lia. split; ring.
Qed.
Lemma mirror_sum factor l t : factor = 4%nat \/ factor = 2%nat -> Forall (fun j => j <= 48)%nat l ->
  csumR factor (map (fun j => 48 - j)%nat l) t = csumR factor l t /\ ssumR factor (map (fun j => 48 - j)%nat l) t = - ssumR factor l t.
Proof.
  intros HF. unfold csumR, ssumR. induction 1 as [|j l Hj _ (I1 & I2)]; [cbn; split; ring|]. change (map (fun j => 48 - j)%nat (j :: l)) with ((48 - j)%nat :: map (fun j => 48 - j)%nat l).
  assert (tapR factor (48 - j) = tapR factor j) as T. { rewrite !tap_gap by (auto; lia). f_equal. unfold gap. destruct (Nat.leb_spec (48 - j) 24), (Nat.leb_spec j 24); lia. }
  assert (INR (48 - j) - 24 = - (INR j - 24)) as E. { rewrite minus_INR by lia. replace 48%nat with (24 + 24)%nat by lia. rewrite plus_INR, INR_24. ring. }
  assert (forall (g : nat -> R) x r, total (map g (x :: r)) = g x + total (map g r)) as TC by reflexivity.
  rewrite !TC. cbv beta.
  rewrite I1, I2, T, E. replace (- (INR j - 24) * t) with (- ((INR j - 24) * t)) by ring. rewrite cos_neg, sin_neg. split; ring.
Qed.
Lemma total_diff (f g : nat -> R) d l : Forall (fun j => Rabs (f j - g j) <= d) l -> Rabs (total (map f l) - total (map g l)) <= INR (length l) * d.
Proof.
  induction 1 as [|j l H _ IH]; cbn [map total fold_right length]; [rewrite Rminus_0_r, Rabs_R0; cbn; lra|]. fold (total (map f l)) (total (map g l)). rewrite S_INR.
  replace (f j + total (map f l) - (g j + total (map g l))) with ((f j - g j) + (total (map f l) - total (map g l))) by ring. eapply Rle_trans; [apply Rabs_triang|]. lra.
Qed.
Lemma total_scale c l : total (map (Rmult c) l) = c * total l.
Proof. induction l as [|x l IH]; cbn [map total fold_right]; [ring|]. fold (total (map (Rmult c) l)) (total l). rewrite IH. ring. Qed.
Lemma phase_48 factor f : factor = 4%nat \/ factor = 2%nat -> (f < factor)%nat -> Forall (fun j => j < 48)%nat (phase factor f).
Proof.
  intros HF Hf. apply Forall_forall. intros j Hj. unfold phase in Hj. apply in_map_iff in Hj. destruct Hj as (k & <- & Hk). apply in_seq in Hk.
  destruct HF as [->| ->]; [change (48 / 4)%nat with 12%nat in Hk|change (48 / 2)%nat with 24%nat in Hk]; lia.
Qed.
Lemma phase_length factor f : length (phase factor f) = (48 / factor)%nat.
Proof. unfold phase. rewrite map_length, seq_length. reflexivity. Qed.
Lemma csum_near factor f t : factor = 4%nat \/ factor = 2%nat -> (f < factor)%nat ->
  Rabs (10 ^ 6 * (csumR factor (phase factor f) t - 1) - peval (padd [-1000000]%Z (csum (map (fun j => (nth (gap j) (tapT factor) 0%Z, gap j)) (phase factor f)))) (cos t)) <= 2 * INR (48 / factor).
Proof.
  intros HF Hf. rewrite peval_padd, csum_ok. cbn [peval]. rewrite map_map. unfold csumR. pose proof (phase_48 factor f HF Hf) as L. rewrite <- (phase_length factor f). set (l := phase factor f) in *. clearbody l.
  replace (10 ^ 6 * (total (map (fun j => tapR factor j * cos ((INR j - 24) * t)) l) - 1)) with (total (map (fun j => 10 ^ 6 * (tapR factor j * cos ((INR j - 24) * t))) l) - 10 ^ 6)
    by (rewrite <- (map_map (fun j => tapR factor j * cos ((INR j - 24) * t)) (Rmult (10 ^ 6))), total_scale; ring).
  match goal with |- Rabs (?a - 10 ^ 6 - (_ + ?b)) <= _ => replace (a - 10 ^ 6 - (-1000000 + cos t * 0 + b)) with (a - b) by ring end.
  rewrite Rmult_comm. apply total_diff. eapply Forall_impl; [|exact L]. intros j Hj. cbv beta in Hj |- *. pose proof (tap_near factor j HF ltac:(lia)) as T. rewrite (proj1 (gap_angle j t ltac:(lia))).
  set (z := IZR (nth (gap j) (tapT factor) 0%Z)) in *. set (c := cos (INR (gap j) * t)). pose proof (COS_bound (INR (gap j) * t)) as CB. fold c in CB. clearbody z c.
  replace (10 ^ 6 * (tapR factor j * c) - z * c) with ((10 ^ 6 * (tapR factor j - z / 10 ^ 6)) * c) by field. rewrite Rabs_mult, Rabs_mult, (Rabs_pos_eq (10 ^ 6)) by lra.
  assert (Rabs c <= 1) by (apply Rabs_le; lra). pose proof (Rabs_pos (tapR factor j - z / 10 ^ 6)). pose proof (Rabs_pos c). nra.
Qed.
Lemma ssum_near t :
  Rabs (10 ^ 6 * ssumR 4 (phase 4 1) t - peval (ssum (map (fun j => let z := nth (gap j) tapT4 0%Z in (if (j <? 24)%nat then - z else z, ((gap j - 1) / 2)%nat)%Z) (phase 4 1))) (sin t)) <= 24.
Proof.
  rewrite ssum_ok, map_map. unfold ssumR. 
  assert (Forall (fun j => j < 48 /\ gap j = 2 * ((gap j - 1) / 2) + 1)%nat (phase 4 1)) as L. { unfold phase. cbn [Nat.div seq map]. repeat constructor. }
  assert (INR (length (phase 4 1)) = 12) as N by (rewrite INR_IZR_INZ; reflexivity).
  apply Rle_trans with (INR (length (phase 4 1)) * 2); [|rewrite N; lra]. clear N. set (l := phase 4 1) in *. clearbody l.
  rewrite <- total_scale, map_map.
  apply total_diff. eapply Forall_impl; [|exact L]. intros j (Hj & Ho). cbv beta iota zeta. pose proof (tap_near 4 j ltac:(tauto) ltac:(lia)) as T. rewrite (proj2 (gap_angle j t ltac:(lia))).
  change (tapT 4) with tapT4 in T. replace (2 * INR ((gap j - 1) / 2) + 1) with (INR (gap j)) by (rewrite Ho at 1; rewrite plus_INR, mult_INR; cbn [INR]; ring).
  set (z := nth (gap j) tapT4 0%Z) in *. set (c := sin (INR (gap j) * t)). pose proof (SIN_bound (INR (gap j) * t)) as CB. fold c in CB. clearbody z c.
  assert (IZR (if (j <? 24)%nat then (- z)%Z else z) = (if (j <? 24)%nat then -1 else 1) * IZR z) as -> by (destruct (j <? 24)%nat; rewrite ?opp_IZR; ring).
  replace (10 ^ 6 * (tapR 4 j * ((if (j <? 24)%nat then -1 else 1) * c)) - (if (j <? 24)%nat then -1 else 1) * IZR z * c) with ((10 ^ 6 * (tapR 4 j - IZR z / 10 ^ 6)) * ((if (j <? 24)%nat then -1 else 1) * c)) by field.
  rewrite Rabs_mult, Rabs_mult, (Rabs_pos_eq (10 ^ 6)) by lra.
  assert (Rabs ((if (j <? 24)%nat then -1 else 1) * c) <= 1) by (apply Rabs_le; destruct (j <? 24)%nat; lra). 
  pose proof (Rabs_pos (tapR 4 j - IZR z / 10 ^ 6)). pose proof (Rabs_pos ((if (j <? 24)%nat then -1 else 1) * c)). nra.
Qed.

(** * Ripple *)
From Coq Require Import Permutation.
From Verif Require Accuracy_proofs.
Lemma sums_rev factor l t : csumR factor (rev l) t = csumR factor l t /\ ssumR factor (rev l) t = ssumR factor l t.
Proof. unfold csumR, ssumR. split; apply Accuracy_proofs.total_perm, Permutation_map, Permutation_sym, Permutation_rev. Qed.
Lemma below_48 l : Forall (fun j => j < 48)%nat l -> Forall (fun j => j <= 48)%nat l.
Proof. apply Forall_impl. intros; lia. Qed.
Lemma mirrored factor f g t : factor = 4%nat \/ factor = 2%nat -> (g < factor)%nat -> map (fun j => 48 - j)%nat (phase factor g) = rev (phase factor f) ->
  csumR factor (phase factor f) t = csumR factor (phase factor g) t /\ ssumR factor (phase factor f) t = - ssumR factor (phase factor g) t.
Proof.
  intros HF Hg E. destruct (mirror_sum factor (phase factor g) t HF (below_48 _ (phase_48 factor g HF Hg))) as (A & B). rewrite E in A, B.
  destruct (sums_rev factor (phase factor f) t) as (C & D). rewrite C in A. rewrite D in B. auto.
Qed.
Lemma sums_phase0 factor t : factor = 4%nat \/ factor = 2%nat -> csumR factor (phase factor 0) t = 1 /\ ssumR factor (phase factor 0) t = 0.
Proof.
  intros HF. 
  assert (forall j, In j (phase factor 0) -> tapR factor j = if (j =? 24)%nat then 1 else 0) as T.
  { intros j Hj. assert (j < 48)%nat as Hl by (eapply Forall_forall in Hj; [|apply phase_48; [exact HF|lia]]; exact Hj). rewrite tap_gap by (auto; lia). unfold tap_at. rewrite sinc_values by auto.
    unfold phase in Hj. apply in_map_iff in Hj. destruct Hj as (k & E & Hk). apply in_seq in Hk. 
    destruct HF as [->| ->]; [change (48 / 4)%nat with 12%nat in Hk|change (48 / 2)%nat with 24%nat in Hk]; subst j.
    - cases k 12%nat; [..|lia]; clear; cbn [Nat.mul Nat.add Nat.eqb gap Nat.leb Nat.sub]; try (unfold sinc_at; match goal with |- context [eighth ?r] => let r' := eval vm_compute in r in change r with r' end; cbn [eighth]; ring).
      unfold sinc_at. cbn [INR]. replace (2 * PI * 0 / 48) with 0 by field. rewrite cos_0. field.
    - cases k 24%nat; [..|lia]; clear; cbn [Nat.mul Nat.add Nat.eqb gap Nat.leb Nat.sub]; try (unfold sinc_at; match goal with |- context [eighth ?r] => let r' := eval vm_compute in r in change r with r' end; cbn [eighth]; ring).
      unfold sinc_at. cbn [INR]. replace (2 * PI * 0 / 48) with 0 by field. rewrite cos_0. field. }
  unfold csumR, ssumR.
  assert (forall g, total (map (fun j => tapR factor j * g j) (phase factor 0)) = total (map (fun j => (if (j =? 24)%nat then 1 else 0) * g j) (phase factor 0))) as G.
  { intros g. f_equal. apply map_ext_in. intros j Hj. rewrite T by auto. reflexivity. }
  rewrite !G. replace ((INR 24 - 24) * t) with 0 by (rewrite INR_24; ring).
  assert (forall g, total (map (fun j => (if (j =? 24)%nat then 1 else 0) * g j) (phase factor 0)) = g 24%nat) as S.
  { intros g. destruct HF as [->| ->]; unfold phase; cbn [Nat.div Nat.divmod seq map Nat.mul Nat.add Nat.eqb total fold_right fst Nat.sub]; ring. }
  rewrite !S, INR_24. replace ((24 - 24) * t) with 0 by ring. rewrite cos_0, sin_0. auto.
Qed.
Lemma cosine_above t m c : 0 <= t <= m -> m <= 1.5 -> c <= 1 - m ^ 2 / 2 + m ^ 4 / 24 - m ^ 6 / 720 + m ^ 8 / 40320 - m ^ 10 / 3628800 -> c <= cos t <= 1.
Proof.
  intros Ht Hm Hc. pose proof PI_digits. pose proof (cos_poly6 m ltac:(lra) ltac:(lra)). split; [|apply COS_bound].
  apply Rle_trans with (cos m); [lra|]. apply cos_decr_1; lra.
Qed.
Lemma from_check D p r B lo n x y k : (0 < D)%Z -> (0 < n)%nat -> below D p r B lo n = true -> IZR lo <= IZR D * x <= IZR (lo + 2 * r * Z.of_nat n) ->
  Rabs (y - peval p x) <= k -> Rabs y <= IZR B + k.
Proof.
  intros HD Hn H Hx Hy. pose proof (below_ok D p r B lo n x HD Hn H Hx) as C. replace y with (peval p x + (y - peval p x)) by ring. eapply Rle_trans; [apply Rabs_triang|]. lra.
Qed.
(** deviations of the gain from 1, in units of 10^-6 *)
Definition deviation (factor f : nat) (t : R) : R := Rabs (csumR factor (phase factor f) t - 1) + Rabs (ssumR factor (phase factor f) t).
Lemma million x : Rabs x = / 10 ^ 6 * Rabs (10 ^ 6 * x).
Proof. rewrite Rabs_mult, (Rabs_pos_eq (10 ^ 6)) by lra. field. Qed.
Lemma mirror_zero factor f t : factor = 4%nat \/ factor = 2%nat -> (f < factor)%nat -> map (fun j => 48 - j)%nat (phase factor f) = rev (phase factor f) -> ssumR factor (phase factor f) t = 0.
Proof. intros HF Hf E. destruct (mirrored factor f f t HF Hf E) as (_ & H). lra. Qed.
Lemma c_check factor f D r B lo n t c : factor = 4%nat \/ factor = 2%nat -> (f < factor)%nat -> (0 < D)%Z -> (0 < n)%nat -> ccheck factor f D r B lo n = true ->
  c <= cos t <= 1 -> IZR lo <= IZR D * c -> (D <= lo + 2 * r * Z.of_nat n)%Z -> Rabs (csumR factor (phase factor f) t - 1) <= / 10 ^ 6 * (IZR B + 2 * INR (48 / factor)).
Proof.
  intros HF Hf HD Hn H Hc Hl Hu. rewrite million. apply Rmult_le_compat_l; [apply Rlt_le, Rinv_0_lt_compat; lra|].
  unfold ccheck in H. refine (from_check _ _ _ _ _ _ (cos t) _ _ HD Hn H _ _); [|apply csum_near; auto]. apply IZR_lt in HD. apply IZR_le in Hu. split; nra.
Qed.
Lemma s_check D r B n t c s : (0 < D)%Z -> (0 < n)%nat -> scheck D r B 0 n = true -> 0 <= t <= 1.5 -> 0 <= c <= cos t -> 0 <= s -> 1 <= c * c + s * s -> IZR D * s <= IZR (2 * r * Z.of_nat n) ->
  Rabs (ssumR 4 (phase 4 1) t) <= / 10 ^ 6 * (IZR B + 24).
Proof.
  intros HD Hn H Ht Hc Hs HS Hu. pose proof PI_digits. assert (0 <= sin t) as P0 by (apply sin_ge_0; lra). assert (sin t <= s) as P1.
  { pose proof (sin2_cos2 t) as E. unfold Rsqr in E. destruct (Rle_dec (sin t) s); auto. exfalso. assert (s * s < sin t * sin t) by nra. assert (c * c <= cos t * cos t) by nra. lra. }
  rewrite million. apply Rmult_le_compat_l; [apply Rlt_le, Rinv_0_lt_compat; lra|].
  unfold scheck in H. refine (from_check _ _ _ _ _ _ (sin t) _ _ HD Hn H _ _); [|apply ssum_near]. apply IZR_lt in HD. rewrite Z.add_0_l. split; nra.
Qed.
Lemma INR_12 : INR (48 / 4) = 12. Proof. rewrite INR_IZR_INZ. reflexivity. Qed.
Lemma INR_24' : INR (48 / 2) = 24. Proof. rewrite INR_IZR_INZ. reflexivity. Qed.
Lemma ripple4 t eps m c s D1 D2 B1 B2 BS lo1 lo2 n1 n2 nS : 0 <= t <= m -> m <= 1.5 -> 0 <= c -> c <= 1 - m ^ 2 / 2 + m ^ 4 / 24 - m ^ 6 / 720 + m ^ 8 / 40320 - m ^ 10 / 3628800 ->
  0 <= s -> 1 <= c * c + s * s -> (0 < D1)%Z -> (0 < D2)%Z -> (0 < n1)%nat -> (0 < n2)%nat -> (0 < nS)%nat ->
  ccheck 4 1 D1 1 B1 lo1 n1 = true -> ccheck 4 2 D2 1 B2 lo2 n2 = true -> scheck D2 1 BS 0 nS = true ->
  IZR lo1 <= IZR D1 * c -> (D1 <= lo1 + 2 * 1 * Z.of_nat n1)%Z -> IZR lo2 <= IZR D2 * c -> (D2 <= lo2 + 2 * 1 * Z.of_nat n2)%Z -> IZR D2 * s <= IZR (2 * 1 * Z.of_nat nS) ->
  0 <= eps -> IZR B1 + IZR BS + 48 <= 10 ^ 6 * eps -> IZR B2 + 24 <= 10 ^ 6 * eps -> forall f, (f < 4)%nat -> deviation 4 f t <= eps.
Proof.
  intros Ht Hm Hc0 Hc Hs Hcs HD1 HD2 Hn1 Hn2 HnS K1 K2 KS L1 U1 L2 U2 US He E1 E2 f Hf. pose proof (cosine_above t m c Ht Hm Hc) as C.
  pose proof (c_check 4 1 _ _ _ _ _ t c ltac:(tauto) ltac:(lia) HD1 Hn1 K1 C L1 U1) as R1. pose proof (c_check 4 2 _ _ _ _ _ t c ltac:(tauto) ltac:(lia) HD2 Hn2 K2 C L2 U2) as R2.
  pose proof (s_check _ _ _ _ t c s HD2 HnS KS ltac:(lra) ltac:(lra) Hs Hcs US) as RS. rewrite INR_12 in R1, R2.
  unfold deviation. cases f 4%nat; [..|lia]; clear Hf.
  - destruct (sums_phase0 4 t ltac:(tauto)) as (-> & ->). rewrite Rminus_eq_0, Rabs_R0. lra.
  - lra.
  - rewrite (mirror_zero 4 2 t) by (auto; reflexivity). rewrite Rabs_R0. lra.
  - destruct (mirrored 4 3 1 t ltac:(tauto) ltac:(lia) eq_refl) as (-> & ->). rewrite Rabs_Ropp. lra.
Qed.
Lemma check_a1 : ccheck 4 1 512 1 6490 436 38 = true. Proof. vm_compute. reflexivity. Qed.
Lemma check_a2 : ccheck 4 2 512 1 12960 436 38 = true. Proof. vm_compute. reflexivity. Qed.
Lemma check_aS : scheck 512 1 6450 0 134 = true. Proof. vm_compute. reflexivity. Qed.
Lemma check_b1 : ccheck 4 1 1024 1 1960 946 39 = true. Proof. vm_compute. reflexivity. Qed.
Lemma check_b2 : ccheck 4 2 512 1 3970 473 20 = true. Proof. vm_compute. reflexivity. Qed.
Lemma check_bS : scheck 512 1 1980 0 98 = true. Proof. vm_compute. reflexivity. Qed.
Lemma check_c1 : ccheck 2 1 512 1 5800 158 177 = true. Proof. vm_compute. reflexivity. Qed.
(** up to 0.35 times the sample rate, up to a quarter of it, and up to 0.4 times it at the lower factor *)
Lemma ripple_a t f : 0 <= t <= 0.175 * PI -> (f < 4)%nat -> deviation 4 f t <= 0.013.
Proof.
  intros Ht Hf. pose proof PI_digits. refine (ripple4 t 0.013 0.54978 0.8526 0.5226 512 512 6490 12960 6450 436 436 38 38 134 _ _ _ _ _ _ _ _ _ _ _ check_a1 check_a2 check_aS _ _ _ _ _ _ _ _ f Hf); try lra; try lia;
    cbn [Z.mul Z.of_nat Pos.of_succ_nat Pos.succ Pos.mul]; lra.
Qed.
Lemma ripple_b t f : 0 <= t <= PI / 8 -> (f < 4)%nat -> deviation 4 f t <= 0.004.
Proof.
  intros Ht Hf. pose proof PI_digits. refine (ripple4 t 0.004 0.3927 0.92387 0.38275 1024 512 1960 3970 1980 946 473 39 20 98 _ _ _ _ _ _ _ _ _ _ _ check_b1 check_b2 check_bS _ _ _ _ _ _ _ _ f Hf); try lra; try lia;
    cbn [Z.mul Z.of_nat Pos.of_succ_nat Pos.succ Pos.mul]; lra.
Qed.
Lemma ripple_c t f : 0 <= t <= 0.4 * PI -> (f < 2)%nat -> deviation 2 f t <= 0.006.
Proof.
  intros Ht Hf. pose proof PI_digits. unfold deviation. cases f 2%nat; [..|lia].
  - destruct (sums_phase0 2 t ltac:(tauto)) as (-> & ->). rewrite Rminus_eq_0, Rabs_R0. lra.
  - pose proof (cosine_above t 1.25664 0.309 ltac:(lra) ltac:(lra) ltac:(lra)) as C.
    pose proof (c_check 2 1 512 1 5800 158 177 t 0.309 ltac:(tauto) ltac:(lia) eq_refl ltac:(lia) check_c1 C ltac:(lra) ltac:(lia)) as R. rewrite INR_24' in R.
    rewrite (mirror_zero 2 1 t) by (auto; reflexivity). rewrite Rabs_R0. lra.
Qed.
