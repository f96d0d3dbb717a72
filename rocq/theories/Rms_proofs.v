(** Root mean squares: finiteness of energies, distance of root mean squares, loudness. *)
From Coq Require Import List Arith NArith ZArith Bool Lia Reals Lra Psatz Permutation.
From Flocq Require Import Core IEEE754.BinarySingleNaN.
From Verif Require Import Prelude Float Env Utils Filter Ebur128 Spec Float_proofs Spec_real Spec_accuracy Spec_exact Ebur128_proofs Stream_proofs Energy_proofs Accuracy_proofs Value_proofs Lufs_proofs Follow_proofs.
Import ListNotations.
Local Open Scope R_scope.

(** * Energies of bounded signals are finite *)
Lemma add_total x y : is_finite x = true -> is_finite y = true -> Rabs (B2R x + B2R y) <= 2 ^ 950 -> is_finite (f64_add x y) = true.
Proof.
  intros Fx Fy HB. pose proof (Bplus_correct 53 1024 Hprec64 Hmax64 mode_NE x y Fx Fy) as X.
  change (round radix2 (SpecFloat.fexp 53 1024) (round_mode mode_NE) ?z) with (rnd64 z) in X.
  rewrite no_overflow in X by auto. now destruct X as (_ & X & _).
Qed.
Lemma mul_total x y : is_finite x = true -> is_finite y = true -> Rabs (B2R x * B2R y) <= 2 ^ 950 -> is_finite (f64_mul x y) = true.
Proof.
  intros Fx Fy HB. pose proof (Bmult_correct 53 1024 Hprec64 Hmax64 mode_NE x y) as X.
  change (round radix2 (SpecFloat.fexp 53 1024) (round_mode mode_NE) ?z) with (rnd64 z) in X.
  rewrite no_overflow in X by auto. destruct X as (_ & X & _). unfold f64_mul. rewrite X. now rewrite Fx, Fy.
Qed.
Lemma div_total x y : is_finite x = true -> B2R y <> 0 -> Rabs (B2R x / B2R y) <= 2 ^ 950 -> is_finite (f64_div x y) = true.
Proof.
  intros Fx Fy HB. pose proof (Bdiv_correct 53 1024 Hprec64 Hmax64 mode_NE x y Fy) as X.
  change (round radix2 (SpecFloat.fexp 53 1024) (round_mode mode_NE) ?z) with (rnd64 z) in X.
  rewrite no_overflow in X by auto. destruct X as (_ & X & _). unfold f64_div. now rewrite X.
Qed.
Lemma u_50 : 2 ^ 50 * u = / 8. Proof. unfold roundoff. lra. Qed.
Lemma eta_1 : eta <= / 1000.
Proof.
  unfold underflow. apply Rinv_le_contravar; [lra|]. apply Rle_trans with (2 ^ 10); [lra|apply Rle_pow; [lra|lia]].
Qed.
(** one more term of at most X to a sum of at most k * 2 X *)
Lemma grow k X s x : 1 <= X -> 0 <= k <= 2 ^ 50 -> 0 <= s <= k * (2 * X) -> 0 <= x <= 1.5 * X -> rnd64 (s + x) <= (k + 1) * (2 * X).
Proof.
  intros HX Hk Hs Hx. destruct (rnd_bounds (s + x) ltac:(lra)) as (_ & B). pose proof u_pos. pose proof u_50. pose proof eta_1.
  assert (k * u <= / 8) by nra. assert (u <= / 1000000) by (unfold roundoff; lra). nra.
Qed.

Definition sum_from := fold_left (fun sum y => f64_add sum (f64_mul y y)).
Lemma p950 z : 0 <= z <= 2 ^ 900 -> Rabs z <= 2 ^ 950.
Proof. intros H. rewrite Rabs_pos_eq by lra. eapply Rle_trans; [apply H|]. apply Rle_pow; [lra|lia]. Qed.
Lemma square_fine y X : 1 <= X <= 2 ^ 820 -> is_finite y = true -> real y * real y <= X ->
  is_finite (f64_mul y y) = true /\ unsigned (f64_mul y y) /\ real (f64_mul y y) <= 1.5 * X.
Proof.
  intros HX Fy HY. assert (2 ^ 820 <= 2 ^ 900) by (apply Rle_pow; [lra|lia]). unfold real in *.
  assert (is_finite (f64_mul y y) = true) as F by (apply mul_total; auto; apply p950; split; [nra|lra]). split; auto. split; [apply (mul_unsigned y y (xorb_nilpotent (Bsign y)))|].
  destruct (mul_fin _ _ F) as (_ & _ & ER). unfold real in ER. rewrite ER. destruct (rnd_bounds (B2R y * B2R y) ltac:(nra)) as (_ & B). pose proof u_pos. pose proof eta_1.
  assert (u <= / 1000000) by (unfold roundoff; lra). nra.
Qed.
Lemma sum_fine X : 1 <= X <= 2 ^ 820 -> forall (l : list f64) k (s : f64), Forall (fun y : f64 => is_finite y = true /\ real y * real y <= X) l -> INR k + INR (length l) <= 2 ^ 50 ->
  is_finite s = true -> unsigned s -> real s <= INR k * (2 * X) ->
  is_finite (sum_from l s) = true /\ real (sum_from l s) <= INR (k + length l) * (2 * X).
Proof.
  intros HX. assert (2 ^ 820 * 2 ^ 60 <= 2 ^ 900) as HB by (rewrite <- pow_add; apply Rle_pow; [lra|lia]).
  induction l as [|y l IH]; intros k s HL HK Fs Us HS; [rewrite Nat.add_0_r; split; assumption|].
  apply Forall_cons_iff in HL. destruct HL as ((Fy & HY) & HL). cbn [length] in HK. rewrite S_INR in HK. pose proof (pos_INR (length l)). pose proof (pos_INR k).
  destruct (square_fine y X HX Fy HY) as (Fm & Um & Bm). pose proof (unsigned_real _ Us) as S0. pose proof (unsigned_real _ Um) as M0.
  pose proof (grow (INR k) X (real s) (real (f64_mul y y)) ltac:(lra) ltac:(lra) ltac:(lra) ltac:(lra)) as G.
  assert (is_finite (f64_add s (f64_mul y y)) = true) as Fa.
  { apply add_total; auto. apply p950. unfold real in *. split; [lra|]. assert (INR k * (2 * X) <= 2 ^ 50 * (2 * 2 ^ 820)) by (apply Rmult_le_compat; lra).
    set (p := 2 ^ 820) in *. clearbody p. assert (1.5 * X <= 2 * p) by lra. nra. }
  destruct (add_fin _ _ Fa) as (_ & _ & ER). change (sum_from (y :: l) s) with (sum_from l (f64_add s (f64_mul y y))).
  replace (k + length (y :: l))%nat with (S k + length l)%nat by (cbn [length]; lia). apply IH; auto; [rewrite S_INR; lra|now apply add_unsigned|].
  rewrite ER, S_INR. exact G.
Qed.
Lemma gain_fine ch x G : 1 <= G <= 2 ^ 880 -> is_finite x = true -> unsigned x -> real x <= G ->
  is_finite (Spec.gain ch x) = true /\ unsigned (Spec.gain ch x) /\ real (Spec.gain ch x) <= 3 * G.
Proof.
  intros HG Fx Ux HX. pose proof (unsigned_real _ Ux) as X0. assert (2 * 2 ^ 880 <= 2 ^ 900) as HB by (rewrite tech_pow_Rmult; apply Rle_pow; [lra|lia]).
  assert (forall c, is_finite c = true -> 0 <= real c <= 2 -> is_finite (f64_mul x c) = true /\ real (f64_mul x c) <= 3 * G) as M.
  { intros c Fc HC. unfold real in *. assert (0 <= B2R x * B2R c <= 2 * G) as HP by (split; [apply Rmult_le_pos; lra|replace (2 * G) with (G * 2) by ring; apply Rmult_le_compat; lra]).
    assert (is_finite (f64_mul x c) = true) as F by (apply mul_total; auto; apply p950; split; [lra|]; set (p := 2 ^ 880) in *; clearbody p; lra). split; auto.
    destruct (mul_fin _ _ F) as (_ & _ & ER). unfold real in ER. rewrite ER. destruct (rnd_bounds (B2R x * B2R c) ltac:(lra)) as (_ & B). pose proof u_pos. pose proof eta_1.
    assert (u <= / 1000000) by (unfold roundoff; lra). nra. }
  split; [|split; [now apply gain_unsigned|]].
  - pose proof surround_literal as SL. pose proof u_pos. assert (u <= / 1000000) by (unfold roundoff; lra).
    destruct ch; cbn [Spec.gain]; auto; apply M; try reflexivity; unfold real; try lra; rewrite (proj1 (proj2 two_finite)); lra.
  - pose proof surround_literal as SL. pose proof u_pos. assert (u <= / 1000000) by (unfold roundoff; lra).
    destruct ch; cbn [Spec.gain]; try lra; apply M; try reflexivity; unfold real; try lra; rewrite (proj1 (proj2 two_finite)); lra.
Qed.
Lemma role_fine L w X : 1 <= X <= 2 ^ 820 -> (1 <= w)%nat -> INR w <= 2 ^ 50 - 100 -> forall l k s,
  (forall ch (ys : list f64), In (ch, ys) l -> ch <> Unused -> Forall (fun y : f64 => is_finite y = true /\ real y * real y <= X) ys) -> INR k + INR (length l) <= 100 ->
  is_finite s = true -> unsigned s -> real s <= INR k * (2 * (4 * INR w * X)) ->
  is_finite (fold_left (add_role L w) l s) = true /\ unsigned (fold_left (add_role L w) l s) /\ real (fold_left (add_role L w) l s) <= INR (k + length l) * (2 * (4 * INR w * X)).
Proof.
  intros HX Hw1 Hw. assert (1 <= INR w) as HW1 by (replace 1 with (INR 1) by reflexivity; now apply le_INR).
  assert (2 ^ 820 * 2 ^ 60 = 2 ^ 880) as HB by (rewrite <- pow_add; reflexivity). assert (2 * 2 ^ 880 <= 2 ^ 900) as HB2 by (rewrite tech_pow_Rmult; apply Rle_pow; [lra|lia]).
  assert (1 <= INR w * X <= (2 ^ 50 - 100) * 2 ^ 820) as HWX by (split; [rewrite <- (Rmult_1_l 1); apply Rmult_le_compat; lra|apply Rmult_le_compat; lra]).
  induction l as [|(ch, ys) l IH]; intros k s HL HK Fs Us HS; [rewrite Nat.add_0_r; auto|].
  cbn [length] in HK. rewrite S_INR in HK. pose proof (pos_INR (length l)). pose proof (pos_INR k). cbn [fold_left]. replace (k + length ((ch, ys) :: l))%nat with (S k + length l)%nat by (cbn [length]; lia).
  pose proof (unsigned_real _ Us) as S0.
  assert (is_finite (add_role L w s (ch, ys)) = true /\ unsigned (add_role L w s (ch, ys)) /\ real (add_role L w s (ch, ys)) <= INR (S k) * (2 * (4 * INR w * X))) as (Fa & Ua & Ba).
  { unfold add_role. destruct (unused ch) eqn:Eu.
    { split; auto. split; auto. rewrite S_INR. lra. }
    assert (ch <> Unused) as Hch by (intros ->; discriminate). specialize (HL ch ys (or_introl eq_refl) Hch).
    set (m := ring_order (length ys mod L) (recent w ys)).
    assert (length m = w) as Lm by (unfold m; rewrite (Permutation_length (ring_perm _ _)); apply recent_length).
    assert (Forall (fun y => is_finite y = true /\ real y * real y <= X) m) as Hm.
    { apply Forall_forall. intros y Hy. apply (Permutation_in _ (ring_perm _ _)) in Hy. unfold recent in Hy.
      assert (In y (repeat f64_zero w ++ ys)) as Hy2 by (rewrite <- (firstn_skipn (length ys)); apply in_or_app; now right).
      apply in_app_or in Hy2. destruct Hy2 as [Hy2|Hy2]; [|rewrite Forall_forall in HL; now apply HL]. apply repeat_spec in Hy2. subst y. split; [reflexivity|]. unfold real. cbn. lra. }
    assert (INR 0 + INR (length m) <= 2 ^ 50) as HQ by (rewrite Lm; cbn [INR]; lra). assert (real f64_zero <= INR 0 * (2 * X)) as HZ by (unfold real; cbn; lra).
    destruct (sum_fine X HX m 0 f64_zero Hm HQ eq_refl eq_refl HZ) as (F1 & B1).
    rewrite Lm in B1. cbn [Nat.add] in B1. change (sum_from m f64_zero) with (sum_of_squares m) in *.
    pose proof (sum_of_squares_unsigned m) as U1. set (p := 2 ^ 820) in *. clearbody p.
    destruct (gain_fine ch (sum_of_squares m) (INR w * (2 * X)) ltac:(lra) F1 U1 B1) as (F2 & U2 & B2).
    pose proof (unsigned_real _ U2) as G0. assert (0 <= INR k <= 2 ^ 50) as HK2 by lra.
    pose proof (grow (INR k) (4 * INR w * X) (real s) (real (Spec.gain ch (sum_of_squares m))) ltac:(lra) HK2 ltac:(lra) ltac:(lra)) as G.
    assert (is_finite (f64_add s (Spec.gain ch (sum_of_squares m))) = true) as F3.
    { apply add_total; auto. apply p950. unfold real in *. split; [lra|]. assert (INR k * (2 * (4 * INR w * X)) <= 100 * (8 * (INR w * X))) by (replace (2 * (4 * INR w * X)) with (8 * (INR w * X)) by ring; apply Rmult_le_compat_r; lra).
      lra. }
    split; auto. split; [now apply add_unsigned|]. destruct (add_fin _ _ F3) as (_ & _ & ER). eapply Rle_trans; [right; exact ER|]. rewrite S_INR. exact G. }
  apply IH; auto.
  - intros. eapply HL; eauto. now right.
  - rewrite S_INR. lra.
Qed.
Lemma energy_fine L w roles ss X : 1 <= X <= 2 ^ 820 -> (1 <= w)%nat -> INR w <= 2 ^ 50 - 100 -> (length roles <= 64)%nat ->
  (forall ch (ys : list f64), In (ch, ys) (combine roles ss) -> ch <> Unused -> Forall (fun y : f64 => is_finite y = true /\ real y * real y <= X) ys) ->
  is_finite (energy L w roles ss) = true.
Proof.
  intros HX Hw1 Hw HR HL. assert (1 <= INR w) as HW1 by (replace 1 with (INR 1) by reflexivity; now apply le_INR).
  assert (Z.of_nat w <= 2 ^ 53)%Z as HZ. { apply le_IZR. rewrite <- INR_IZR_INZ. change (IZR (2 ^ 53)) with (IZR 9007199254740992). assert (2 ^ 50 - 100 <= 9007199254740992) by (cbn; lra). lra. }
  destruct (f64_of_nat_real w HZ) as (Fw & Rw).
  destruct (role_fine L w X HX Hw1 Hw (combine roles ss) 0 f64_zero HL) as (F & U & B); try reflexivity.
  { assert (INR (length (combine roles ss)) <= INR 64) by (apply le_INR; rewrite combine_length; lia). replace (INR 64) with 64 in H by (cbn; lra). cbn [INR]. lra. }
  { unfold real. cbn. lra. }
  unfold energy. change (fun sum '(ch, ys) => if unused ch then sum
     else f64_add sum (Spec.gain ch (sum_of_squares (ring_order (length ys mod L) (recent w ys))))) with (add_role L w).
  set (x := fold_left (add_role L w) (combine roles ss) f64_zero) in *. apply div_total; auto; [rewrite Rw; lra|]. rewrite Rw. pose proof (unsigned_real _ U) as X0. unfold real in *.
  apply p950. assert (INR (0 + length (combine roles ss)) <= 64) as H64. { replace 64 with (INR 64) by (cbn; lra). apply le_INR. rewrite combine_length. lia. }
  pose proof (pos_INR (0 + length (combine roles ss))). set (n := INR _) in H64, H, B. assert (2 ^ 820 * 2 ^ 60 <= 2 ^ 900) as HB by (rewrite <- pow_add; apply Rle_pow; [lra|lia]).
  assert (0 < / INR w) by (apply Rinv_0_lt_compat; lra). split; [apply Rmult_le_pos; [exact X0|lra]|]. apply Rmult_le_reg_r with (INR w); [lra|]. unfold Rdiv. rewrite Rmult_assoc, Rinv_l, Rmult_1_r by lra.
  eapply Rle_trans; [exact B|]. replace (n * (2 * (4 * INR w * X))) with (8 * n * X * INR w) by ring. apply Rmult_le_compat_r; [lra|]. set (p := 2 ^ 820) in *. clearbody p.
  assert (8 * n * X <= 8 * 64 * p) by (apply Rmult_le_compat; lra). lra.
Qed.

(** * The distance of root mean squares *)
Record term := { t_w : R; t_a : R; t_b : R }.
Definition norm (f : term -> R) (l : list term) : R := total (map (fun t => t_w t * f t * f t) l).
Lemma norm_cons f t l : norm f (t :: l) = t_w t * f t * f t + norm f l. Proof. reflexivity. Qed.
Lemma norm_app f l m : norm f (l ++ m) = norm f l + norm f m. Proof. unfold norm. now rewrite map_app, total_app. Qed.
Definition apart (t : term) : R := t_a t - t_b t.
Definition nonneg (l : list term) : Prop := Forall (fun t => 0 <= t_w t) l.
Lemma norm_nonneg f l : nonneg l -> 0 <= norm f l.
Proof.
  unfold nonneg. induction 1 as [|t l Ht _ IH]; [unfold norm; cbn; lra|]. rewrite norm_cons. assert (0 <= f t * f t) by nra. rewrite Rmult_assoc. assert (0 <= t_w t * (f t * f t)) by (apply Rmult_le_pos; lra). lra.
Qed.
Lemma norm_mix l k : norm (fun t => t_a t + k * t_b t) l = norm t_a l + 2 * k * (norm t_a l + norm t_b l - norm apart l) / 2 + k * k * norm t_b l.
Proof.
  induction l as [|t l IH]; [unfold norm; cbn; lra|]. rewrite !norm_cons, IH. unfold apart. field.
Qed.
Lemma cauchy l : nonneg l -> Rabs (norm t_a l + norm t_b l - norm apart l) <= 2 * (sqrt (norm t_a l) * sqrt (norm t_b l)).
Proof.
  intros H. pose proof (norm_nonneg t_a l H) as HA. pose proof (norm_nonneg t_b l H) as HB. pose proof (norm_mix l) as M.
  assert (forall k, 0 <= norm (fun t => t_a t + k * t_b t) l) as Q by (intros; now apply norm_nonneg).
  set (A := norm t_a l) in *. set (B := norm t_b l) in *. set (C := A + B - norm apart l) in *.
  pose proof (sqrt_pos A) as a0. pose proof (sqrt_pos B) as b0. pose proof (sqrt_sqrt A HA) as aa. pose proof (sqrt_sqrt B HB) as bb. set (a := sqrt A) in *. set (b := sqrt B) in *.
  assert (forall k, 0 <= A + k * C + k * k * B) as Q2 by (intros k; specialize (Q k); rewrite M in Q; lra).
  assert (C * C <= 4 * A * B) as D.
  { destruct (Req_dec B 0) as [E|E].
    - destruct (Req_dec C 0) as [E2|E2]; [rewrite E2, E; lra|]. exfalso. specialize (Q2 (- (A + 1) / C)). rewrite E in Q2. replace (- (A + 1) / C * C) with (- (A + 1)) in Q2 by (field; auto). lra.
    - specialize (Q2 (- C / (2 * B))). replace (A + - C / (2 * B) * C + - C / (2 * B) * (- C / (2 * B)) * B) with ((4 * A * B - C * C) / (4 * B)) in Q2 by (field; auto).
      assert (0 < B) by lra. assert (0 <= (4 * A * B - C * C) / (4 * B) * (4 * B)) as Q3 by (apply Rmult_le_pos; lra). replace ((4 * A * B - C * C) / (4 * B) * (4 * B)) with (4 * A * B - C * C) in Q3 by (field; lra). lra. }
  apply Rsqr_incr_0_var; [|nra]. unfold Rsqr. rewrite <- Rabs_mult, Rabs_pos_eq by nra. nra.
Qed.
Lemma minkowski l : nonneg l -> Rabs (sqrt (norm t_a l) - sqrt (norm t_b l)) <= sqrt (norm apart l).
Proof.
  intros H. pose proof (cauchy l H) as C. pose proof (norm_nonneg t_a l H) as HA. pose proof (norm_nonneg t_b l H) as HB. pose proof (norm_nonneg apart l H) as HD.
  pose proof (sqrt_sqrt _ HA) as aa. pose proof (sqrt_sqrt _ HB) as bb. apply Rabs_le_inv in C.
  apply Rsqr_incr_0_var; [|apply sqrt_pos]. unfold Rsqr. rewrite <- Rabs_mult, (sqrt_sqrt _ HD), (Rabs_pos_eq (_ * _)) by apply Rle_0_sqr. lra.
Qed.

(** ** ... of channels *)
Definition shape (k : R) (p : Filter.channel * list R) : R := weight (fst p) * total (map (fun y => y * y) (snd p)) * k.
Lemma total_scale k l : total (map (fun x => x * k) l) = total l * k.
Proof. induction l as [|x l IH]; cbn [map total fold_right]; [ring|]. unfold total in *. rewrite IH. ring. Qed.
Lemma one_channel wt eps : 0 <= wt -> forall As Bs, Forall2 (fun a b => Rabs (a - b) <= eps) As Bs -> exists T, nonneg T /\ norm t_a T = wt * total (map (fun y => y * y) As) /\
  norm t_b T = wt * total (map (fun y => y * y) Bs) /\ norm apart T <= wt * INR (length As) * (eps * eps).
Proof.
  intros Hw. induction 1 as [|a b As Bs Hab _ (T & N & EA & EB & EC)].
  - exists []. unfold norm. cbn. repeat split; try lra; constructor.
  - exists ({| t_w := wt; t_a := a; t_b := b |} :: T). split; [constructor; auto|]. rewrite !norm_cons. cbn [t_w t_a t_b map length]. rewrite EA, EB. unfold apart at 1 2. cbn [t_a t_b].
    change (total (?x :: ?l)) with (x + total l). split; [ring|]. split; [ring|]. rewrite S_INR. assert ((a - b) * (a - b) <= eps * eps).
    { apply Rabs_le_inv in Hab. nra. } rewrite Rmult_assoc. assert (wt * ((a - b) * (a - b)) <= wt * (eps * eps)) by (apply Rmult_le_compat_l; auto). nra.
Qed.
Lemma all_channels (k eps : R) (n : nat) : 0 <= k -> forall roles ass bss, length ass = length roles -> length bss = length roles ->
  (forall c, (c < length roles)%nat -> nth c roles Unused <> Unused -> length (nth c ass []) = n /\ Forall2 (fun a b => Rabs (a - b) <= eps) (nth c ass []) (nth c bss [])) ->
  exists T, nonneg T /\ norm t_a T = total (map (shape k) (combine roles ass)) /\ norm t_b T = total (map (shape k) (combine roles bss)) /\
    norm apart T <= total (map weight roles) * k * INR n * (eps * eps).
Proof.
  intros Hk. induction roles as [|ch roles IH]; intros [|As ass] [|Bs bss] LA LB H; try discriminate.
  - exists []. unfold norm. cbn. repeat split; try lra; constructor.
  - destruct (IH ass bss ltac:(cbn in LA; congruence) ltac:(cbn in LB; congruence)) as (T & N & EA & EB & EC).
    { intros c Hc Hu. exact (H (S c) ltac:(cbn; lia) Hu). }
    cbn [combine map]. change (total (?x :: ?l)) with (x + total l).
    destruct (unused ch) eqn:Eu.
    + assert (ch = Unused) as -> by (destruct ch; try discriminate; reflexivity). exists T. assert (forall l, shape k (Unused, l) = 0) as Z by (intros; unfold shape; cbn [fst weight]; ring). rewrite !Z, !Rplus_0_l. split; [auto|]. split; [auto|]. split; [auto|]. cbn [weight]. lra.
    + destruct (H 0%nat ltac:(cbn; lia)) as (Ln & HF); [cbn [nth]; intros ->; discriminate|]. cbn [nth] in Ln, HF.
      destruct (one_channel (weight ch * k) eps ltac:(apply Rmult_le_pos; [apply weight_pos|auto]) As Bs HF) as (T1 & N1 & EA1 & EB1 & EC1).
      exists (T1 ++ T). split; [unfold nonneg in *; now apply Forall_app|]. rewrite !norm_app, EA, EB, EA1, EB1. assert (forall l, shape k (ch, l) = weight ch * k * total (map (fun y => y * y) l)) as Z by (intros; unfold shape; cbn [fst snd]; ring). rewrite !Z. split; [ring|]. split; [ring|]. rewrite Ln in EC1. lra.
Qed.

(** * Loudness of energies whose roots are close *)
Lemma ln10_5 : 2.23 <= ln 10.
Proof.
  assert (forall n, ln (1.05 ^ n) = INR n * ln 1.05) as L. { induction n as [|n IH]; [cbn; rewrite ln_1; ring|]. rewrite S_INR. cbn [pow]. rewrite ln_mult by (try apply pow_lt; lra). rewrite IH. ring. }
  pose proof (ln_above 1.05 ltac:(lra)) as A. apply Rle_trans with (ln (1.05 ^ 47)).
  - rewrite L. replace (INR 47) with 47 by (cbn; lra). assert (1 - / 1.05 = 1 / 21) as Q by lra. rewrite Q in A. lra.
  - apply ln_le'; [apply pow_lt; lra|]. cbn. lra.
Qed.
Lemma lufs_roots z Z d : 0 <= z -> 0 < Z -> 0 <= d -> 4 * d <= sqrt Z -> Rabs (sqrt z - sqrt Z) <= d -> 9 / 16 * Z <= z /\ Rabs (lufs z - lufs Z) <= 12 * (d / sqrt Z).
Proof.
  intros Hz HZ Hd H4 HR. pose proof (sqrt_lt_R0 Z HZ) as S0. pose proof (sqrt_sqrt Z ltac:(lra)) as SS. pose proof (sqrt_sqrt z Hz) as ss. pose proof (sqrt_pos z) as s0. apply Rabs_le_inv in HR.
  set (S := sqrt Z) in *. set (s := sqrt z) in *. clearbody S s. assert (3 / 4 * S <= s) as Hs by lra. split; [nra|].
  assert (0 < s) as s1 by lra. assert (z = s * s) as -> by lra. assert (Z = S * S) as -> by lra. unfold lufs. rewrite !ln_mult by lra.
  pose proof (ln_below (s / S) ltac:(apply Rdiv_lt_0_compat; lra)) as B. pose proof (ln_above (s / S) ltac:(apply Rdiv_lt_0_compat; lra)) as A.
  assert (ln (s / S) = ln s - ln S) as EL by (unfold Rdiv; rewrite ln_mult, ln_Rinv by (try apply Rinv_0_lt_compat; lra); ring). rewrite EL in A, B.
  set (x := d / S). assert (0 <= x) as x0 by (apply Rmult_le_pos; [lra|left; now apply Rinv_0_lt_compat]). assert (s / S - 1 <= x) as B2. { unfold x. apply Rmult_le_reg_r with S; [lra|]. replace ((s / S - 1) * S) with (s - S) by (field; lra). replace (d / S * S) with d by (field; lra). lra. }
  assert (- (4 / 3 * x) <= 1 - / (s / S)) as A2.
  { apply Rmult_le_reg_r with (s * S); [apply Rmult_lt_0_compat; lra|]. replace ((1 - / (s / S)) * (s * S)) with (S * (s - S)) by (field; lra). replace (- (4 / 3 * x) * (s * S)) with (- (4 / 3 * d * s)) by (unfold x; field; lra). nra. }
  pose proof ln10_5 as L10. replace (10 * ((ln s + ln s) / ln 10) - 691 / 1000 - (10 * ((ln S + ln S) / ln 10) - 691 / 1000)) with (20 * (ln s - ln S) * / ln 10) by (field; lra).
  assert (0 < / ln 10 <= / 2.23) as IL by (split; [apply Rinv_0_lt_compat; lra|apply Rinv_le_contravar; lra]). assert (/ 2.23 <= 0.449) as IV by lra.
  rewrite Rabs_mult, (Rabs_pos_eq (/ ln 10)) by lra. assert (Rabs (20 * (ln s - ln S)) <= 80 / 3 * x) as HB by (apply Rabs_le; lra).
  apply Rle_trans with (80 / 3 * x * 0.449); [apply Rmult_le_compat; try lra; apply Rabs_pos|lra].
Qed.
