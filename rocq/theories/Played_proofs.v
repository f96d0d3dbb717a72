(** Integrated loudness against the exact measurement of the input. *)
From Coq Require Import List Arith NArith ZArith Bool Lia Reals Lra Psatz.
From Flocq Require Import Core IEEE754.BinarySingleNaN.
From Verif Require Import Prelude Float Env Utils History Filter Ebur128 Spec Float_proofs Filter_proofs Ebur128_proofs Ops_proofs Input_proofs Stream_proofs Loud_proofs Feed_proofs Reach_proofs Trace_proofs Parallel_proofs Capi_proofs Blocks_proofs Gating_proofs Answers_proofs Range_proofs
  Spec_real Spec_filter Spec_coeff Spec_accuracy Spec_history Spec_exact Spec_programme Accuracy_proofs Lufs_proofs Programme_proofs Kweight_proofs Coeff_proofs Noise_proofs Heard_proofs Tight_proofs Bound_proofs Follow_proofs Rms_proofs Value_proofs Energy_proofs Exact_proofs Pass_proofs Report_proofs.
Import ListNotations.
Import Spec_history. Import Spec_exact.
Local Open Scope R_scope.

(** * Averages *)
Definition paired (D x Z : R) : Prop := 0 <= x /\ 0 <= Z /\ Rabs (sqrt x - sqrt Z) <= D.
Lemma average_near D xs Zs : 0 <= D -> Forall2 (paired D) xs Zs -> Rabs (sqrt (average xs) - sqrt (average Zs)) <= D.
Proof.
  intros HD H. destruct (Nat.eq_dec (length xs) 0) as [E|E].
  { destruct H; [|discriminate E]. rewrite Rminus_diag_eq by auto. now rewrite Rabs_R0. }
  unfold average. rewrite <- (Forall2_length _ _ _ H). set (k := / INR (length xs)).
  assert (0 < INR (length xs)) as Hn by (apply lt_0_INR; lia). assert (0 < k) as Hk by now apply Rinv_0_lt_compat.
  assert (exists T, nonneg T /\ norm t_a T = total xs * k /\ norm t_b T = total Zs * k /\ norm apart T <= INR (length xs) * k * (D * D)) as (T & N & EA & EB & EC).
  { clear E Hn. clearbody k. induction H as [|x Z xs Zs (Hx & HZ & B) _ (T & N & EA & EB & EC)].
    - exists []. unfold norm. cbn. split; [constructor|]. lra.
    - exists ({| t_w := k; t_a := sqrt x; t_b := sqrt Z |} :: T). split; [constructor; auto; cbn; lra|]. rewrite !norm_cons, EA, EB. unfold apart at 1 2. cbn [t_w t_a t_b].
      change (total (?a :: ?l)) with (a + total l). rewrite !Rmult_assoc, !sqrt_sqrt by auto. split; [ring|]. split; [ring|]. cbn [length]. rewrite S_INR.
      assert ((sqrt x - sqrt Z) * (sqrt x - sqrt Z) <= D * D) by (apply Rabs_le_inv in B; nra). assert (k * ((sqrt x - sqrt Z) * (sqrt x - sqrt Z)) <= k * (D * D)) by (apply Rmult_le_compat_l; lra). lra. }
  unfold Rdiv. fold k. rewrite <- EA, <- EB. eapply Rle_trans; [now apply minkowski|]. rewrite <- (sqrt_square D) by auto. apply sqrt_le_1_alt. eapply Rle_trans; [exact EC|]. right. unfold k. field. lra.
Qed.
Lemma average_pos m l : 0 < m -> l <> [] -> Forall (fun z => m <= z) l -> m <= average l.
Proof.
  intros Hm Hl H. unfold average. assert (0 < INR (length l)) as Hn by (apply lt_0_INR; destruct l; [congruence|cbn; lia]).
  apply Rmult_le_reg_r with (INR (length l)); auto. unfold Rdiv. rewrite Rmult_assoc, Rinv_l, Rmult_1_r by lra. clear Hl Hn.
  induction H as [|z l Hz _ IH]; [cbn; lra|]. cbn [length]. rewrite S_INR. change (total (?a :: ?l)) with (a + total l). lra.
Qed.
(** ** filtering both sides *)
Lemma filter_paired (R0 : R -> R -> Prop) (p : R -> bool) g xs Zs : Forall2 R0 xs Zs -> Forall2 (fun x Z => p x = if Rle_dec g Z then true else false) xs Zs ->
  Forall2 R0 (List.filter p xs) (not_below g Zs).
Proof.
  unfold not_below. induction 1 as [|x Z xs Zs H _ IH]; intros HP; [constructor|]. cbn [List.filter]. inversion HP as [|? ? ? ? HP1 HP2]; subst. rewrite HP1. specialize (IH HP2).
  destruct (Rle_dec g Z); auto.
Qed.
Lemma sqrt_sign g z : 0 <= g -> 0 <= z -> (g <= z <-> sqrt g <= sqrt z).
Proof. intros. split; [apply sqrt_le_1_alt|]. apply sqrt_le_0; auto. Qed.
(** a comparison that comes out the same *)
Lemma same_side D x Z g G c : 0 <= x -> 0 <= Z -> 0 <= g -> 0 <= G -> Rabs (sqrt x - sqrt Z) <= D -> Rabs (sqrt g - sqrt G) <= c -> D + c < Rabs (sqrt Z - sqrt G) -> (g <= x <-> G <= Z).
Proof.
  intros Hx HZ Hg HG B C S. rewrite (sqrt_sign g x), (sqrt_sign G Z) by auto. apply Rabs_le_inv in B. apply Rabs_le_inv in C. unfold Rabs in S. destruct (Rcase_abs _) in S; split; intros; lra.
Qed.
(** ** the gate *)
Lemma lufs_inj_bound g G t : 0 < g -> 0 < G -> 0 <= t <= 4 / 3 -> Rabs (lufs g - lufs G) <= t -> Rabs (sqrt g - sqrt G) <= t / 6 * sqrt G.
Proof.
  intros Hg HG Ht H. unfold lufs in H. pose proof ln10_pos as L. pose proof Calibration_proofs.ln10_upper as L2.
  assert (Rabs (ln g - ln G) <= 1 / 4 * t) as HL.
  { replace (10 * (ln g / ln 10) - 691 / 1000 - (10 * (ln G / ln 10) - 691 / 1000)) with ((ln g - ln G) * (10 / ln 10)) in H by (field; lra). rewrite Rabs_mult, (Rabs_pos_eq (10 / ln 10)) in H by (left; apply Rdiv_lt_0_compat; lra).
    apply Rmult_le_reg_r with (10 / ln 10); [apply Rdiv_lt_0_compat; lra|]. eapply Rle_trans; [exact H|]. apply Rmult_le_reg_r with (ln 10); auto. replace (1 / 4 * t * (10 / ln 10) * ln 10) with (5 / 2 * t) by (field; lra). nra. }
  pose proof (sqrt_lt_R0 g Hg) as sg. pose proof (sqrt_lt_R0 G HG) as sG. assert (ln g = 2 * ln (sqrt g)) as Eg by (rewrite <- (sqrt_sqrt g) at 1 by lra; rewrite ln_mult by auto; ring).
  assert (ln G = 2 * ln (sqrt G)) as EG by (rewrite <- (sqrt_sqrt G) at 1 by lra; rewrite ln_mult by auto; ring). rewrite Eg, EG in HL.
  set (a := sqrt g) in *. set (b := sqrt G) in *. clearbody a b. clear - HL sg sG Ht. assert (Rabs (ln (a / b)) <= 0.125 * t) as HQ.
  { unfold Rdiv. rewrite ln_mult, ln_Rinv by (auto using Rinv_0_lt_compat). apply Rabs_le_inv in HL. apply Rabs_le. lra. }
  assert (0 < a / b) as Q0 by now apply Rdiv_lt_0_compat. pose proof (ln_above (a / b) Q0) as QA. set (q := a / b) in *.
  assert (a = q * b) as EQ by (unfold q; field; lra). clearbody q. subst a. apply Rabs_le_inv in HQ. 
  replace (q * b - b) with ((q - 1) * b) by ring. rewrite Rabs_mult, (Rabs_pos_eq b) by lra. apply Rmult_le_compat_r; [lra|]. pose proof (Rinv_0_lt_compat q Q0) as I0. assert (q * / q = 1) as QI by (field; lra).
  assert (1 - 0.125 * t <= / q) as B1 by lra.
  assert (q <= exp (0.125 * t)) as B2 by (rewrite <- (exp_ln q) by auto; destruct HQ as (_ & [HQ|HQ]); [left; now apply exp_increasing|right; now rewrite HQ]).
  assert (exp (- (0.125 * t)) <= q) as B3 by (rewrite <- (exp_ln q) by auto; destruct HQ as ([HQ|HQ] & _); [left; now apply exp_increasing|right; now rewrite HQ]).
  pose proof (exp_ineq1_le (- (0.125 * t))) as B4. apply Rabs_le. split; [lra|].
  (* q <= 1/(1 - 0.125 t) *)
  assert (q * (1 - 0.125 * t) <= 1) as B5 by (rewrite <- QI; apply Rmult_le_compat_l; lra). nra.
Qed.

(** * One block *)
Lemma root_rounding n c x X : few n -> 0 <= c <= 2 ^ 60 -> 0 <= x -> 0 <= X -> nearly n c x X -> Rabs (sqrt x - sqrt X) <= 2 * (INR n * u) * sqrt X + / 2 ^ 148.
Proof.
  intros Hn Hc Hx HX (H1 & H2). pose proof (few_u n Hn) as (U0 & U1). pose proof (eta_faint c Hc) as He. pose proof eta_pos. assert (0 <= c * eta) as C0 by (apply Rmult_le_pos; lra).
  pose proof (pow_upper n ltac:(lra)) as PU. pose proof (pow_lower n) as PL. pose proof (pow_up n) as PU1. pose proof (pow_down n) as PD.
  set (p := (1 + u) ^ n) in *. set (q := (1 - u) ^ n) in *. set (k := INR n * u) in *. set (f := c * eta) in *. clearbody p q k f.
  assert (sqrt f <= / 2 ^ 150) as F1.
  { assert (/ 2 ^ 150 = sqrt (/ 2 ^ 150 * / 2 ^ 150)) as -> by (symmetry; apply sqrt_square; left; apply Rinv_0_lt_compat, pow_lt; lra). apply sqrt_le_1_alt. eapply Rle_trans; [exact He|]. right. unfold faint. rewrite <- !Rinv_mult, <- !pow_add. reflexivity. }
  assert (/ 2 ^ 148 = 4 * / 2 ^ 150) as E4 by (replace 150%nat with (2 + 148)%nat by lia; rewrite pow_add, Rinv_mult; cbn [pow]; field; apply pow_nonzero; lra).
  pose proof (sqrt_pos f) as F0. rewrite E4. set (z := / 2 ^ 150) in *. clearbody z. assert (forall a b, 0 <= a -> 0 <= b -> sqrt (a + b) <= sqrt a + sqrt b) as Sub.
  { intros a b Ha Hb. pose proof (sqrt_pos a). pose proof (sqrt_pos b). apply Rsqr_incr_0_var; [|lra]. unfold Rsqr. rewrite sqrt_sqrt by lra. pose proof (sqrt_sqrt a Ha). pose proof (sqrt_sqrt b Hb). nra. }
  pose proof (sqrt_pos X) as S0. apply Rabs_le. split.
  - assert (q * sqrt X <= sqrt x + sqrt f) as L; [|nra].
    eapply Rle_trans; [|apply Sub; auto]. apply Rle_trans with (sqrt (q * X)); [|apply sqrt_le_1_alt; lra]. rewrite sqrt_mult by lra. apply Rmult_le_compat_r; auto.
    destruct (Rle_lt_dec q 0) as [Q|Q]; [replace q with 0 by lra; rewrite sqrt_0; lra|]. rewrite <- (sqrt_square q) at 1 by lra. apply sqrt_le_1_alt. nra.
  - assert (sqrt x <= p * (sqrt X + sqrt f)) as L; [|nra].
    apply Rle_trans with (sqrt (p * (X + f))); [apply sqrt_le_1_alt; lra|]. rewrite sqrt_mult by lra. apply Rmult_le_compat; auto using sqrt_pos.
    rewrite <- (sqrt_square p) at 2 by lra. apply sqrt_le_1_alt. nra.
Qed.
Lemma root_size_of P rate M w roles ss Yss : 0 <= M -> (1 <= w)%nat -> length Yss = length roles ->
  (forall c, (c < length roles)%nat -> nth c roles Unused <> Unused -> Forall2 (near_channel P rate M) (nth c ss []) (nth c Yss [])) ->
  sqrt (mean_of w roles Yss) <= sqrt (total (map weight roles)) * (19.5 * M).
Proof.
  intros HM Hw LX H. assert (1 <= INR w) as HW by (replace 1 with (INR 1) by reflexivity; now apply le_INR). assert (0 < / INR w) as HI by (apply Rinv_0_lt_compat; lra).
  destruct (all_channels (/ INR w) (19.5 * M) w ltac:(lra) roles (map (recentR w) Yss) (map (fun _ => repeat 0 w) Yss)) as (T & N & EA & EB & EC).
  - now rewrite !map_length.
  - now rewrite !map_length.
  - intros c Hc Hu. specialize (H c Hc Hu).
    rewrite (nth_indep (map (recentR w) Yss) [] (recentR w [])) by (rewrite !map_length; lia). rewrite (map_nth (recentR w)).
    rewrite (nth_indep (map (fun _ => repeat 0 w) Yss) [] (repeat 0 w)) by (rewrite !map_length; lia). rewrite (map_nth (fun _ : list R => repeat 0 w) Yss []).
    split; [apply recentR_length|]. assert (Forall (fun Y => Rabs Y <= 19.5 * M) (recentR w (nth c Yss []))) as HF.
    { unfold recentR. assert (Forall (fun Y => Rabs Y <= 19.5 * M) (repeat 0 w ++ nth c Yss [])) as HF.
      - apply Forall_app. split; [apply Forall_forall; intros y Hy; apply repeat_spec in Hy; subst y; rewrite Rabs_R0; lra|]. revert H. generalize (nth c ss []). induction 1 as [|y Y l m (_ & _ & B) _ IH]; constructor; auto.
      - rewrite Forall_forall in *. intros y Hy. apply HF. rewrite <- (firstn_skipn (length (nth c Yss []))). apply in_app_iff. now right. }
    pose proof (recentR_length w (nth c Yss [])) as LR. rewrite <- LR at 2. revert HF. generalize (recentR w (nth c Yss [])). clear. induction 1 as [|y l B _ IH]; cbn [length repeat]; constructor; auto. now rewrite Rminus_0_r.
  - rewrite mean_shape, <- EA. pose proof (minkowski T N) as B. assert (norm t_b T = 0) as E0.
    { rewrite EB. clear. assert (total (map (fun y => y * y) (repeat 0 w)) = 0) as TZ. { induction w; cbn [repeat map]; [reflexivity|]. change (total (?a :: ?l)) with (a + total l). rewrite IHw. ring. }
      revert Yss. induction roles as [|ch roles IH]; intros [|xs Yss]; cbn [map combine]; try reflexivity. change (total (?a :: ?l)) with (a + total l). rewrite IH. unfold shape. cbn [fst snd]. rewrite TZ. ring. }
    rewrite E0, sqrt_0, Rminus_0_r, Rabs_pos_eq in B by apply sqrt_pos. eapply Rle_trans; [exact B|].
    assert (0 <= total (map weight roles)) as TW. { apply total_nonneg. rewrite Forall_map. apply Forall_forall. intros ch _. apply weight_pos. }
    rewrite <- (sqrt_square (19.5 * M)) by lra. rewrite <- sqrt_mult by (auto; apply Rle_0_sqr). apply sqrt_le_1_alt. eapply Rle_trans; [exact EC|]. right. field. lra.
Qed.
Lemma filter_error_more P rate M : audio_rate rate -> 0 <= M -> 1.87 / 10 ^ 7 * M <= filter_error P rate M.
Proof.
  intros (HR & _) HM. unfold filter_error. assert (22050 / 48000 <= IZR (Z.of_N rate) / 48000) as Hq. { assert (22050 <= IZR (Z.of_N rate)) by (apply IZR_le; lia). lra. }
  assert ((22050 / 48000) ^ 4 <= (IZR (Z.of_N rate) / 48000) ^ 4) as Hp by (apply pow_incr; lra).
  assert (0 <= (if p_ftz P then / 2 ^ 1000 else / 2 ^ 43)) by (destruct (p_ftz P); left; apply Rinv_0_lt_compat, pow_lt; lra). set (t := if p_ftz P then _ else _) in *. clearbody t. set (p := (IZR (Z.of_N rate) / 48000) ^ 4) in *. clearbody p.
  assert (0.04453 <= p) as P1 by (cbn in Hp; lra). assert (0.04453 * M <= p * M) by (apply Rmult_le_compat_r; lra). rewrite Rmult_assoc. set (q := p * M) in *. clearbody q. cbn [pow]. lra.
Qed.
(** the energy of one block *)
Lemma block_root_of P rate M L w roles ss Yss : audio_rate rate -> 0 <= M <= 2 ^ 400 -> (1 <= w)%nat -> INR w <= 2400000 -> (length roles <= 64)%nat -> length ss = length roles -> length Yss = length roles ->
  (forall c, (c < length roles)%nat -> nth c roles Unused <> Unused -> Forall2 (near_channel P rate M) (nth c ss []) (nth c Yss [])) ->
  let x := energy L w roles ss in let Z := mean_of w roles Yss in let d := rms_error P rate M roles in
  is_finite x = true /\ 0 <= real x /\ 0 <= Z /\ Rabs (sqrt (real x) - sqrt Z) <= 1.09 * d + / 2 ^ 148 /\ sqrt Z <= 1.05 * 10 ^ 8 * d.
Proof.
  intros HR HM Hw1 Hw Hl LS LX H x Z d. assert (INR w <= 2 ^ 50 - 100) as Hw' by (cbn; lra).
  pose proof (energy_good_of P rate M L w roles ss Yss HR HM Hw1 Hw' Hl LS H) as F. fold x in F.
  pose proof (roots_near_of P rate M w roles ss Yss ltac:(lra) Hw1 LS LX H) as B. fold Z d in B. pose proof (root_size_of P rate M w roles ss Yss ltac:(lra) Hw1 LX H) as S. fold Z in S.
  pose proof (filter_error_more P rate M HR ltac:(lra)) as FE. assert (sqrt (total (map weight roles)) * (1.87 / 10 ^ 7 * M) <= d) as DD by (unfold d, rms_error; apply Rmult_le_compat_l; [apply sqrt_pos|auto]).
  assert (Z.of_nat w <= 2 ^ 53)%Z as HZw. { apply le_IZR. rewrite <- INR_IZR_INZ. change (IZR (2 ^ 53)) with (IZR 9007199254740992). lra. }
  pose proof (energy_near L w roles ss Hw1 HZw F) as HN. fold x in HN. pose proof (energy_unsigned L w roles ss) as HU. fold x in HU.
  assert (0 <= real x) as X0. { unfold real. destruct x as [s|s| |s m e b]; try (cbn; lra). unfold unsigned in HU. cbn in HU. destruct s; [discriminate HU|]. cbn. apply F2R_ge_0. cbn. lia. }
  split; auto. split; auto. pose proof (mean_nonneg w roles ss Hw1) as X1.
  assert (0 <= Z) as Z0. { unfold Z. unfold mean_of. apply Rmult_le_pos; [|left; apply Rinv_0_lt_compat, lt_0_INR; lia]. apply total_nonneg. rewrite Forall_map. apply Forall_forall. intros (ch, ys) _. apply Rmult_le_pos; [apply weight_pos|]. apply total_nonneg. rewrite Forall_map. apply Forall_forall. intros y _. apply Rle_0_sqr. }
  split; auto. apply le_INR in Hl. replace (INR 64) with 64 in Hl by (cbn; lra). set (n := (w + length roles + 4)%nat) in *.
  assert (INR n <= 2400068) as Hn. { unfold n. rewrite !plus_INR. replace (INR 4) with 4 by (cbn; lra). lra. }
  assert (few n) as Hf by (unfold few; cbn; lra). pose proof (pos_INR (length roles)).
  pose proof (root_rounding n (3 * INR (length roles) + 1) (real x) _ Hf ltac:(split; [|cbn]; lra) X0 X1 HN) as RR.
  assert (0 <= INR n * u <= 2.7 / 10 ^ 10) as HK. { split; [apply Rmult_le_pos; [apply pos_INR|left; apply u_pos]|]. unfold roundoff. apply Rle_trans with (2400068 * / 2 ^ 53); [apply Rmult_le_compat_r; [left; apply Rinv_0_lt_compat, pow_lt; lra|auto]|]. cbn. lra. }
  set (k := INR n * u) in *. clearbody k. set (s := sqrt (total (map weight roles))) in *. set (m := mean_square w roles ss) in *.
  assert (0 <= s) as s0 by apply sqrt_pos. pose proof (sqrt_pos m) as m0. pose proof (sqrt_pos Z) as q0. assert (0 <= s * M) as sM by (apply Rmult_le_pos; lra).
  assert (sqrt Z <= 1.05 * 10 ^ 8 * d) as SZ. { replace (s * (19.5 * M)) with (19.5 * (s * M)) in S by ring. replace (s * (1.87 / 10 ^ 7 * M)) with (1.87 / 10 ^ 7 * (s * M)) in DD by ring. cbn in DD |- *. lra. }
  split; auto. set (a := sqrt (real x)) in *. set (b := sqrt m) in *. set (c := sqrt Z) in *. set (z := / 2 ^ 148) in *. assert (0 <= z) as z0 by (unfold z; left; apply Rinv_0_lt_compat, pow_lt; lra). clearbody a b c z d. clear - B RR HK SZ m0 q0 z0.
  apply Rabs_le_inv in B. apply Rabs_le_inv in RR. assert (b <= c + d) as B2 by lra. assert (2 * k * b <= 2 * (2.7 / 10 ^ 10) * b) as B3 by (apply Rmult_le_compat_r; lra).
  assert (b <= (1.05 * 10 ^ 8 + 1) * d) as B4 by lra. cbn in *. apply Rabs_le. lra.
Qed.
Lemma block_root P rate M L w roles ss xss : audio_rate rate -> 0 <= M <= 2 ^ 400 -> (1 <= w)%nat -> INR w <= 2400000 -> (length roles <= 64)%nat -> length ss = length roles -> length xss = length roles ->
  (forall c, (c < length roles)%nat -> nth c roles Unused <> Unused -> Forall2 (near_channel P rate M) (nth c ss []) (weighted rate (nth c xss []))) ->
  let x := energy L w roles ss in let Z := exact_mean_square rate w roles xss in let d := rms_error P rate M roles in
  is_finite x = true /\ 0 <= real x /\ 0 <= Z /\ Rabs (sqrt (real x) - sqrt Z) <= 1.09 * d + / 2 ^ 148 /\ sqrt Z <= 1.05 * 10 ^ 8 * d.
Proof.
  intros HR HM Hw1 Hw Hl LS LX H. rewrite exact_mean_of. apply block_root_of; auto; [now rewrite map_length|].
  intros c Hc Hu. rewrite (nth_map_nil (weighted rate)) by apply weighted_nil. auto.
Qed.

(** * The recorded blocks *)
Lemma played_blocks P E e t : is_64bit P -> played P E e t -> taped P E e t /\
  let n := frames_of (signals t) in
  (has_I (e_mode e) -> holds (e_block e) (p_usize_max P / 100) (map (energy_at (capacity e) (4 * hop e) (e_cmap e) (signals t)) (block_ends (hop e) 0 n))) /\
  (has_LRA (e_mode e) -> holds (e_short e) (p_usize_max P / 3000) (map (energy_at (capacity e) (30 * hop e) (e_cmap e) (signals t)) (short_ends (hop e) 0 n))).
Proof.
  intros HP (e0 & t0 & os & HN & H0 & HS & HA). destruct (noted_holds P E e0 t0 [] [] HP HN) as (HT & HB & HS2).
  destruct (session_records P E HP e0 t0 os e t HS HT HA) as (HT' & _ & HSt & _ & R1 & R2). split; auto. rewrite H0 in R1, R2.
  unfold settings in HSt. injection HSt. intros E6 E5 E4 E3 E2 E1. unfold hop, capacity in *. rewrite E1, E2, E4, E5. cbv zeta.
  assert (1 <= p_usize_max P / 100 /\ 1 <= p_usize_max P / 3000)%N as (L1 & L2) by (rewrite HP; vm_compute; split; discriminate).
  split; intros Hm; [specialize (R1 Hm)|specialize (R2 Hm)].
  - exact (holds_record _ _ [] _ _ L1 HB R1).
  - exact (holds_record _ _ [] _ _ L2 HS2 R2).
Qed.
Lemma weighted_firstn rate xs k : weighted rate (firstn k xs) = firstn k (weighted rate xs).
Proof.
  unfold weighted. destruct (coefficientsR _) as (b, a). destruct (Nat.le_gt_cases k (length xs)) as [H|H].
  - rewrite <- (firstn_skipn k xs) at 2. rewrite map_app. rewrite <- (outputs_causal b a (map real (firstn k xs)) (map real (skipn k xs))). rewrite map_length, firstn_length, Nat.min_l by auto. reflexivity.
  - rewrite (firstn_all2 xs) by lia. rewrite firstn_all2; auto. unfold outputsR. rewrite filter_run_length, map_length. lia.
Qed.
Lemma Forall2_firstn {A B} (Q : A -> B -> Prop) n : forall l m, Forall2 Q l m -> Forall2 Q (firstn n l) (firstn n m).
Proof. induction n as [|n IH]; intros l m H; [constructor|]. destruct H; cbn [firstn]; constructor; auto. Qed.
Lemma Forall2_weaken {A B} (Q R0 : A -> B -> Prop) l m : (forall x y, Q x y -> R0 x y) -> Forall2 Q l m -> Forall2 R0 l m.
Proof. intros H. induction 1; constructor; auto. Qed.
Lemma Forall2_right {A B} (Q : A -> B -> Prop) l m z : Forall2 Q l m -> In z m -> exists x, In x l /\ Q x z.
Proof. induction 1 as [|x y l m H _ IH]; intros [].
  - subst y. exists x. split; auto. now left.
  - destruct IH as (w & Hw & HQ); auto. exists w. split; auto. now right.
Qed.
Lemma Forall2_left {A B} (Q : A -> B -> Prop) l m x : Forall2 Q l m -> In x l -> exists z, In z m /\ Q x z.
Proof. induction 1 as [|y z l m H _ IH]; intros [].
  - subst y. exists z. split; auto. now left.
  - destruct IH as (w & Hw & HQ); auto. exists w. split; auto. now right.
Qed.
Definition measured_near (d : R) (x : f64) (Z : R) : Prop :=
  is_finite x = true /\ 0 <= real x /\ 0 <= Z /\ Rabs (sqrt (real x) - sqrt Z) <= 1.09 * d + / 2 ^ 148 /\ sqrt Z <= 1.05 * 10 ^ 8 * d.
Lemma energies_near P E M e t xss w ends : is_64bit P -> tan_precise E -> powf_accurate E -> audio_rate (e_rate e) -> 0 <= M <= 2 ^ 400 -> heard_all P E M e t xss -> (1 <= w)%nat -> INR w <= 2400000 ->
  Forall2 (measured_near (rms_error P (e_rate e) M (e_cmap e))) (map (energy_at (capacity e) w (e_cmap e) (signals t)) ends) (exact_energies (e_rate e) w (e_cmap e) xss ends).
Proof.
  intros HP HT HW HR HM HH Hw1 Hw. destruct (heard_near P E M e t xss HP HT HW HR HM HH) as (LC & LS & LX & HN). destruct HH as (_ & HTa & _).
  destruct (capacity_few P E e HP (taped_reachable P E e t HTa)) as (_ & H64). unfold exact_energies. induction ends as [|k ends IH]; cbn [map]; constructor; auto.
  refine (block_root P (e_rate e) M (capacity e) w (e_cmap e) (map (firstn k) (signals t)) (map (firstn k) xss) HR HM Hw1 Hw _ _ _ _); try (rewrite ?map_length; lia).
  intros c Hc Hu. rewrite !(nth_map_nil (firstn k)) by apply firstn_nil. rewrite weighted_firstn. apply Forall2_firstn. auto.
Qed.
Lemma hop_large e : audio_rate (e_rate e) -> (1 <= hop e)%nat /\ INR (30 * hop e) <= 2400000 /\ INR (4 * hop e) <= 2400000.
Proof.
  intros HR. unfold audio_rate in HR. unfold hop, hundred_ms. assert (2205 <= (e_rate e + 5) / 10 <= 76800)%N as H. { split; [apply N.div_le_lower_bound; lia|]. apply N.lt_succ_r. apply N.div_lt_upper_bound; lia. }
  set (s := ((e_rate e + 5) / 10)%N) in *. clearbody s. split; [lia|]. rewrite !INR_IZR_INZ. split; apply IZR_le; lia.
Qed.

(** ** Gates *)
Lemma minus_70_bounds : / 10 ^ 7 <= minus_70 <= / 10 ^ 6.
Proof.
  unfold minus_70, decibel. assert (/ 10 ^ 7 = Rpower 10 (- (7))) as -> by (rewrite Rpower_Ropp; f_equal; replace 7 with (INR 7) by (cbn; lra); rewrite Rpower_pow by lra; reflexivity).
  assert (/ 10 ^ 6 = Rpower 10 (- (6))) as -> by (rewrite Rpower_Ropp; f_equal; replace 6 with (INR 6) by (cbn; lra); rewrite Rpower_pow by lra; reflexivity).
  split; apply Rle_Rpower; lra.
Qed.
Lemma bound_root : 0 < real (bound 0) /\ is_finite (bound 0) = true /\ Rabs (sqrt (real (bound 0)) - sqrt minus_70) <= / 10 ^ 14.
Proof.
  pose proof minus_70_bounds as M. pose proof gate_70 as G. fold minus_70 in G. set (b := real (bound 0)) in *. set (m := minus_70) in *.
  assert (0 < m) as M0 by (assert (0 < / 10 ^ 7) by (apply Rinv_0_lt_compat, pow_lt; lra); lra). assert (m / 2 <= b) as B0. { apply Rabs_le_inv in G. cbn in G. lra. }
  split; [lra|]. split; [apply (Table_proofs.table_finite 0); lia|]. pose proof (sqrt_sqrt b ltac:(lra)) as SB. pose proof (sqrt_sqrt m ltac:(lra)) as SM. pose proof (sqrt_lt_R0 b ltac:(lra)) as b0. pose proof (sqrt_lt_R0 m M0) as m0.
  assert (sqrt m <= / 10 ^ 3) as S3. { rewrite <- (sqrt_square (/ 10 ^ 3)) by (left; apply Rinv_0_lt_compat, pow_lt; lra). apply sqrt_le_1_alt. eapply Rle_trans; [apply M|]. right. rewrite <- Rinv_mult, <- pow_add. reflexivity. }
  set (s := sqrt b) in *. set (q := sqrt m) in *. clearbody s q. rewrite <- SB, <- SM in G. clear - G b0 m0 S3.
  assert (Rabs (s - q) * q <= / 10 ^ 12 * q * q) as H.
  { apply Rle_trans with (Rabs (s * s - q * q)); [|lra]. replace (s * s - q * q) with ((s - q) * (s + q)) by ring. rewrite Rabs_mult. apply Rmult_le_compat_l; [apply Rabs_pos|]. rewrite Rabs_pos_eq; lra. }
  apply Rmult_le_reg_r in H; auto. eapply Rle_trans; [exact H|]. cbn in *. lra.
Qed.
Section Gates.
Variables (d : R) (k r : R) (xs : list f64) (Zs : list R).
Hypothesis HN : Forall2 (measured_near d) xs Zs.
Hypothesis HD : decided k (2 * d) r Zs.
Hypothesis HL : loud Zs <> [].
Lemma error_visible : / 10 ^ 12 <= d.
Proof.
  unfold loud, not_below in HL. destruct (List.filter _ Zs) as [|z l] eqn:EF; [congruence|]. assert (In z Zs /\ minus_70 <= z) as (Hz & HM).
  { assert (In z (z :: l)) as Hz by now left. rewrite <- EF in Hz. apply filter_In in Hz. destruct Hz as (Hz & Hb). split; auto. now destruct (Rle_dec minus_70 z). }
  assert (sqrt z <= 1.05 * 10 ^ 8 * d) as S. { destruct (Forall2_right _ _ _ z HN Hz) as (x & _ & H). apply H. }
  assert (3 / 10 ^ 4 <= sqrt z) as S2. { rewrite <- (sqrt_square (3 / 10 ^ 4)) by lra. apply sqrt_le_1_alt. eapply Rle_trans; [|exact HM]. eapply Rle_trans; [|apply minus_70_bounds]. cbn. lra. }
  cbn in *. lra.
Qed.
Definition near_block (x : f64) (Z : R) : Prop := is_finite x = true /\ paired (1.1 * d) (real x) Z /\ sqrt Z <= 1.05 * 10 ^ 8 * d.
Lemma near_blocks : Forall2 near_block xs Zs.
Proof.
  pose proof error_visible as V. eapply Forall2_weaken; [|exact HN]. intros x Z (F & X0 & Z0 & B & S). split; auto. split; auto. split; auto. split; auto. eapply Rle_trans; [exact B|].
  assert (/ 2 ^ 148 <= / 2 ^ 60) by (apply Rinv_le_contravar; [apply pow_lt; lra|apply Rle_pow; [lra|lia]]). cbn in *. lra.
Qed.
Lemma loud_blocks : Forall2 near_block (List.filter measurable xs) (loud Zs).
Proof.
  pose proof error_visible as V. destruct HD as (HA & _). destruct bound_root as (B0 & BF & BR). pose proof minus_70_bounds as (M0 & _). assert (0 < / 10 ^ 7) by (apply Rinv_0_lt_compat, pow_lt; lra).
  pose proof near_blocks as NB. clear HN HL HD. unfold loud, not_below. revert HA. induction NB as [|x Z xs Zs Hx _ IH]; intros HA; [constructor|]. inversion HA as [|? ? A1 A2]; subst. cbn [List.filter].
  assert (measurable x = if Rle_dec minus_70 Z then true else false) as ->; [|destruct (Rle_dec minus_70 Z); auto].
  destruct Hx as (F & (X0 & Z0 & B) & _). assert (real (bound 0) <= real x <-> minus_70 <= Z) as EQ.
  { apply (same_side (1.1 * d) (real x) Z _ _ (/ 10 ^ 14)); auto; try lra. }
  unfold measurable, f64_lt. rewrite Bltb_correct by auto. unfold real in *. destruct (Rle_dec minus_70 Z); [rewrite Rlt_bool_false by tauto|rewrite Rlt_bool_true by (apply Rnot_le_lt; tauto)]; reflexivity.
Qed.
(** ** the relative one *)
Hypothesis Hk : 10 <= k.
Lemma gate_blocks g t : 0 <= t <= 4 / 3 -> t / 6 <= r -> positive g -> Rabs (lufs (real g) - lufs (average (map real (List.filter measurable xs)) / k)) <= t ->
  Forall2 near_block (List.filter (fun x => f64_ge x g) (List.filter measurable xs)) (gated_blocks k Zs).
Proof.
  intros Ht Hr (Fg & Pg) HG. pose proof error_visible as V. assert (0 < / 10 ^ 12) as V0 by (apply Rinv_0_lt_compat, pow_lt; lra). pose proof loud_blocks as NB. destruct HD as (_ & HB). fold (loud Zs) in *. unfold gated_blocks. pose proof minus_70_bounds as (M0 & _). assert (0 < / 10 ^ 7) by (apply Rinv_0_lt_compat, pow_lt; lra).
  set (ys := List.filter measurable xs) in *. set (Ys := loud Zs) in *.
  assert (Forall (fun z => minus_70 <= z) Ys) as LY. { apply Forall_forall. intros z Hz. unfold Ys, loud, not_below in Hz. apply filter_In in Hz. now destruct (Rle_dec minus_70 z). }
  assert (Forall2 (paired (1.1 * d)) (map real ys) Ys) as NP. { clear - NB. induction NB as [|x Z l m (_ & H & _) _ IH]; cbn [map]; constructor; auto. }
  pose proof (average_near (1.1 * d) _ _ ltac:(lra) NP) as AN. pose proof (average_pos minus_70 Ys ltac:(lra) HL LY) as AP.
  assert (forall y, In y ys -> real (bound 0) <= real y) as YB. { intros y Hy. apply filter_In in Hy. destruct Hy as (Hy & Hm). unfold measurable in Hm. apply negb_true_iff in Hm. assert (is_finite y = true) as Fy. { destruct (Forall2_left _ _ _ y HN Hy) as (z & _ & H'). apply H'. }
    unfold f64_lt in Hm. rewrite Bltb_correct in Hm; [|auto|apply bound_root]. unfold real. destruct (Rlt_bool_spec (B2R y) (B2R (bound 0))); [discriminate|auto]. }
  assert (ys <> []) as Y0 by (intros E; rewrite E in NB; inversion NB; congruence).
  assert (real (bound 0) <= average (map real ys)) as AY. { apply average_pos; [apply bound_root|now destruct ys|]. apply Forall_map, Forall_forall. auto. }
  pose proof (proj1 bound_root) as B0. set (a := average (map real ys)) in *. set (A := average Ys) in *. change (relative_gate k Zs) with (A / k) in *.
  assert (0 < a / k) as ak by (apply Rdiv_lt_0_compat; lra). assert (0 < A / k) as Ak by (apply Rdiv_lt_0_compat; lra).
  pose proof (lufs_inj_bound (real g) (a / k) t Pg ak Ht HG) as G1. assert (Rabs (sqrt (a / k) - sqrt (A / k)) <= 0.37 * d) as G2.
  { rewrite !sqrt_div by lra. unfold Rdiv. rewrite <- Rmult_minus_distr_r, Rabs_mult. pose proof (sqrt_lt_R0 k ltac:(lra)) as sk. pose proof (sqrt_sqrt k ltac:(lra)) as kk. assert (3 <= sqrt k) as k3. { rewrite <- (sqrt_square 3) by lra. apply sqrt_le_1_alt. lra. }
    rewrite (Rabs_pos_eq (/ sqrt k)) by (left; now apply Rinv_0_lt_compat). assert (/ sqrt k <= / 3) by (apply Rinv_le_contravar; lra). apply Rle_trans with (1.1 * d * / 3); [|lra]. apply Rmult_le_compat; auto; [apply Rabs_pos|left; now apply Rinv_0_lt_compat]. }
  assert (Rabs (sqrt (real g) - sqrt (A / k)) <= 0.6 * d + r * sqrt (A / k)) as G3.
  { apply Rabs_le_inv in G1. apply Rabs_le_inv in G2. pose proof (sqrt_pos (A / k)) as s0. set (s := sqrt (A / k)) in *. set (q := sqrt (a / k)) in *. set (p := sqrt (real g)) in *. clearbody s q p. clear - G1 G2 s0 Ht Hr V V0.
    assert (t / 6 * q <= t / 6 * (s + 0.37 * d)) by (apply Rmult_le_compat_l; lra). assert (t / 6 * s <= r * s) by (apply Rmult_le_compat_r; lra). assert (t / 6 * (0.37 * d) <= 0.23 * d) by nra. apply Rabs_le. lra. }
  clear AN AP NP LY HG G1 G2 Y0 AY HL. clearbody ys Ys A a. revert HB. unfold not_below. clear YB HN HD. induction NB as [|x Z l m Hx _ IH]; intros HB; [constructor|]. inversion HB as [|? ? A1 A2]; subst. cbn [List.filter].
  assert (f64_ge x g = if Rle_dec (A / k) Z then true else false) as ->; [|destruct (Rle_dec (A / k) Z); auto].
  destruct Hx as (F & (X0 & Z0 & B) & _). assert (real g <= real x <-> A / k <= Z) as EQ.
  { apply (same_side (1.1 * d) (real x) Z _ _ (0.6 * d + r * sqrt (A / k))); auto; try lra. }
  unfold f64_ge, f64_le. rewrite Bleb_correct by auto. unfold real in *. destruct (Rle_dec (A / k) Z); [apply Rle_bool_true|apply Rle_bool_false, Rnot_le_lt]; tauto.
Qed.
End Gates.

(** * Integrated loudness *)
Lemma exact_sum_singly ys : exact_sum (singly ys) = total (map real ys).
Proof. induction ys as [|y ys IH]; [reflexivity|]. cbn [singly map]. fold (singly ys). rewrite exact_cons, IH. cbn [fst snd]. change (amount 1) with 1. change (total (?a :: ?l)) with (a + total l). ring. Qed.
Lemma exact_mean_singly ys : exact_mean (singly ys) = average (map real ys).
Proof. unfold exact_mean, average. rewrite exact_sum_singly, population_singly, map_length. f_equal. unfold amount. rewrite nat_N_Z, INR_IZR_INZ. reflexivity. Qed.
Lemma weights_few roles : (length roles <= 64)%nat -> 0 <= total (map weight roles) <= 144.
Proof.
  intros H. apply le_INR in H. replace (INR 64) with 64 in H by (cbn; lra). assert (0 <= total (map weight roles) <= 2 * INR (length roles)); [|lra]. clear H. induction roles as [|ch roles IH]; [cbn; lra|].
  cbn [map length]. rewrite S_INR. change (total (?a :: ?l)) with (a + total l). pose proof (weight_pos ch). assert (weight ch <= 2) by (destruct ch; cbn; lra). lra.
Qed.
Lemma near_blocks_sum P rate M roles ys : audio_rate rate -> 0 <= M <= 2 ^ 400 -> (length roles <= 64)%nat -> (forall y, In y ys -> exists Z, near_block (rms_error P rate M roles) y Z) -> INR (length ys) <= 2 ^ 50 ->
  412 / 100 * Pass_proofs.weighted (singly ys) <= bpow radix2 1000.
Proof.
  intros HR HM Hl NB Hn. pose proof (weights_few roles Hl) as (W0 & W1). pose proof (filter_error_less P rate M HR ltac:(lra)) as FL. pose proof (filter_error_pos P rate M ltac:(lra)) as FP.
  assert (sqrt (total (map weight roles)) <= 12) as SW. { rewrite <- (sqrt_square 12) by lra. apply sqrt_le_1_alt. lra. } pose proof (sqrt_pos (total (map weight roles))) as S0.
  set (d := rms_error P rate M roles) in *. assert (1 <= 2 ^ 400) as P1 by (apply pow_R1_Rle; lra). assert (0 <= d <= 24 * 2 ^ 400) as HD.
  { unfold d, rms_error. split; [apply Rmult_le_pos; auto|]. apply Rle_trans with (12 * (2 * 2 ^ 400)); [|lra]. apply Rmult_le_compat; auto. lra. }
  assert (2 ^ 400 * 2 ^ 400 = 2 ^ 800) as PP by (rewrite <- pow_add; reflexivity). set (p := 2 ^ 400) in *. clearbody p. assert (forall y, In y ys -> B2R y <= 2 ^ 64 * (p * p)) as HY.
  { intros y Hy. destruct (NB y Hy) as (Z & (_ & (Y0 & Z0 & B) & S)). change (B2R y) with (real y). rewrite <- (sqrt_sqrt (real y)) by auto. pose proof (sqrt_pos (real y)). apply Rabs_le_inv in B.
    assert (sqrt (real y) <= 2 ^ 32 * p) as HS by (cbn in *; lra). replace (2 ^ 64 * (p * p)) with (2 ^ 32 * p * (2 ^ 32 * p)); [apply Rmult_le_compat; auto|]. replace 64%nat with (32 + 32)%nat by lia. rewrite pow_add. ring. }
  assert (Pass_proofs.weighted (singly ys) <= INR (length ys) * (2 ^ 64 * (p * p))) as HW.
  { clear - HY. induction ys as [|y ys IH]; [cbn; lra|]. cbn [singly map Pass_proofs.weighted fst snd length]. fold (singly ys). rewrite S_INR. pose proof (HY y ltac:(now left)). specialize (IH ltac:(intros; apply HY; now right)).
    change (size_of 1) with 1. lra. }
  assert (bpow radix2 1000 = 2 ^ 1000) as -> by (rewrite bpow_powerRZ; reflexivity).
  assert (2 ^ 1000 = 4 * (2 ^ 84 * (2 ^ 50 * (2 ^ 64 * 2 ^ 800)))) as -> by (replace 4 with (2 ^ 2) by lra; rewrite <- !pow_add; reflexivity). rewrite PP in HW.
  assert (2 <= 2 ^ 84) as P84 by (replace (2 ^ 84) with (2 * 2 ^ 83) by (cbn; lra); pose proof (pow_R1_Rle 2 83 ltac:(lra)); lra). assert (0 < 2 ^ 64 * 2 ^ 800) as P0 by (apply Rmult_lt_0_compat; apply pow_lt; lra). set (q := 2 ^ 64 * 2 ^ 800) in *. clearbody q.
  assert (INR (length ys) * q <= 2 ^ 50 * q) as H1 by (apply Rmult_le_compat_r; lra). assert (0 <= 2 ^ 50 * q) as H2 by (apply Rmult_le_pos; [apply pow_le; lra|lra]). set (z := 2 ^ 50 * q) in *. clearbody z. set (w := Pass_proofs.weighted (singly ys)) in *. clearbody w.
  assert (2 * z <= 2 ^ 84 * z) by (apply Rmult_le_compat_r; auto). lra.
Qed.
Lemma sum_all_finite ls : Forall (Forall block_ok) ls -> (forall b, In b (concat ls) -> is_finite (snd b) = true) -> forall t, unsigned t -> is_finite t = true -> 0 <= B2R t ->
  B2R t + 412 / 100 * Pass_proofs.weighted (concat ls) <= bpow radix2 1000 -> is_finite (fold_left (fun t l => f64_add t (energy_sum l)) ls t) = true.
Proof.
  induction 1 as [|l ls Hb Hl IH]; intros HF t Ht Ft Pt H; cbn [fold_left concat] in *; auto. rewrite weighted_app in H.
  assert (0 <= Pass_proofs.weighted l) as W1 by (apply weighted_nonneg; auto; intros; apply HF, in_or_app; now left).
  assert (0 <= Pass_proofs.weighted (concat ls)) as W2. { apply weighted_nonneg; [|intros; apply HF, in_or_app; now right]. apply Forall_forall. intros b Hin. apply in_concat in Hin. destruct Hin as (m & Hm & Hin). rewrite Forall_forall in Hl. specialize (Hl m Hm). rewrite Forall_forall in Hl. auto. }
  assert (is_finite (energy_sum l) = true) as Fe by (apply sum_finite; auto; try reflexivity; [intros; apply HF, in_or_app; now left|cbn; lra|change (B2R f64_zero) with 0; lra]).
  pose proof (energy_sum_unsigned' l Hb) as U. destruct (sum_bound l Hb f64_zero eq_refl Fe) as (_ & _ & B3 & B4). fold (energy_sum l) in *. change (B2R f64_zero) with 0 in *.
  destruct (add_small t _ Ft Fe) as (Fa & Ea). { rewrite Rabs_pos_eq by lra. lra. }
  apply IH; auto.
  - intros. apply HF, in_or_app. now right.
  - now apply add_unsigned.
  - rewrite Ea. apply rnd_nonneg. lra.
  - rewrite Ea. pose proof (rnd_add_le t _ B3). lra.
Qed.
Lemma singly_app a b : singly (a ++ b) = singly a ++ singly b.
Proof. unfold singly. apply map_app. Qed.
Lemma blocks_together xss : concat (map (fun xs => singly (List.filter measurable xs)) xss) = singly (List.filter measurable (concat xss)).
Proof. induction xss as [|xs xss IH]; [reflexivity|]. cbn [map concat]. now rewrite IH, filter_app, singly_app. Qed.
(** of any number of analyzers together, from the energies that were recorded *)
Lemma several_exact P E rate M roles es xss l : is_64bit P -> powf_contract E -> log10_accurate E -> audio_rate rate -> 0 <= M <= 2 ^ 400 -> (length roles <= 64)%nat ->
  Forall (reachable P E) es -> Forall (fun e => has_I (e_mode e)) es -> map blocks es = map (fun xs => singly (List.filter measurable xs)) xss ->
  let d := rms_error P rate M roles in let n := (length l + 3 * length es + 102)%nat in
  Forall2 (measured_near d) (concat xss) l -> (N.of_nat n <= 2 ^ 50)%N -> decided 10 (2 * d) (tolerance n / 6) l -> loud l <> [] -> 5 * d <= sqrt (average (gated_blocks 10 l)) ->
  exists v, loudness_global_multiple P E es = Ret (Ok v) /\ is_finite v = true /\ Rabs (real v - integrated l) <= 14 * (d / sqrt (average (gated_blocks 10 l))) + tolerance n.
Proof.
  intros HP HE HL HR HM H64 Hr HI EBs d n HN Hn HD HLo H5. set (xs := concat xss) in *. pose proof (Forall2_length _ _ _ HN) as Len.
  set (ys := List.filter measurable xs). assert (length ys <= length xs)%nat as LY by apply filter_short.
  change (2 ^ 50)%N with 1125899906842624%N in Hn.
  set (bs := concat (map blocks es)). assert (bs = singly ys) as EB by (unfold bs; rewrite EBs; apply blocks_together).
  assert (population bs = N.of_nat (length ys)) as EP by (rewrite EB; apply population_singly).
  assert (countable bs) as Hc by (unfold countable; rewrite EP; unfold n in Hn; lia).
  pose proof (loud_blocks d 10 (tolerance n / 6) xs l HN HD HLo) as NB. fold ys in NB. assert (ys <> []) as Y0 by (intros X; rewrite X in NB; inversion NB; congruence).
  assert (population bs <> 0%N) as H0 by (rewrite EP; destruct ys; [congruence|cbn; lia]).
  pose proof (several_ok P E es HP Hr Hc) as Hbo. assert (Forall block_ok bs) as Hbc.
  { apply Forall_forall. intros b Hin. apply in_concat in Hin. destruct Hin as (m & Hm & Hin). rewrite Forall_forall in Hbo. specialize (Hbo m Hm). rewrite Forall_forall in Hbo. auto. }
  assert (forall b, In b bs -> is_finite (snd b) = true /\ measurable (snd b) = true) as HBF.
  { intros b Hb. rewrite EB in Hb. apply in_map_iff in Hb. destruct Hb as (y & <- & Hy). cbn [snd]. split; [|apply filter_In in Hy; apply Hy]. destruct (Forall2_left _ _ _ y NB Hy) as (z & _ & X). apply X. }
  assert (412 / 100 * Pass_proofs.weighted bs <= bpow radix2 1000) as SB.
  { rewrite EB. refine (near_blocks_sum P rate M roles ys HR HM H64 _ _); [intros y Hy; destruct (Forall2_left _ _ _ y NB Hy) as (z & _ & X); now exists z|].
    rewrite pow_IZR, INR_IZR_INZ. apply IZR_le. change (2 ^ Z.of_nat 50)%Z with 1125899906842624%Z. unfold n in Hn. lia. }
  pose proof (weighted_nonneg bs Hbc (fun b Hb => proj1 (HBF b Hb))) as WN.
  assert (is_finite (sum_all (map blocks es)) = true) as FS.
  { unfold sum_all. apply sum_all_finite; auto; try reflexivity; [apply HBF|cbn; lra|]. change (B2R f64_zero) with 0. rewrite Rplus_0_l. exact SB. }
  assert (is_finite (energy_sum bs) = true) as FC.
  { unfold energy_sum. apply sum_finite; auto; try reflexivity; [apply HBF|cbn; lra|]. change (B2R f64_zero) with 0. lra. }
  destruct (multiple_number P E es HP HE Hr HI Hc H0 FS) as (m & x & EG & Hm & HA). exists (loudness E (f64_div x (f64_of_N m))). split; [exact HA|].
  assert (positive (f64_div x (f64_of_N m))) as Hp.
  { assert (m = population (passing E (map blocks es)) /\ x = energy_sum (passing E (map blocks es))) as (Em & Ex). { unfold gated in EG. destruct (_ || _ || _); [discriminate|]. injection EG as <- <-. auto. }
    unfold passing, at_least in Em, Ex. fold bs in Em, Ex, Hm. set (p := fun b : N * f64 => f64_ge (snd b) (gate E (map blocks es))) in *.
    assert (is_finite (energy_sum (List.filter p bs)) = true) as FP.
    { apply (sum_filter p bs Hbc f64_zero f64_zero); auto; try reflexivity. change (B2R f64_zero) with 0. lra. }
    assert (Forall block_ok (List.filter p bs)) as Hbp. { apply Forall_forall. intros b Hin. apply filter_In in Hin. rewrite Forall_forall in Hbc. apply Hbc, Hin. }
    pose proof (sum_lower _ Hbp FP ltac:(intros b Hin; apply filter_In in Hin; apply HBF, Hin) ltac:(rewrite <- Em; lia)) as L1.
    unfold countable in Hc. rewrite Ex. destruct (mean_lower _ m FP L1 ltac:(lia)) as (F1 & P1). split; auto. unfold real. pose proof (bpow_gt_0 radix2 (-105)). lra. }
  set (v := loudness E (f64_div x (f64_of_N m))) in *. destruct (loudness_close E _ HL Hp) as (Fv & _). fold v in Fv. split; auto.
  assert (programme_effort (map blocks es) <= n)%nat as HEf. { unfold programme_effort, n. fold bs. rewrite EB. unfold singly. rewrite !map_length. lia. }
  assert (N.of_nat (programme_effort (map blocks es)) <= 2 ^ 50)%N as HEf2 by (change (2 ^ 50)%N with 1125899906842624%N; lia).
  destruct (several_close P E es v HP HE HL Hr HI Hc HEf2 HA Fv) as (g & A1 & A2 & A3 & A4 & A5). fold bs in A1, A3, A4, A5.
  rewrite EB in A1, A3, A4, A5. rewrite at_least_singly in A4, A5. rewrite exact_mean_singly in A1, A3, A4, A5.
  rewrite <- (lufs_tenth _ A1) in A3. pose proof (tolerance_mono _ _ HEf) as TM.
  assert (few n) as Hfn by (apply few_N; change (2 ^ 50)%N with 1125899906842624%N; lia). pose proof (few_u n Hfn) as (U0 & U1).
  assert (0 <= tolerance n <= 4 / 3) as HT1. { unfold tolerance. cbn [pow]. lra. }
  pose proof (gate_blocks d 10 (tolerance n / 6) xs l HN HD HLo ltac:(lra) g (tolerance n) HT1 ltac:(lra) A2 ltac:(fold ys; lra)) as GB. fold ys in GB.
  set (zs := List.filter (fun x => f64_ge x g) ys) in *. set (W := gated_blocks 10 l) in *.
  pose proof (error_visible d xs l HN HLo) as V. assert (0 < / 10 ^ 12) as V0 by (apply Rinv_0_lt_compat, pow_lt; lra).
  assert (Forall2 (paired (1.1 * d)) (map real zs) W) as NP. { clear - GB. induction GB as [|? ? ? ? (_ & H & _) _ IH]; cbn [map]; constructor; auto. }
  pose proof (average_near (1.1 * d) _ _ ltac:(lra) NP) as AN. assert (0 < average W) as AW.
  { destruct (Rle_lt_dec (average W) 0) as [X|X]; auto. exfalso. rewrite (sqrt_neg_0 _ X) in H5. lra. }
  destruct (lufs_roots (average (map real zs)) (average W) (1.1 * d) ltac:(lra) AW ltac:(lra) ltac:(lra) AN) as (_ & LR).
  destruct A5 as (_ & A5). unfold integrated. fold W. pose proof (sqrt_lt_R0 _ AW) as S0. assert (0 <= d / sqrt (average W)) as Q0 by (apply Rmult_le_pos; [lra|left; now apply Rinv_0_lt_compat]).
  replace (1.1 * d / sqrt (average W)) with (1.1 * (d / sqrt (average W))) in LR by (unfold Rdiv; ring). set (q := d / sqrt (average W)) in *. clearbody q.
  replace (real v - lufs (average W)) with ((real v - lufs (average (map real zs))) + (lufs (average (map real zs)) - lufs (average W))) by ring. eapply Rle_trans; [apply Rabs_triang|]. lra.
Qed.
Lemma recorded_blocks P E e t : is_64bit P -> played P E e t -> has_I (e_mode e) -> ~ has_HISTOGRAM (e_mode e) ->
  let xs := map (energy_at (capacity e) (4 * hop e) (e_cmap e) (signals t)) (block_ends (hop e) 0 (frames_of (signals t))) in
  (N.of_nat (length xs) <= 2 ^ 50)%N -> blocks e = singly (List.filter measurable xs).
Proof.
  intros HP HPl HI Hh xs Hn. destruct (played_blocks P E e t HP HPl) as (HTa & HB & _). specialize (HB HI). cbv zeta in HB. fold xs in HB.
  pose proof (taped_reachable P E e t HTa) as Hr.
  destruct (reachable_kind P E e HP Hr) as (HK & _). assert (contains (e_mode e) MODE_HISTOGRAM = false) as CH by (apply not_true_is_false; rewrite contains_H; auto). rewrite CH in HK.
  set (ys := List.filter measurable xs) in *. assert (length ys <= length xs)%nat as LY by apply filter_short.
  change (2 ^ 50)%N with 1125899906842624%N in Hn.
  unfold blocks. unfold holds in HB. fold ys in HB. destruct (e_block e) as [q|c]; [|destruct HK; discriminate]. destruct HB as (_ & HQ). cbn [contents]. unfold latest in HQ. rewrite HQ. replace (length ys - N.to_nat (p_usize_max P / 100))%nat with 0%nat; [reflexivity|].
  rewrite HP. assert (2 ^ 57 <= 18446744073709551615 / 100)%N as X by (vm_compute; discriminate). change (2 ^ 57)%N with 144115188075855872%N in X. symmetry. apply Nat.sub_0_le. clear - X Hn LY. set (z := (18446744073709551615 / 100)%N) in *. clearbody z. lia.
Qed.
Lemma integrated_exact P E M e t xss : is_64bit P -> powf_contract E -> log10_accurate E -> tan_precise E -> powf_accurate E -> played P E e t -> heard_all P E M e t xss -> audio_rate (e_rate e) -> 0 <= M <= 2 ^ 400 ->
  has_I (e_mode e) -> ~ has_HISTOGRAM (e_mode e) ->
  let l := momentary_blocks e t xss in let d := rms_error P (e_rate e) M (e_cmap e) in let n := (length l + 105)%nat in
  (N.of_nat n <= 2 ^ 50)%N -> decided 10 (2 * d) (tolerance n / 6) l -> loud l <> [] -> 5 * d <= sqrt (average (gated_blocks 10 l)) ->
  exists v, ask P E e QGlobal = Ret (AValue (Ok v)) /\ is_finite v = true /\ Rabs (real v - integrated l) <= 14 * (d / sqrt (average (gated_blocks 10 l))) + tolerance n.
Proof.
  intros HP HE HL HT HW HPl HH HR HM HI Hh l d n Hn HD HLo H5. destruct (played_blocks P E e t HP HPl) as (HTa & _).
  pose proof (taped_reachable P E e t HTa) as Hr. destruct (hop_large e HR) as (Hh1 & _ & Hh4).
  pose proof (energies_near P E M e t xss (4 * hop e) (block_ends (hop e) 0 (frames_of (signals t))) HP HT HW HR HM HH ltac:(lia) Hh4) as HN. fold d in HN. change (exact_energies _ _ _ _ _) with l in HN.
  destruct (capacity_few P E e HP Hr) as (_ & H64). destruct (heard_near P E M e t xss HP HT HW HR HM HH) as (LC & _ & _ & _).
  pose proof (recorded_blocks P E e t HP HPl HI Hh) as EB. cbv zeta in EB.
  set (xs := map (energy_at (capacity e) (4 * hop e) (e_cmap e) (signals t)) (block_ends (hop e) 0 (frames_of (signals t)))) in *. pose proof (Forall2_length _ _ _ HN) as Len.
  specialize (EB ltac:(unfold n in Hn; lia)).
  assert (n = (length l + 3 * length [e] + 102)%nat) as En by (unfold n; cbn [length]; lia).
  destruct (several_exact P E (e_rate e) M (e_cmap e) [e] [xs] l HP HE HL HR HM ltac:(lia) ltac:(auto) ltac:(auto) ltac:(cbn [map]; now rewrite EB)) as (v & HA & F & B); auto.
  - cbn [concat]. now rewrite app_nil_r.
  - now rewrite <- En.
  - now rewrite <- En.
  - exists v. rewrite global_multiple_one in HA. cbn [ask]. rewrite HA. cbn [obind]. rewrite En. auto.
Qed.
