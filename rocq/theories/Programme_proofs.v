(** Accuracy of programme loudness, relative threshold and loudness range. *)
From Coq Require Import List Arith NArith ZArith Bool Lia Reals Lra Psatz Sorted Permutation.
From Coq Require Import Floats.SpecFloat.
From Flocq Require Import Core IEEE754.BinarySingleNaN.
From Verif Require Import Prelude Float Env Tables Utils History Interp Filter Ebur128 Spec Spec_real Spec_history Spec_accuracy
  Prelude_proofs Utils_proofs Float_proofs Order_proofs History_proofs Ebur128_proofs Ops_proofs Feed_proofs Reach_proofs Trace_proofs
  Stream_proofs Loud_proofs Energy_proofs Accuracy_proofs Window_proofs Table_proofs Gate_proofs Gating_proofs Pass_proofs Percent_proofs
  Range_proofs Blocks_proofs Answers_proofs Value_proofs Report_proofs Opposite_proofs Lufs_proofs.
Import ListNotations.
Import Spec_history.
Local Open Scope R_scope.

(** * The constants for -10 dB and -20 dB *)
Lemma pow_bernoulli z : 1 + INR z * u <= (1 + u) ^ z.
Proof.
  pose proof u_pos. induction z as [|z IH]; [cbn; lra|]. rewrite S_INR. cbn [pow].
  assert (0 <= INR z) by apply pos_INR. nra.
Qed.
Lemma factor_bounds t z : 0 <= t -> t + u <= INR z * u -> t * (INR z * u) <= u -> (1 - u) ^ z <= 1 - t /\ 1 + t <= (1 + u) ^ z.
Proof.
  intros Ht Hz Hs. pose proof u_pos. pose proof u_1000. pose proof (pow_bernoulli z) as B. split; [|lra].
  assert ((1 - u) ^ z * (1 + u) ^ z <= 1) as M.
  { rewrite <- Rpow_mult_distr. apply Rle_trans with (1 ^ z); [apply pow_incr; split; nra|rewrite pow1; lra]. }
  pose proof (pow_down z) as D. set (q := (1 - u) ^ z) in *. set (p := (1 + u) ^ z) in *. set (w := INR z * u) in *.
  assert (1 <= (1 - t) * (1 + w)) by nra. assert (0 < 1 + w) by lra. assert (q * (1 + w) <= 1) by nra. apply Rmult_le_reg_r with (1 + w); lra.
Qed.

Lemma u_small : u <= / 1000000000000000. Proof. unfold roundoff. apply Rinv_le_contravar; [lra|]. cbn. lra. Qed.
Lemma tenth_factor E : powf_contract E -> 0 < real (tenth E) /\ (1 - u) ^ 81 <= real (tenth E) * 10 <= (1 + u) ^ 81.
Proof.
  intros ((_ & B) & _). apply Rabs_le_inv in B. replace (/ 2 ^ 50) with (8 * u) in B by (unfold roundoff; lra). pose proof u_pos. pose proof u_small.
  destruct (factor_bounds (80 * u) 81 ltac:(lra) ltac:(cbn [INR]; lra) ltac:(cbn [INR]; nra)) as (F1 & F2).
  revert F1 F2. generalize ((1 - u) ^ 81) ((1 + u) ^ 81). intros p q F1 F2. split; lra.
Qed.
Lemma hundredth_factor E : powf_contract E -> 0 < real (hundredth E) /\ (1 - u) ^ 801 <= real (hundredth E) * 100 <= (1 + u) ^ 801.
Proof.
  intros (_ & (_ & B)). apply Rabs_le_inv in B. replace (/ 2 ^ 50) with (8 * u) in B by (unfold roundoff; lra). pose proof u_pos. pose proof u_small.
  assert (INR 801 = 801) as EI by (rewrite INR_IZR_INZ; reflexivity).
  destruct (factor_bounds (800 * u) 801 ltac:(lra)) as (F1 & F2); [rewrite EI; lra|rewrite EI; nra|].
  revert F1 F2. generalize ((1 - u) ^ 801) ((1 + u) ^ 801). intros p q F1 F2. split; lra.
Qed.

(** * Exact sums *)
Lemma exact_weighted l : exact_sum l = weighted l.
Proof. induction l as [|b l IH]; [reflexivity|]. rewrite exact_cons, IH. reflexivity. Qed.
Definition all_finite (l : list (N * f64)) : Prop := forall b, In b l -> is_finite (snd b) = true.
Lemma exact_sizeable l : Forall block_ok l -> all_finite l -> sizeable (exact_sum l).
Proof.
  rewrite exact_weighted. induction 1 as [|b l Hb Hl IH]; intros HF; cbn [weighted]; [now left|].
  specialize (IH ltac:(intros c Hc; apply HF; now right)). destruct Hb as (_ & _ & Hs). specialize (Hs (HF _ (or_introl eq_refl))).
  assert (sizeable (size_of (fst b) * B2R (snd b))) as Hp.
  { destruct (N.eq_dec (fst b) 0) as [->|E0]; [left; unfold size_of; cbn; ring|]. apply sizeable_scale; auto. now apply size_pos. }
  pose proof tiny_pos. destruct Hp as [->|Hp]; [now rewrite Rplus_0_l|]. pose proof (sizeable_nonneg _ IH). right. lra.
Qed.
Lemma exact_term l b : Forall block_ok l -> all_finite l -> In b l -> amount (fst b) * real (snd b) <= exact_sum l.
Proof.
  rewrite exact_weighted. induction 1 as [|c l Hc Hl IH]; [intros _ []|]. intros HF [->|Hin]; cbn [weighted]; specialize (IH ltac:(intros d Hd; apply HF; now right)).
  - pose proof (weighted_nonneg l Hl ltac:(intros d Hd; apply HF; now right)). unfold amount, size_of, real. lra.
  - specialize (IH Hin). destruct Hc as (_ & _ & Hs). specialize (Hs (HF _ (or_introl eq_refl))). pose proof (sizeable_nonneg _ Hs). pose proof (size_nonneg (fst c)). nra.
Qed.
Lemma exact_filter p l : Forall block_ok l -> all_finite l -> exact_sum (List.filter p l) <= exact_sum l.
Proof.
  rewrite !exact_weighted. induction 1 as [|c l Hc Hl IH]; intros HF; cbn [List.filter weighted]; [lra|].
  specialize (IH ltac:(intros d Hd; apply HF; now right)). destruct Hc as (_ & _ & Hs). specialize (Hs (HF _ (or_introl eq_refl))). pose proof (sizeable_nonneg _ Hs). pose proof (size_nonneg (fst c)).
  destruct (p c); cbn [weighted]; nra.
Qed.
Lemma tiny_40 : tiny = / 2 ^ 40.
Proof. reflexivity || (unfold tiny; cbn; lra). Qed.
Lemma mean_faint S n k : tiny <= S -> (0 < n < 18446744073709551616)%N -> 1 <= k <= 100 -> faint <= S / amount n / k.
Proof.
  intros HS Hn Hk. assert (1 <= amount n <= 2 ^ 64) as HA.
  { unfold amount. split; [apply IZR_le; lia|]. replace (2 ^ 64) with (IZR 18446744073709551616) by (cbn; lra). apply IZR_le. lia. }
  apply Rmult_le_reg_r with (k * amount n); [nra|]. replace (S / amount n / k * (k * amount n)) with S by (field; lra).
  eapply Rle_trans; [|exact HS]. pose proof faint_pos. apply Rle_trans with (faint * (100 * 2 ^ 64)); [apply Rmult_le_compat_l; [lra|]; apply Rmult_le_compat; lra|].
  rewrite tiny_40. unfold faint. apply Rmult_le_reg_r with (2 ^ 200); [apply pow_lt; lra|]. 
  replace (/ 2 ^ 200 * (100 * 2 ^ 64) * 2 ^ 200) with (100 * 2 ^ 64) by (field; apply pow_nonzero; lra).
  replace (2 ^ 200) with (2 ^ 40 * 2 ^ 160) by (rewrite <- pow_add; reflexivity). rewrite <- Rmult_assoc, Rinv_l by (apply pow_nonzero; lra). rewrite Rmult_1_l.
  replace (2 ^ 160) with (2 ^ 64 * 2 ^ 96) by (rewrite <- pow_add; reflexivity). assert (100 <= 2 ^ 96) by (apply Rle_trans with (2 ^ 7); [cbn; lra|apply Rle_pow; [lra|lia]]).
  pose proof (pow_lt 2 64 ltac:(lra)). nra.
Qed.
Lemma lufs_over X k : 0 < X -> 0 < k -> lufs (X / k) = lufs X - 10 * (ln k / ln 10).
Proof. intros HX Hk. unfold lufs, Rdiv. rewrite ln_mult by (auto; now apply Rinv_0_lt_compat). rewrite ln_Rinv by auto. ring. Qed.
Lemma lufs_tenth X : 0 < X -> lufs (X / 10) = lufs X - 10.
Proof. intros H. rewrite lufs_over by lra. pose proof ln10_pos. field. lra. Qed.
Lemma lufs_hundredth X : 0 < X -> lufs (X / 100) = lufs X - 20.
Proof.
  intros H. rewrite lufs_over by lra. pose proof ln10_pos. replace 100 with (10 * 10) by lra. rewrite ln_mult by lra. field. lra.
Qed.
Lemma tolerance_near n x y : Rabs (x - y) <= 10 * INR n * u + / 2 ^ 90 -> Rabs (x - y) <= tolerance n.
Proof.
  intros H. eapply Rle_trans; [exact H|]. unfold tolerance. assert (/ 2 ^ 90 <= / 10 ^ 11); [|lra].
  apply Rinv_le_contravar; [apply pow_lt; lra|]. cbn. lra.
Qed.
Lemma few_big n : few n -> INR n <= 2 ^ 60 - 100.
Proof. unfold few. intros H. eapply Rle_trans; [exact H|]. cbn. lra. Qed.
Lemma few_le m n : (m <= n)%nat -> few n -> few m.
Proof. unfold few. intros H Hn. apply le_INR in H. lra. Qed.

(** ** The mean of some blocks *)
Lemma mean_close E s S n k : log10_accurate E -> few (k + 3) -> tiny <= S -> (0 < n < 18446744073709551616)%N -> unsigned s ->
  nearly k (INR k) (real s) S -> is_finite (f64_div s (f64_of_N n)) = true ->
  0 < S / amount n /\ positive (f64_div s (f64_of_N n)) /\ close (k + 3) (loudness E (f64_div s (f64_of_N n))) (lufs (S / amount n)).
Proof.
  intros HL Hk HS Hn Hu HN F. pose proof tiny_pos. destruct (mean_near s S n k Hu ltac:(lra) Hn HN F) as (Hu' & HN').
  pose proof (mean_faint S n 1 HS Hn ltac:(lra)) as HF. replace (S / amount n / 1) with (S / amount n) in HF by (unfold Rdiv; rewrite Rinv_1; ring).
  pose proof faint_pos. assert (0 <= INR k + 1 <= 2 ^ 60) as HD.
  { pose proof (few_big _ Hk) as B. rewrite plus_INR in B. cbn [INR] in B. pose proof (pos_INR k). lra. }
  destruct (nearly_lufs (k + 3) (INR k + 1) _ (S / amount n) Hk HD ltac:(lra) HN' ltac:(auto)) as (P & _). split; [lra|]. split; [split; auto|].
  apply (loudness_near E (k + 3) (INR k + 1)); auto; try lra. split; auto.
Qed.

(** ** A sum over blocks that is not zero *)
Lemma sum_pos l : Forall block_ok l -> is_finite (energy_sum l) = true -> 0 < B2R (energy_sum l) -> all_finite l /\ tiny <= exact_sum l.
Proof.
  intros Hb F P. unfold energy_sum in F. destruct (sum_bound l Hb f64_zero eq_refl F) as (_ & HF & _ & B). fold (energy_sum l) in *. change (B2R f64_zero) with 0 in B.
  split; [exact HF|]. destruct (exact_sizeable l Hb HF) as [Z|Z]; auto. rewrite exact_weighted in Z. lra.
Qed.
Lemma div_pos s n : (0 < n < 18446744073709551616)%N -> unsigned s -> positive (f64_div s (f64_of_N n)) -> is_finite s = true /\ 0 < B2R s.
Proof.
  intros Hn Hu (F & P). destruct (of_N_real n ltac:(lia)) as (Fn & _ & _). pose proof (of_N_pos n Hn) as P1. destruct (div_fin _ _ Fn ltac:(lra) F) as (Fs & ER).
  split; auto. destruct (unsigned_real s Hu) as [Q|Q]; auto. rewrite ER in P. unfold real in *. rewrite <- Q in P. unfold Rdiv in P. rewrite Rmult_0_l in P. rewrite rnd_0 in P. lra.
Qed.
Lemma filter_short {A} (p : A -> bool) l : (length (List.filter p l) <= length l)%nat.
Proof. induction l as [|x l IH]; cbn [List.filter length]; auto. destruct (p x); cbn [length]; lia. Qed.
Lemma all_unsigned ls : Forall (Forall block_ok) ls -> forall t, unsigned t -> unsigned (fold_left (fun t l => f64_add t (energy_sum l)) ls t).
Proof. induction 1 as [|l ls Hl _ IH]; intros t Ht; cbn [fold_left]; auto. apply IH, add_unsigned; auto. now apply energy_sum_unsigned'. Qed.
Lemma concat_ok ls : Forall (Forall block_ok) ls -> Forall block_ok (concat ls).
Proof. induction 1; cbn [concat]; [constructor|]. now apply Forall_app. Qed.
Lemma filter_ok p l : Forall block_ok l -> Forall block_ok (List.filter p l).
Proof. intros H. apply Forall_forall. intros b Hin. apply filter_In in Hin. rewrite Forall_forall in H. apply H, Hin. Qed.
Lemma count_pos g l : countable l -> population (at_least g l) <> 0%N -> (0 < population (at_least g l) <= population l)%N /\ (population l < 18446744073709551616)%N.
Proof.
  unfold countable. intros Hc H. split; auto. split; [lia|]. clear. induction l as [|(n, x) l IH]; cbn [at_least List.filter]; [cbn; lia|].
  fold (at_least g l). destruct (f64_ge _ _); rewrite ?population_cons; lia.
Qed.
(** an infinite gate is passed by infinite blocks only *)
Lemma infinite_gate l : Forall block_ok l -> is_finite (energy_sum (at_least f64_inf l)) = true -> at_least f64_inf l = [].
Proof.
  intros Hb F. destruct (at_least f64_inf l) as [|b m] eqn:E; auto. exfalso.
  pose proof (filter_ok (fun b => f64_ge (snd b) f64_inf) l Hb) as Hb'. fold (at_least f64_inf l) in Hb'. rewrite E in Hb'. unfold energy_sum in F.
  destruct (sum_bound _ Hb' f64_zero eq_refl F) as (_ & HF & _). specialize (HF b (or_introl eq_refl)).
  assert (In b (at_least f64_inf l)) as Hin by (rewrite E; now left). apply filter_In in Hin. destruct Hin as (_ & Hin).
  unfold f64_ge, f64_le, f64_inf, Bleb, SpecFloat.SFleb in Hin. destruct (snd b) as [s|s| |s m' e' B']; cbn in *; try discriminate; destruct s; discriminate.
Qed.
Lemma programme_finite E ls : log10_accurate E -> powf_contract E -> Forall (Forall block_ok) ls -> countable (concat ls) -> is_finite (programme_loudness E ls) = true ->
  let l := concat ls in let r := at_least (gate E ls) l in
  is_finite (sum_all ls) = true /\ population l <> 0%N /\ population r <> 0%N /\ positive (f64_div (energy_sum r) (f64_of_N (population r))) /\
  programme_loudness E ls = loudness E (f64_div (energy_sum r) (f64_of_N (population r))).
Proof.
  intros HL HE Hb Hc F l r. unfold programme_loudness, gated in *. fold l in F. change (passing E ls) with r in F.
  destruct (N.eqb_spec (population l) 0) as [|H0]; [discriminate F|]. cbn [negb orb andb] in F. fold l. change (passing E ls) with r.
  destruct (N.eqb_spec (population l) 0) as [|_]; [congruence|]. cbn [negb orb andb].
  destruct (f64_is_nan (sum_all ls)) eqn:En; [discriminate F|]. cbn [orb] in *. destruct (N.eqb_spec (population r) 0) as [|Hr]; [discriminate F|].
  destruct (count_pos (gate E ls) l Hc Hr) as (Hn & Hn'). fold r in Hn. pose proof (concat_ok ls Hb) as Hbl. fold l in Hbl.
  pose proof (filter_ok (fun b => f64_ge (snd b) (gate E ls)) l Hbl) as Hbr. change (Forall block_ok r) in Hbr. pose proof (energy_sum_unsigned' r Hbr) as Ur.
  destruct (of_N_real (population r) ltac:(lia)) as (_ & _ & Un).
  pose proof (finite_loudness E _ HL (div_unsigned _ _ Ur Un) F) as HP.
  destruct (div_pos _ (population r) ltac:(lia) Ur HP) as (Fr & Pr). repeat split; auto; try apply HP.
  pose proof (all_unsigned ls Hb f64_zero eq_refl) as Us. fold (sum_all ls) in Us. destruct (is_finite (sum_all ls)) eqn:Fs; auto. exfalso.
  assert (gate E ls = f64_inf) as Eg.
  { unfold gate, mean_all. fold l. assert (sum_all ls = f64_inf) as ->.
    { destruct (sum_all ls) as [s|s| |s m e B]; try discriminate. unfold unsigned in Us. cbn in Us. now subst s. }
    pose proof (of_N_pos (population l) ltac:(lia)) as P1. destruct (of_N_real (population l) ltac:(lia)) as (F1 & _ & S1). destruct (tenth_bounds E HE) as (FT & BT).
    destruct (f64_of_N (population l)) as [s|s| |s m e B]; try discriminate; cbn in P1; [lra|]. cbn in S1. subst s. change (f64_div f64_inf (B754_finite false m e B)) with f64_inf.
    destruct (tenth E) as [s|s| |s m' e' B']; try discriminate; cbn in BT; [lra|]. destruct s; [|reflexivity]. exfalso.
    assert (F2R (Float radix2 (Z.neg m') e') < 0) by (apply F2R_lt_0; cbn; lia). cbn in BT. lra. }
  unfold r in Fr, Hr. rewrite Eg in *. rewrite (infinite_gate l Hbl Fr) in Hr. now apply Hr.
Qed.
Lemma gate_close E s S n k : powf_contract E -> few (k + 100) -> tiny <= S -> (0 < n < 18446744073709551616)%N -> unsigned s ->
  nearly k (INR k) (real s) S -> is_finite s = true ->
  let g := f64_mul (f64_div s (f64_of_N n)) (tenth E) in
  is_finite g = true -> 0 < S / amount n /\ positive g /\ nearly (k + 85) (INR k + 2) (real g) (S / amount n / 10) /\
  Rabs (lufs (real g) - (lufs (S / amount n) - 10)) <= tolerance (k + 100).
Proof.
  intros HE Hk HS Hn Hu HN Fs g Fg. pose proof tiny_pos. destruct (mul_fin _ _ Fg) as (Fd & _ & _). destruct (mean_near s S n k Hu ltac:(lra) Hn HN Fd) as (Hu' & HN').
  pose proof (mean_faint S n 1 HS Hn ltac:(lra)) as HF1. replace (S / amount n / 1) with (S / amount n) in HF1 by (unfold Rdiv; rewrite Rinv_1; ring).
  pose proof (mean_faint S n 10 HS Hn ltac:(lra)) as HF. pose proof faint_pos.
  assert (0 <= S / amount n) as HM by lra. assert (0 <= S / amount n / 10) as HM' by lra.
  assert (0 <= INR k + 1 + 1 <= 2 ^ 60) as HD.
  { pose proof (few_big _ Hk) as B. rewrite plus_INR in B. pose proof (pos_INR 100). pose proof (pos_INR k). lra. }
  assert (0 <= INR k + 1) as HD' by (pose proof (pos_INR k); lra). assert (1 <= 10) as H10 by lra. destruct (tenth_factor E HE) as (PT & BT).
  pose proof (powf_near _ (S / amount n) (k + 3) (INR k + 1) (tenth E) 10 81 Hu' HM HD' HN' Fg H10 PT BT) as HG. fold g in HG. clear BT.
  replace (k + 3 + 81 + 1)%nat with (k + 85)%nat in HG by lia. replace (INR k + 1 + 1) with (INR k + 2) in * by ring.
  assert (few (k + 85)) as Hk' by (apply few_le with (k + 100)%nat; auto; lia).
  destruct (nearly_lufs (k + 85) (INR k + 2) _ (S / amount n / 10) Hk' HD HM' HG ltac:(auto)) as (P1 & P2 & B). split; [lra|]. split; [split; auto|]. split; auto.
  rewrite lufs_tenth in B by lra. apply tolerance_near. eapply Rle_trans; [exact B|]. pose proof u_pos. assert (INR (k + 85) <= INR (k + 100)) by (apply le_INR; lia). nra.
Qed.
Lemma tolerance_mono m n : (m <= n)%nat -> tolerance m <= tolerance n.
Proof. intros H. unfold tolerance. apply le_INR in H. pose proof u_pos. nra. Qed.
Lemma close_mono m n v V : (m <= n)%nat -> close m v V -> close n v V.
Proof. intros H (F & B). split; auto. pose proof (tolerance_mono m n H). lra. Qed.
Lemma programme_close E ls : log10_accurate E -> powf_contract E -> Forall (Forall block_ok) ls -> countable (concat ls) -> few (roundings ls + 100) ->
  is_finite (programme_loudness E ls) = true ->
  let l := concat ls in let g := gate E ls in
  0 < exact_mean l /\ positive g /\ Rabs (lufs (real g) - (lufs (exact_mean l) - 10)) <= tolerance (roundings ls + 100) /\
  0 < exact_mean (at_least g l) /\ close (roundings ls + 100) (programme_loudness E ls) (lufs (exact_mean (at_least g l))).
Proof.
  intros HL HE Hb Hc Hk F l g. pose proof (programme_finite E ls HL HE Hb Hc F) as X. cbv zeta in X. fold l in X. fold g in X.
  set (r := at_least g l) in X |- *. destruct X as (Fs & H0 & Hr & HP & EP). rewrite EP.
  destruct (count_pos g l Hc Hr) as (Hn & Hn'). fold r in Hn. pose proof (concat_ok ls Hb) as Hbl. fold l in Hbl.
  pose proof (filter_ok (fun b => f64_ge (snd b) g) l Hbl) as Hbr. change (Forall block_ok r) in Hbr. pose proof (energy_sum_unsigned' r Hbr) as Ur.
  destruct (div_pos _ (population r) ltac:(lia) Ur HP) as (Fr & Pr). destruct (sum_pos r Hbr Fr Pr) as (_ & TR).
  destruct (sum_all_near ls Hb Fs) as (_ & Us & NS). fold l in NS.
  unfold sum_all in Fs. destruct (sum_all_bound ls Hb f64_zero eq_refl Fs) as (_ & AF & _). fold (sum_all ls) in Fs. fold l in AF.
  assert (tiny <= exact_sum l) as TL by (pose proof (exact_filter (fun b => f64_ge (snd b) g) l Hbl AF) as X; change (List.filter _ l) with r in X; lra).
  destruct (some_block_passes E ls HE Hb Hc H0 Fs) as (Fg & _).
  destruct (gate_close E (sum_all ls) (exact_sum l) (population l) (roundings ls) HE Hk TL ltac:(lia) Us NS Fs Fg) as (P1 & P2 & _ & B1).
  split; [exact P1|]. split; [exact P2|]. split; [exact B1|].
  destruct (energy_sum_near r Hbr Fr) as (_ & _ & NR).
  assert (2 + length r <= roundings ls)%nat as HR.
  { unfold roundings. fold l. pose proof (filter_short (fun b => f64_ge (snd b) g) l) as X. change (List.filter _ l) with r in X. lia. }
  destruct (mean_close E (energy_sum r) (exact_sum r) (population r) (2 + length r) HL) as (Q1 & _ & Q2); auto; try lia.
  - apply few_le with (roundings ls + 100)%nat; auto. lia.
  - apply HP.
  - split; [exact Q1|]. eapply close_mono; [|exact Q2]. lia.
Qed.

(** ** Against the textbook *)
Lemma lufs_le x y : 0 < x -> 0 < y -> (lufs x <= lufs y <-> x <= y).
Proof.
  intros Hx Hy. pose proof ln10_pos as L. assert (forall a b, 0 < a -> a <= b -> lufs a <= lufs b) as M.
  { intros a b Ha Hab. unfold lufs. pose proof (ln_le' a b Ha Hab). assert (ln a / ln 10 <= ln b / ln 10); [|lra].
    apply Rmult_le_compat_r; auto. left. now apply Rinv_0_lt_compat. }
  split; [|now apply M]. intros H. destruct (Rle_lt_dec x y) as [|Hlt]; auto. exfalso. pose proof (ln_increasing y x Hy Hlt) as HI.
  assert (ln y / ln 10 < ln x / ln 10) by (apply Rmult_lt_compat_r; [now apply Rinv_0_lt_compat|auto]). unfold lufs in H. lra.
Qed.
Lemma same_passing l g t k d : Forall block_ok l -> all_finite l -> 0 < exact_mean l -> 1 <= k -> lufs (exact_mean l / k) = lufs (exact_mean l) - d ->
  positive g -> Rabs (lufs (real g) - (lufs (exact_mean l) - d)) <= t -> clear_of_gate d t l ->
  exact_sum (at_least g l) = exact_sum (textbook_passing k l) /\ population (at_least g l) = population (textbook_passing k l) /\
  expand (at_least g l) = expand (textbook_passing k l).
Proof.
  intros Hb HF PM Hk EG (Fg & Pg) HG HC. unfold textbook_passing, at_least. set (G := exact_mean l / k) in *.
  rewrite <- EG in HG. assert (0 < G) as PG by (apply Rmult_lt_0_compat; [auto|apply Rinv_0_lt_compat; lra]).
  assert (forall n x, In (n, x) l -> n <> 0%N -> f64_ge x g = if Rle_dec G (real x) then true else false) as HS.
  { intros n x Hin Hn. rewrite Forall_forall in Hb. destruct (Hb _ Hin) as (_ & _ & Hs). pose proof (HF _ Hin) as Fx. cbn [snd] in *.
    pose proof (sizeable_nonneg _ (Hs Fx)) as [P|P].
    - specialize (HC n x Hin Hn P). rewrite <- EG in HC. unfold f64_ge, f64_le. rewrite Bleb_correct by auto. unfold real in *.
      assert (B2R g <= B2R x <-> G <= B2R x) as EQ.
      { rewrite <- (lufs_le (B2R g)), <- (lufs_le G) by auto. apply Rabs_le_inv in HG. unfold Rabs in HC. destruct (Rcase_abs _) in HC; split; intros; lra. }
      destruct (Rle_dec G (B2R x)); [apply Rle_bool_true|apply Rle_bool_false, Rnot_le_lt]; tauto.
    - unfold f64_ge, f64_le. rewrite Bleb_correct by auto. unfold real in *. rewrite <- P. destruct (Rle_dec G 0); [lra|]. apply Rle_bool_false. lra. }
  clearbody G. clear - HS. induction l as [|(n, x) l IH]; [repeat split; reflexivity|]. cbn [List.filter snd].
  destruct (IH ltac:(intros; apply HS with n0; auto; now right)) as (I1 & I2 & I3). destruct (N.eq_dec n 0) as [->|Hn].
  - destruct (f64_ge x g), (Rle_dec G (real x)); rewrite ?exact_cons, ?population_cons; cbn [fst snd]; change (amount 0) with 0; rewrite I1, I2; unfold expand in *; cbn [flat_map fst snd repeat N.to_nat app]; rewrite I3; repeat split; try lia; ring.
  - rewrite (HS n x ltac:(now left) Hn). destruct (Rle_dec G (real x)); rewrite ?exact_cons, ?population_cons; rewrite I1, I2; unfold expand in *; cbn [flat_map]; rewrite I3; repeat split; reflexivity.
Qed.
Lemma programme_textbook E ls : log10_accurate E -> powf_contract E -> Forall (Forall block_ok) ls -> countable (concat ls) -> few (roundings ls + 100) ->
  is_finite (programme_loudness E ls) = true -> clear_of_gate 10 (tolerance (roundings ls + 100)) (concat ls) ->
  0 < exact_mean (textbook_passing 10 (concat ls)) /\ close (roundings ls + 100) (programme_loudness E ls) (textbook_programme (concat ls)).
Proof.
  intros HL HE Hb Hc Hk F HC. destruct (programme_close E ls HL HE Hb Hc Hk F) as (P1 & P2 & B & P3 & C).
  destruct (programme_finite E ls HL HE Hb Hc F) as (Fs & _). unfold sum_all in Fs. destruct (sum_all_bound ls Hb f64_zero eq_refl Fs) as (_ & AF & _).
  destruct (same_passing (concat ls) (gate E ls) _ 10 10 (concat_ok ls Hb) AF P1 ltac:(lra) (lufs_tenth _ P1) P2 B HC) as (E1 & E2 & _).
  assert (exact_mean (at_least (gate E ls) (concat ls)) = exact_mean (textbook_passing 10 (concat ls))) as EM by (unfold exact_mean; now rewrite E1, E2).
  unfold textbook_programme. rewrite <- EM. auto.
Qed.

(** ** Relative threshold *)
Lemma threshold_close E l : log10_accurate E -> powf_contract E -> Forall block_ok l -> countable l -> few (length l + 102) -> population l <> 0%N ->
  is_finite (threshold E l) = true -> 0 < exact_mean l /\ close (length l + 102) (threshold E l) (lufs (exact_mean l) - 10).
Proof.
  intros HL HE Hb Hc Hk H0. unfold threshold. destruct (N.eqb_spec (population l) 0) as [|_]; [congruence|]. destruct (f64_is_nan (energy_sum l)); [discriminate|]. intros F.
  unfold countable in Hc. pose proof (energy_sum_unsigned' l Hb) as Us. destruct (of_N_real (population l) ltac:(lia)) as (_ & _ & Un).
  destruct (tenth_bounds E HE) as (FT & BT). assert (unsigned (f64_mul (mean_energy l) (tenth E))) as Ug.
  { apply mul_unsigned. unfold mean_energy. rewrite (div_unsigned _ _ Us Un). rewrite (B2R_pos_sign (tenth E)); [reflexivity|lra]. }
  pose proof (finite_loudness E _ HL Ug F) as HP. destruct (mul_fin _ _ (proj1 HP)) as (Fd & _ & ED).
  assert (positive (mean_energy l)) as Pm.
  { split; auto. unfold mean_energy in *. destruct (unsigned_real _ (div_unsigned _ _ Us Un)) as [Q|Q]; auto. destruct HP as (_ & HP). rewrite ED in HP.
    unfold real in HP, Q. rewrite <- Q, Rmult_0_l, rnd_0 in HP. lra. }
  destruct (div_pos _ (population l) ltac:(lia) Us Pm) as (Fs & Ps). destruct (sum_pos l Hb Fs Ps) as (_ & TL). destruct (energy_sum_near l Hb Fs) as (_ & _ & NS).
  replace (length l + 102)%nat with (2 + length l + 100)%nat in * by lia.
  destruct (gate_close E (energy_sum l) (exact_sum l) (population l) (2 + length l) HE Hk TL ltac:(lia) Us NS Fs (proj1 HP)) as (P1 & P2 & NG & _).
  split; [exact P1|]. fold (exact_mean l) in *. rewrite <- lufs_tenth by auto.
  assert (few (2 + length l + 85)) as Hk' by (apply few_le with (2 + length l + 100)%nat; auto; lia).
  destruct (loudness_near E (2 + length l + 85) (INR (2 + length l) + 2) (f64_mul (mean_energy l) (tenth E)) (exact_mean l / 10) HL Hk') as (_ & C); auto.
  - pose proof (few_big _ Hk) as B. rewrite plus_INR in B. pose proof (pos_INR 100). pose proof (pos_INR (2 + length l)). lra.
  - lra.
  - right. apply mean_faint; auto; [lia|lra].
  - eapply close_mono; [|exact C]. lia.
Qed.

(** ** Loudness range *)
Lemma sub_fin x y : is_finite (f64_sub x y) = true -> is_finite x = true /\ is_finite y = true /\ real (f64_sub x y) = rnd64 (B2R x - B2R y).
Proof.
  intros H. assert (is_finite x = true /\ is_finite y = true) as (Fx & Fy).
  { unfold f64_sub in H. destruct x as [s|s| |s m e B], y as [s'|s'| |s' m' e' B']; cbn in H; try discriminate; auto; destruct (Bool.eqb _ _); discriminate. }
  split; auto. split; auto. pose proof (Bminus_correct 53 1024 Hprec64 Hmax64 mode_NE x y Fx Fy) as X. unfold f64_sub in *. destruct (Rlt_bool _ _).
  - destruct X as (X1 & _). exact X1.
  - destruct X as (X & _). apply overflow_inf in X. congruence.
Qed.
Lemma expand_some l x : In x (expand l) -> exists n, n <> 0%N /\ In (n, x) l.
Proof.
  unfold expand. intros H. apply in_flat_map in H. destruct H as ((n, y) & Hin & Hr). cbn [fst snd] in Hr. exists n.
  pose proof (repeat_spec _ _ _ Hr). subst y. split; auto. intros ->. destruct Hr.
Qed.
Lemma loudness_size E x : log10_accurate E -> positive x -> Rabs (real (loudness E x)) <= 4000.
Proof.
  intros HL Hx. destruct (loudness_close E x HL Hx) as (_ & B). pose proof (positive_log x Hx) as L. apply Rabs_le_inv in B, L. unfold lufs in B.
  assert (/ 2 ^ 37 <= 1). { rewrite <- Rinv_1. apply Rinv_le_contravar; [lra|]. cbn. lra. } apply Rabs_le. lra.
Qed.
Lemma percentiles_in r : r <> [] -> In (high_percentile r) r /\ In (low_percentile r) r.
Proof.
  intros H. assert (0 < length r)%nat as L by (destruct r; [congruence|cbn; lia]). unfold high_percentile, low_percentile. split; apply nth_In.
  - apply Nat.div_lt_upper_bound; lia.
  - apply Nat.div_lt_upper_bound; lia.
Qed.
Lemma mean_bound l : Forall block_ok l -> countable l -> population l <> 0%N -> is_finite (energy_sum l) = true ->
  exists n x, In (n, x) l /\ n <> 0%N /\ is_finite x = true /\ is_finite (mean_energy l) = true /\ sizeable (B2R x) /\ 0 <= B2R (mean_energy l) <= 3 * B2R x.
Proof.
  intros Hb Hc H0 F. unfold energy_sum in F. destruct (sum_bound l Hb f64_zero eq_refl F) as (_ & FX & B1 & B2). fold (energy_sum l) in *. change (B2R f64_zero) with 0 in *.
  destruct (largest_block _ H0) as ((n0, x0) & Hin & Hn0 & HM). cbn [fst snd] in *. exists n0, x0. split; auto. split; auto. pose proof (FX _ Hin) as Fx0. cbn [snd] in Fx0.
  split; auto. rewrite Forall_forall in Hb. destruct (Hb _ Hin) as (_ & _ & HS). cbn [snd] in HS. specialize (HS Fx0). pose proof (sizeable_nonneg _ HS) as P0.
  pose proof (weighted_max l (B2R x0) P0 HM) as HW. set (N0 := population l) in *. unfold countable in Hc. fold N0 in Hc.
  destruct (of_N_real N0 Hc) as (FN & EN & _). pose proof (of_N_pos N0 ltac:(lia)) as PN. pose proof (size_pos N0 H0) as PZ. unfold size_of in *.
  pose proof (rnd_up _ (or_intror (Rle_trans tiny 1 _ ltac:(change 1 with (bpow radix2 0); apply bpow_le; lia) PZ))) as RN. rewrite <- EN in RN.
  set (s := energy_sum l) in *. destruct (div_down s (f64_of_N N0) F FN B1 PN) as (FD & ED). unfold mean_energy. fold s N0. split; auto. split; auto. rewrite ED.
  assert (B2R s / B2R (f64_of_N N0) <= 217 / 100 * B2R x0) as Q1.
  { apply Rmult_le_reg_r with (B2R (f64_of_N N0)); [lra|]. unfold Rdiv. rewrite Rmult_assoc, Rinv_l by lra. rewrite Rmult_1_r.
    assert (B2R s <= 206 / 100 * (IZR (Z.of_N N0) * B2R x0)) by lra.
    assert (IZR (Z.of_N N0) * B2R x0 <= 100 / 99 * B2R (f64_of_N N0) * B2R x0) by (apply Rmult_le_compat_r; lra). nra. }
  split; [apply rnd_nonneg, Rmult_le_pos; [auto|left; apply Rinv_0_lt_compat; lra]|].
  eapply Rle_trans; [apply rnd_mono; exact Q1|]. pose proof (rnd_up _ (sizeable_scale _ (217 / 100) ltac:(lra) HS)). lra.
Qed.
Lemma range_passes E l : powf_contract E -> Forall block_ok l -> countable l -> population l <> 0%N -> is_finite (energy_sum l) = true ->
  expand (at_least (f64_mul (hundredth E) (mean_energy l)) l) <> [].
Proof.
  intros HE Hb Hc H0 F. destruct (mean_bound l Hb Hc H0 F) as (n0 & x0 & Hin & Hn0 & Fx & Fm & HS & Bm).
  destruct (hundredth_bounds E HE) as (FT & BT). assert (f64_mul (hundredth E) (mean_energy l) = f64_mul (mean_energy l) (hundredth E)) as -> by apply Opposite_proofs.mult_comm.
  destruct (mul_down (mean_energy l) (hundredth E) Fm FT (proj1 Bm) ltac:(lra)) as (Fg & EG). set (g := f64_mul (mean_energy l) (hundredth E)) in *.
  assert (B2R g <= B2R x0) as Q. { rewrite EG. rewrite <- (rnd64_generic (B2R x0)) by apply B2R_64. apply rnd_mono. pose proof (sizeable_nonneg _ HS). nra. }
  assert (In (n0, x0) (at_least g l)) as HP.
  { unfold at_least. apply filter_In. split; auto. cbn [snd]. unfold f64_ge, f64_le. rewrite Bleb_correct by auto. now apply Rle_bool_true. }
  apply pop_In in HP. intros X. apply (f_equal (@length f64)) in X. rewrite expand_length in X. cbn in X. lia.
Qed.
Lemma range_gate E l : powf_contract E -> Forall block_ok l -> countable l -> few (length l + 1000) -> population l <> 0%N -> is_finite (energy_sum l) = true ->
  tiny <= exact_sum l -> let g := f64_mul (hundredth E) (mean_energy l) in
  0 < exact_mean l /\ positive g /\ Rabs (lufs (real g) - (lufs (exact_mean l) - 20)) <= tolerance (length l + 1000).
Proof.
  intros HE Hb Hc Hk H0 F TL. cbv zeta. destruct (mean_bound l Hb Hc H0 F) as (n0 & x0 & Hin & Hn0 & Fx & Fm & HS & Bm).
  destruct (hundredth_bounds E HE) as (FT & BT). assert (f64_mul (hundredth E) (mean_energy l) = f64_mul (mean_energy l) (hundredth E)) as -> by apply Opposite_proofs.mult_comm.
  destruct (mul_down (mean_energy l) (hundredth E) Fm FT (proj1 Bm) ltac:(lra)) as (Fg & EG). set (g := f64_mul (mean_energy l) (hundredth E)) in *.
  destruct (energy_sum_near l Hb F) as (_ & Us & NS). unfold countable in Hc. assert (0 < population l < 18446744073709551616)%N as Hn by lia.
  pose proof tiny_pos. assert (0 <= exact_sum l) as HS0 by lra. pose proof (mean_near _ _ _ _ Us HS0 Hn NS Fm) as (Um & HN).
  fold (exact_mean l) in HN. fold (mean_energy l) in HN, Um. set (k := (2 + length l)%nat) in *.
  pose proof (mean_faint _ _ 1 TL Hn ltac:(lra)) as HF1. replace (exact_sum l / amount (population l) / 1) with (exact_mean l) in HF1 by (unfold exact_mean, Rdiv; rewrite Rinv_1; ring).
  pose proof (mean_faint _ _ 100 TL Hn ltac:(lra)) as HF. fold (exact_mean l) in HF. pose proof faint_pos.
  assert (0 <= exact_mean l) as HM by lra. assert (0 <= exact_mean l / 100) as HM' by lra.
  assert (few (k + 805)) as Hk' by (apply few_le with (length l + 1000)%nat; auto; unfold k; lia).
  assert (0 <= INR k + 1 + 1 <= 2 ^ 60) as HD.
  { pose proof (few_big _ Hk') as B. rewrite plus_INR in B. pose proof (pos_INR 805). pose proof (pos_INR k). lra. }
  assert (0 <= INR k + 1) as HD' by (pose proof (pos_INR k); lra). assert (1 <= 100) as H10 by lra.
  assert (nearly (k + 805) (INR k + 1 + 1) (real g) (exact_mean l / 100)) as HG.
  { destruct (hundredth_factor E HE) as (PT & BT').
    pose proof (powf_near _ (exact_mean l) (k + 3) (INR k + 1) (hundredth E) 100 801 Um HM HD' HN Fg H10 PT BT') as HG. fold g in HG.
    replace (k + 3 + 801 + 1)%nat with (k + 805)%nat in HG by (clear; lia). exact HG. }
  destruct (nearly_lufs (k + 805) (INR k + 1 + 1) _ (exact_mean l / 100) Hk' HD HM' HG ltac:(auto)) as (P1 & P2 & B). assert (0 < exact_mean l) as PM by lra.
  split; auto. split; [split; auto|]. rewrite lufs_hundredth in B by auto. apply tolerance_near. eapply Rle_trans; [exact B|]. pose proof u_pos. assert (INR (k + 805) <= INR (length l + 1000)) by (apply le_INR; unfold k; lia). nra.
Qed.
Lemma sum_tiny E l : log10_accurate E -> powf_contract E -> Forall block_ok l -> countable l -> population l <> 0%N ->
  is_finite (energy_sum l) = true -> is_finite (range_of E l) = true -> tiny <= exact_sum l.
Proof.
  intros HL HE Hb Hc H0 F. unfold range_of. destruct (N.eqb_spec (population l) 0) as [|_]; [congruence|]. cbv zeta. set (g := f64_mul (hundredth E) (mean_energy l)).
  set (r := expand (at_least g l)). intros Fv. pose proof (range_passes E l HE Hb Hc H0 F) as Hr. fold g r in Hr. destruct (Nat.eqb_spec (length r) 0) as [Z|_]; [now apply length_zero_iff_nil in Z|].
  destruct (sub_fin _ _ Fv) as (F1 & _ & _). destruct (percentiles_in r Hr) as (I1 & _). apply expand_some in I1. destruct I1 as (n1 & N1 & I1).
  apply filter_In in I1. pose proof Hb as Hb'. rewrite Forall_forall in Hb'. destruct (Hb' _ (proj1 I1)) as (_ & U1 & S1). cbn [snd] in *.
  pose proof (finite_loudness E _ HL U1 F1) as P1. pose proof F as F'. unfold energy_sum in F'. destruct (sum_bound l Hb f64_zero eq_refl F') as (_ & AF & _).
  pose proof (exact_term l _ Hb AF (proj1 I1)) as X. cbn [fst snd] in X. destruct P1 as (Q1 & Q2). pose proof tiny_pos. destruct (S1 Q1) as [Q3|Q3]; [unfold real in Q2; lra|].
  assert (1 <= amount n1) by (apply IZR_le; lia). unfold real in X. nra.
Qed.
Lemma range_close E l : log10_accurate E -> powf_contract E -> Forall block_ok l -> countable l -> few (length l + 1000) -> population l <> 0%N ->
  is_finite (energy_sum l) = true -> is_finite (range_of E l) = true ->
  exists g, let r := expand (at_least g l) in
  0 < exact_mean l /\ positive g /\ Rabs (lufs (real g) - (lufs (exact_mean l) - 20)) <= tolerance (length l + 1000) /\
  positive (high_percentile r) /\ positive (low_percentile r) /\
  Rabs (real (range_of E l) - (lufs (real (high_percentile r)) - lufs (real (low_percentile r)))) <= / 10 ^ 10.
Proof.
  intros HL HE Hb Hc Hk H0 F. unfold range_of. destruct (N.eqb_spec (population l) 0) as [|_]; [congruence|]. cbv zeta. set (g := f64_mul (hundredth E) (mean_energy l)).
  set (r := expand (at_least g l)). intros Fv.
  pose proof (range_passes E l HE Hb Hc H0 F) as Hr. fold g r in Hr. destruct (Nat.eqb_spec (length r) 0) as [Z|_]; [now apply length_zero_iff_nil in Z|].
  destruct (sub_fin _ _ Fv) as (F1 & F2 & ER). destruct (percentiles_in r Hr) as (I1 & I2). apply expand_some in I1, I2. destruct I1 as (n1 & N1 & I1), I2 as (n2 & N2 & I2).
  apply filter_In in I1, I2. cbn [snd] in *. pose proof Hb as Hb'. rewrite Forall_forall in Hb'. destruct (Hb' _ (proj1 I1)) as (_ & U1 & S1). destruct (Hb' _ (proj1 I2)) as (_ & U2 & _). cbn [snd] in *.
  pose proof (finite_loudness E _ HL U1 F1) as P1. pose proof (finite_loudness E _ HL U2 F2) as P2.
  pose proof F as F'. unfold energy_sum in F'. destruct (sum_bound l Hb f64_zero eq_refl F') as (_ & AF & _).
  assert (tiny <= exact_sum l) as TL.
  { pose proof (exact_term l _ Hb AF (proj1 I1)) as X. cbn [fst snd] in X. destruct P1 as (Q1 & Q2). pose proof tiny_pos. destruct (S1 Q1) as [Q3|Q3]; [unfold real in Q2; lra|].
    assert (1 <= amount n1) by (apply IZR_le; lia). unfold real in X. nra. }
  destruct (range_gate E l HE Hb Hc Hk H0 F TL) as (G1 & G2 & G3). exists g. fold r. cbv zeta. repeat split; auto; try apply G2; try apply P1; try apply P2.
  destruct (loudness_close E _ HL P1) as (_ & C1). destruct (loudness_close E _ HL P2) as (_ & C2). rewrite ER.
  pose proof (loudness_size E _ HL P1) as Z1. pose proof (loudness_size E _ HL P2) as Z2.
  set (h := loudness E (high_percentile r)) in *. set (w := loudness E (low_percentile r)) in *. unfold real in C1, C2, Z1, Z2 |- *.
  pose proof (rnd_error (B2R h - B2R w)) as RE. pose proof u_small. pose proof eta_pos. 
  assert (eta <= / 10 ^ 20) as He. { unfold underflow. apply Rinv_le_contravar; [apply pow_lt; lra|]. apply Rle_trans with (2 ^ 100); [cbn; lra|apply Rle_pow; [lra|lia]]. }
  assert (/ 2 ^ 37 <= / 100000000000) as Hq. { apply Rinv_le_contravar; [lra|]. cbn. lra. }
  assert (/ 10 ^ 20 <= / 1000000000000) as Hq'. { apply Rinv_le_contravar; [lra|]. cbn. lra. }
  replace (/ 10 ^ 10) with (/ 10000000000) by (f_equal; cbn; lra).
  assert (Rabs (B2R h - B2R w) <= 8000) as Hb8 by (apply Rabs_le; apply Rabs_le_inv in Z1, Z2; lra).
  assert (u * Rabs (B2R h - B2R w) <= u * 8000) as Hu8 by (apply Rmult_le_compat_l; [apply Rlt_le, u_pos|auto]).
  apply Rabs_le. apply Rabs_le_inv in C1, C2, RE. lra.
Qed.
Lemma range_textbook E l : log10_accurate E -> powf_contract E -> Forall block_ok l -> countable l -> few (length l + 1000) -> population l <> 0%N ->
  is_finite (energy_sum l) = true -> is_finite (range_of E l) = true -> clear_of_gate 20 (tolerance (length l + 1000)) l ->
  Rabs (real (range_of E l) - textbook_range l) <= / 10 ^ 10.
Proof.
  intros HL HE Hb Hc Hk H0 F Fv HC. destruct (range_close E l HL HE Hb Hc Hk H0 F Fv) as (g & G1 & G2 & G3 & _ & _ & B).
  unfold energy_sum in F. destruct (sum_bound l Hb f64_zero eq_refl F) as (_ & AF & _).
  destruct (same_passing l g _ 100 20 Hb AF G1 ltac:(lra) (lufs_hundredth _ G1) G2 G3 HC) as (_ & _ & EX). unfold textbook_range. rewrite <- EX. exact B.
Qed.

(** * Reports *)
Lemma window_close P E e t w v : is_64bit P -> log10_accurate E -> taped P E e t -> recent_loudness E e t w = Ok v -> is_finite v = true -> -300 <= real v ->
  0 < mean_square w (e_cmap e) (signals t) /\ close (w + e_channels e + 4) v (lufs (mean_square w (e_cmap e) (signals t))).
Proof.
  intros HP HL HT HR F H3. destruct w as [|w].
  - exfalso. unfold recent_loudness in HR. destruct (capacity e <? 0); [discriminate|]. injection HR as <-. rewrite energy_0 in F. unfold reported in F.
    change (f64_le f64_nan f64_zero) with false in F. cbv iota in F. rewrite loudness_nan in F by auto. discriminate F.
  - eapply recent_close; eauto. lia.
Qed.
Lemma momentary_close P E e t v : is_64bit P -> log10_accurate E -> taped P E e t -> ask P E e QMomentary = Ret (AValue (Ok v)) -> is_finite v = true -> -300 <= real v ->
  let w := (4 * hop e)%nat in
  0 < mean_square w (e_cmap e) (signals t) /\ close (w + e_channels e + 4) v (lufs (mean_square w (e_cmap e) (signals t))).
Proof.
  intros HP HL HT HA F H3 w. apply (window_close P E e t w v); auto. rewrite (ask_momentary P E e t HP HT) in HA. injection HA as <-. unfold recent_loudness.
  destruct (four_hops P E e t HP HT) as (_ & H4). fold w in H4. destruct (Nat.ltb_spec (capacity e) w); [lia|reflexivity].
Qed.
Lemma shortterm_close P E e t v : is_64bit P -> log10_accurate E -> taped P E e t -> ask P E e QShortterm = Ret (AValue (Ok v)) -> is_finite v = true -> -300 <= real v ->
  let w := (30 * hop e)%nat in
  0 < mean_square w (e_cmap e) (signals t) /\ close (w + e_channels e + 4) v (lufs (mean_square w (e_cmap e) (signals t))).
Proof.
  intros HP HL HT HA F H3 w. apply (window_close P E e t w v); auto. rewrite (ask_shortterm P E e t HP HT) in HA. fold w in HA. now injection HA.
Qed.
Lemma any_window_close P E e t ms v : is_64bit P -> log10_accurate E -> taped P E e t -> (ms <= 4294967295)%N -> ask P E e (QWindow ms) = Ret (AValue (Ok v)) ->
  is_finite v = true -> -300 <= real v ->
  let w := N.to_nat (e_rate e * ms / 1000) in
  0 < mean_square w (e_cmap e) (signals t) /\ close (w + e_channels e + 4) v (lufs (mean_square w (e_cmap e) (signals t))).
Proof.
  intros HP HL HT Hms HA F H3 w. apply (window_close P E e t w v); auto. rewrite (ask_window P E e t ms HP HT Hms) in HA. fold w in HA. now injection HA.
Qed.


Lemma effort_roundings ls : programme_effort ls = (roundings ls + 100)%nat.
Proof. unfold programme_effort, roundings. lia. Qed.
Lemma several_ok P E es : is_64bit P -> Forall (reachable P E) es -> countable (concat (map blocks es)) -> Forall (Forall block_ok) (map blocks es).
Proof.
  intros HP Hr Hc. assert (map blocks es = map contents (map e_block es)) as Hb by now rewrite map_map. rewrite Hb in *. apply blocks_ok; auto.
  apply Forall_map. eapply Forall_impl; [|exact Hr]. intros e He. apply (reachable_histories P E e HP He).
Qed.
Lemma several_close P E es v : is_64bit P -> powf_contract E -> log10_accurate E -> Forall (reachable P E) es -> Forall (fun e => has_I (e_mode e)) es ->
  countable (concat (map blocks es)) -> (N.of_nat (programme_effort (map blocks es)) <= 2 ^ 50)%N ->
  loudness_global_multiple P E es = Ret (Ok v) -> is_finite v = true ->
  let l := concat (map blocks es) in let n := programme_effort (map blocks es) in
  exists g, 0 < exact_mean l /\ positive g /\ Rabs (lufs (real g) - (lufs (exact_mean l) - 10)) <= tolerance n /\
    0 < exact_mean (at_least g l) /\ close n v (lufs (exact_mean (at_least g l))).
Proof.
  intros HP HE HL Hr Hm Hc Hn. rewrite (global_multiple_ok P E es) by auto. intros [= <-] F l n. exists (gate E (map blocks es)).
  unfold n. rewrite effort_roundings in *. apply programme_close; auto; [eapply several_ok; eauto|now apply few_N].
Qed.
Lemma several_textbook P E es v : is_64bit P -> powf_contract E -> log10_accurate E -> Forall (reachable P E) es -> Forall (fun e => has_I (e_mode e)) es ->
  countable (concat (map blocks es)) -> (N.of_nat (programme_effort (map blocks es)) <= 2 ^ 50)%N ->
  loudness_global_multiple P E es = Ret (Ok v) -> is_finite v = true ->
  let l := concat (map blocks es) in let n := programme_effort (map blocks es) in
  clear_of_gate 10 (tolerance n) l -> close n v (textbook_programme l).
Proof.
  intros HP HE HL Hr Hm Hc Hn. rewrite (global_multiple_ok P E es) by auto. intros [= <-] F l n HC.
  unfold n in *. rewrite effort_roundings in *. apply programme_textbook; auto; [eapply several_ok; eauto|now apply few_N].
Qed.
Lemma global_as_several P E e v : has_I (e_mode e) -> ask P E e QGlobal = Ret (AValue (Ok v)) -> loudness_global_multiple P E [e] = Ret (Ok v).
Proof.
  intros Hm H. rewrite global_multiple_one. cbn [ask] in H. destruct (loudness_global P E e) as [r| | |]; try discriminate. cbn [obind] in H. now injection H as ->.
Qed.
Lemma global_close P E e v : is_64bit P -> powf_contract E -> log10_accurate E -> reachable P E e -> has_I (e_mode e) -> countable (blocks e) ->
  (N.of_nat (programme_effort [blocks e]) <= 2 ^ 50)%N -> ask P E e QGlobal = Ret (AValue (Ok v)) -> is_finite v = true ->
  let l := blocks e in let n := programme_effort [blocks e] in
  exists g, 0 < exact_mean l /\ positive g /\ Rabs (lufs (real g) - (lufs (exact_mean l) - 10)) <= tolerance n /\
    0 < exact_mean (at_least g l) /\ close n v (lufs (exact_mean (at_least g l))).
Proof.
  intros HP HE HL Hr Hm Hc Hn HA F l n. apply global_as_several in HA; auto.
  pose proof (several_close P E [e] v HP HE HL ltac:(auto) ltac:(auto) ltac:(cbn [map]; now rewrite concat_one) Hn HA F) as X. cbv zeta in X. cbn [map] in X. rewrite concat_one in X. exact X.
Qed.
Lemma global_textbook P E e v : is_64bit P -> powf_contract E -> log10_accurate E -> reachable P E e -> has_I (e_mode e) -> countable (blocks e) ->
  (N.of_nat (programme_effort [blocks e]) <= 2 ^ 50)%N -> ask P E e QGlobal = Ret (AValue (Ok v)) -> is_finite v = true ->
  let n := programme_effort [blocks e] in
  clear_of_gate 10 (tolerance n) (blocks e) -> close n v (textbook_programme (blocks e)).
Proof.
  intros HP HE HL Hr Hm Hc Hn HA F n HC. apply global_as_several in HA; auto.
  pose proof (several_textbook P E [e] v HP HE HL ltac:(auto) ltac:(auto) ltac:(cbn [map]; now rewrite concat_one) Hn HA F) as X. cbv zeta in X. cbn [map] in X. rewrite concat_one in X. auto.
Qed.
Lemma ask_threshold_close P E e v : is_64bit P -> powf_contract E -> log10_accurate E -> reachable P E e -> has_I (e_mode e) -> countable (blocks e) ->
  (N.of_nat (programme_effort [blocks e]) <= 2 ^ 50)%N -> population (blocks e) <> 0%N -> ask P E e QThreshold = Ret (AValue (Ok v)) -> is_finite v = true ->
  0 < exact_mean (blocks e) /\ close (programme_effort [blocks e]) v (lufs (exact_mean (blocks e)) - 10).
Proof.
  intros HP HE HL Hr Hm Hc Hn H0 HA F. destruct (global_ok P E e HP HE Hr Hc) as (_ & HT & _). rewrite HT in HA by auto. injection HA as <-.
  destruct (blocks_one P E e HP Hr Hc) as (Hb & _). unfold programme_effort in *. rewrite concat_one in *. cbn [length] in *.
  destruct (threshold_close E (blocks e) HL HE Hb Hc ltac:(apply few_N; lia) H0 F) as (A & B). split; auto. eapply close_mono; [|exact B]. lia.
Qed.

Lemma short_ok P E e : is_64bit P -> reachable P E e -> countable (short_blocks e) -> Forall block_ok (short_blocks e).
Proof.
  intros HP Hr Hc. destruct (reachable_histories P E e HP Hr) as (_ & Hb). unfold short_blocks in *.
  pose proof (blocks_ok [e_short e]) as X. cbn [map concat] in X. rewrite app_nil_r in X. specialize (X ltac:(constructor; auto) Hc). now inversion X.
Qed.
Lemma population_perm l m : Permutation l m -> population l = population m.
Proof. induction 1 as [|[]|[] []|]; rewrite ?population_cons; try reflexivity; lia. Qed.
Lemma small_countable l : (population l <= small_count)%N -> countable l.
Proof. unfold countable, small_count. lia. Qed.
Lemma population_singly m : population (singly m) = N.of_nat (length m).
Proof. induction m as [|x m IH]; [reflexivity|]. cbn [singly map length]. fold (singly m). rewrite population_cons, IH. lia. Qed.
Lemma small_few n : (N.of_nat n <= small_count)%N -> few (n + 1000).
Proof. intros H. apply few_N. unfold small_count in H. change (2 ^ 50)%N with 1125899906842624%N. lia. Qed.
Lemma list_range_close P E e m v : is_64bit P -> powf_contract E -> sort_contract E -> log10_accurate E -> reachable P E e -> has_LRA (e_mode e) -> ~ has_HISTOGRAM (e_mode e) ->
  Permutation (short_blocks e) (singly m) -> ascending m -> (N.of_nat (length m) <= small_count)%N -> m <> [] -> is_finite (energy_sum (singly m)) = true ->
  ask P E e QRange = Ret (AValue (Ok v)) -> is_finite v = true ->
  (exists g, let r := List.filter (fun x => f64_ge x g) m in
    0 < exact_mean (singly m) /\ positive g /\ Rabs (lufs (real g) - (lufs (exact_mean (singly m)) - 20)) <= tolerance (range_effort (singly m)) /\
    positive (high_percentile r) /\ positive (low_percentile r) /\
    Rabs (real v - (lufs (real (high_percentile r)) - lufs (real (low_percentile r)))) <= / 10 ^ 10) /\
  (clear_of_gate 20 (tolerance (range_effort (singly m))) (singly m) -> Rabs (real v - textbook_range (singly m)) <= / 10 ^ 10).
Proof.
  intros HP HE HS HL Hr Hm Hh Hp Ha Hn Hm0 F HA Fv.
  assert (countable (singly m)) as Hc by (apply small_countable; now rewrite population_singly).
  assert (Forall block_ok (singly m)) as Hb.
  { eapply Permutation_Forall; [exact Hp|]. eapply short_ok; eauto. unfold countable in *. rewrite (population_perm _ _ Hp). exact Hc. }
  assert (Forall (fun x => f64_is_nan x = false) m) as Hnan.
  { unfold energy_sum in F. destruct (sum_bound _ Hb f64_zero eq_refl F) as (_ & AF & _). apply Forall_forall. intros x Hx. apply finite_not_nan.
    apply (AF (1%N, x)). apply in_map_iff. eauto. }
  rewrite (range_list P E e m) in HA by auto. injection HA as <-.
  assert (population (singly m) <> 0%N) as H0. { rewrite population_singly. destruct m; [congruence|cbn; lia]. }
  assert (length (singly m) = length m) as Hlen by apply map_length.
  assert (few (length (singly m) + 1000)) as Hf by (rewrite Hlen; now apply small_few). split.
  - destruct (range_close E (singly m) HL HE Hb Hc Hf H0 F Fv) as (g & X). cbv zeta in X. exists g. rewrite expand_filter, expand_singly in X. exact X.
  - intros HC. apply range_textbook; auto.
Qed.
Lemma histogram_range_close P E e v : is_64bit P -> powf_contract E -> bsearch_contract E -> log10_accurate E -> reachable P E e -> has_LRA (e_mode e) -> has_HISTOGRAM (e_mode e) ->
  (population (short_blocks e) <= small_count)%N -> population (short_blocks e) <> 0%N ->
  ask P E e QRange = Ret (AValue (Ok v)) -> is_finite v = true ->
  let l := short_blocks e in
  (exists g, let r := expand (at_least g l) in
    0 < exact_mean l /\ positive g /\ Rabs (lufs (real g) - (lufs (exact_mean l) - 20)) <= tolerance (range_effort l) /\
    positive (high_percentile r) /\ positive (low_percentile r) /\
    Rabs (real v - (lufs (real (high_percentile r)) - lufs (real (low_percentile r)))) <= / 10 ^ 10) /\
  (clear_of_gate 20 (tolerance (range_effort l)) l -> Rabs (real v - textbook_range l) <= / 10 ^ 10).
Proof.
  intros HP HE HB HL Hr Hm Hh Hn H0 HA Fv l. pose proof (small_countable _ Hn) as Hc. pose proof (short_ok P E e HP Hr Hc) as Hb.
  rewrite (range_histogram P E e) in HA by auto. injection HA as <-.
  destruct (is_histogram P E e HP Hr Hh) as (b & s & _ & Es & _ & Ls). assert (l = combine s ENERGIES) as El by (unfold l, short_blocks; now rewrite Es).
  assert (is_finite (energy_sum l) = true) as F by (rewrite El; apply bins_finite; auto; rewrite <- El; exact Hc).
  assert (few (length l + 1000)) as Hf. { apply few_N. rewrite El, combine_length, Ls. assert (Nat.min 1000 (length ENERGIES) <= 1000)%nat by lia. change (2 ^ 50)%N with 1125899906842624%N. lia. }
  split.
  - apply range_close; auto.
  - intros HC. apply range_textbook; auto.
Qed.
