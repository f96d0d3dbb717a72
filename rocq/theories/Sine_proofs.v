(** Readings of sinusoids. *)
From Coq Require Import List Arith NArith ZArith Bool Lia Reals Lra Psatz.
From Flocq Require Import Core IEEE754.BinarySingleNaN.
From Verif Require Import Prelude Float Env Tables Utils History Interp Filter Ebur128 Spec Spec_real Spec_filter Spec_coeff Spec_accuracy Spec_exact Spec_programme Spec_normal Spec_response Spec_sine
  Float_proofs Accuracy_proofs Filter_proofs Coeff_proofs Calibration_proofs Lufs_proofs Tight_proofs Bound_proofs Rms_proofs Stream_proofs Exact_proofs Played_proofs Normal_proofs Response_proofs Transient_proofs.
Import ListNotations.
Import Spec_exact.
Local Open Scope R_scope.

(** * The signal of the ideal samples *)
Definition ideal (rate : N) (us : list R) : list R := let (b, a) := coefficientsR (coeff_inputsR (IZR (Z.of_N rate))) in outputsR b a us.
Lemma ideal_signal P rate M delta s us ys : audio_rate rate -> 0 <= delta -> Forall2 (near_channel P rate M) s (weighted rate ys) ->
  Forall2 (fun x y => Rabs (real y - x) <= delta) us ys -> Forall2 (near_channel P rate (wider_by rate M delta)) s (ideal rate us).
Proof.
  intros HR HD HN HA. destruct (wider_by_facts P rate M delta HR HD) as (WE & WL & _).
  set (ds := map2 (fun x y => real y - x) us ys).
  assert (length ds = length us /\ length ys = length us) as (Ld & Ly). { unfold ds. split; [|symmetry; eapply Forall2_length; eauto]. clear - HA. induction HA; cbn [map2 length]; auto. }
  assert (forall d, In d ds -> Rabs d <= delta) as Hd. { unfold ds. clear - HA. induction HA as [|x y xs ys H _ IH]; cbn [map2]; [contradiction|]. intros d [<-|Hd]; auto. }
  assert (map real ys = map2 Rplus us ds) as EY. { unfold ds. clear - HA. induction HA as [|x y xs ys H _ IH]; cbn [map map2]; auto. f_equal; auto. ring. }
  unfold weighted, ideal in *. pose proof (output_19 rate HR ds delta HD Hd) as HO. destruct (coefficientsR (coeff_inputsR (IZR (Z.of_N rate)))) as (B, A). cbn [fst snd] in HO.
  rewrite EY, Heard_proofs.outputs_sum in HN by auto.
  assert (length (outputsR B A ds) = length (outputsR B A us)) as LO by (unfold outputsR; rewrite !filter_run_length; auto).
  revert HN HO LO. generalize (outputsR B A us), (outputsR B A ds). clear - WE WL HD.
  intros l m HN. revert l m HN. induction s as [|y s IH]; intros [|Y l] [|D m] HN HO LO; try discriminate LO; cbn [map2] in HN; inversion_clear HN as [|? ? ? ? (F & H1 & H2) HN']; constructor.
  - pose proof (HO D ltac:(now left)) as HDD. split; auto. rewrite WE. split.
    + replace (real y - Y) with ((real y - (Y + D)) + D) by ring. eapply Rle_trans; [apply Rabs_triang|]. lra.
    + replace Y with ((Y + D) + - D) by ring. eapply Rle_trans; [apply Rabs_triang|]. rewrite Rabs_Ropp. lra.
  - apply (IH l m); auto. intros; apply HO; now right.
Qed.

(** * Its power *)
Lemma recent_seq w Y : (w <= length Y)%nat -> recentR w Y = map (fun k => nth k Y 0) (seq (length Y - w) w).
Proof.
  intros H. unfold recentR. set (k := (length Y - w)%nat). assert (length Y = (w + k)%nat) as E by lia. rewrite skipn_app, skipn_all2 by (rewrite repeat_length; lia). rewrite repeat_length. cbn [app].
  replace (length Y - w)%nat with k by lia. apply (nth_ext _ _ 0 0).
  - rewrite skipn_length, map_length, seq_length. lia.
  - intros i Hi. rewrite skipn_length in Hi. rewrite (nth_indep (map _ _) 0 (nth 0 Y 0)) by (rewrite map_length, seq_length; lia). rewrite (map_nth (fun k => nth k Y 0)), seq_nth by lia.
    clearbody k. clear - E. revert Y E. generalize w. induction k as [|k IH]; intros w' Y E; [reflexivity|]. destruct Y as [|y Y]; [cbn in E; lia|]. cbn [skipn Nat.add nth]. apply (IH w'). cbn [length] in E. lia.
Qed.
Lemma channel_power rate f p q n w : audio_rate rate -> let r := IZR (Z.of_N rate) in 0 < f -> 2 * f < r -> / 100 <= power_gain r f -> (1 <= w)%nat -> r + 2 * INR w <= 2 * INR n ->
  let m := power_gain r f * ((p ^ 2 + q ^ 2) / 2) in
  Rabs (total (map (fun y => y * y) (recentR w (ideal rate (first n (sinusoid r f p q))))) / INR w - m) <= (odd_period rate f w + / 10 ^ 6) * m.
Proof.
  intros HR r H0 H1 HG Hw Hn m. pose proof (audio_real rate HR) as (R1 & R2). fold r in R1, R2. destruct (response_soon rate HR f ltac:(lra) H1 p q) as (p' & q' & E & B). fold r in E, B.
  destruct (half_angle f r ltac:(lra) ltac:(lra) H1) as (X0 & X4). set (x := PI * f / r) in *.
  assert (0 < x) as X1. { unfold x. apply Rdiv_lt_0_compat; [|lra]. apply Rmult_lt_0_compat; [apply PI_RGT_0|lra]. }
  assert (0 < sin (2 * x)) as HS by (apply sin_gt_0; lra).
  set (Y := ideal rate (first n (sinusoid r f p q))). assert (length Y = n) as LY. { unfold Y, ideal. fold r. destruct (coefficientsR _) as (b, a). rewrite outputs_length. apply first_length. }
  assert (w <= n)%nat as Hwn. { apply INR_le. pose proof (pos_INR n). lra. }
  rewrite recent_seq by lia. rewrite LY, map_map. set (A := sqrt (p ^ 2 + q ^ 2)) in *. assert (0 <= A) as HA by apply sqrt_pos. assert (A * A = p ^ 2 + q ^ 2) as EA by (apply sqrt_sqrt; nra).
  pose proof (near_power x p' q' (n - w) w (fun k => nth k Y 0) (A / 10 ^ 8) HS ltac:(lia) ltac:(apply Rmult_le_pos; [auto|left; apply Rinv_0_lt_compat, pow_lt; lra])) as NP.
  assert (forall k, (n - w <= k < n - w + w)%nat -> Rabs (nth k Y 0 - wave x p' q' k) <= A / 10 ^ 8) as HK.
  { intros k Hk. unfold x. rewrite <- wave_sinusoid. unfold Y, ideal. fold r. specialize (B n k ltac:(lia)). destruct (coefficientsR (coeff_inputsR r)) as (b, a). cbn [fst snd] in B. apply B.
    assert (INR (n - w) <= INR k) by (apply le_INR; lia). rewrite minus_INR in H by auto. lra. }
  specialize (NP HK). cbv zeta in NP. set (g := power_gain r f) in *. set (T := total _ / INR w) in *. clearbody T. clear HK B.
  replace (p' * p' + q' * q') with (g * (A * A)) in NP by (rewrite EA, <- E; ring). replace m with (g * (A * A) / 2) by (unfold m; rewrite EA; field).
  eapply Rle_trans; [exact NP|]. rewrite Rmult_plus_distr_r, Rplus_comm. apply Rplus_le_compat.
  - right. unfold odd_period. fold r. replace (2 * PI * f / r) with (2 * x) by (unfold x, Rdiv; ring). pose proof (lt_0_INR w ltac:(lia)). field. lra.
  - rewrite sqrt_mult by nra. rewrite sqrt_square by auto. set (sg := sqrt g). assert (sg * sg = g) as ESg by (apply sqrt_sqrt; lra). assert (0 <= sg) as Sg0 by apply sqrt_pos. assert (/ 10 <= sg) as Sg1. { destruct (Rle_lt_dec (/ 10) sg) as [|L]; auto. nra. }
    clearbody sg. rewrite <- ESg. replace (A / 10 ^ 8 * (2 * (sg * A) + A / 10 ^ 8)) with (A * A * (2 / 10 ^ 8 * sg + / 10 ^ 16)) by (field; cbn; lra).
    replace (/ 10 ^ 6 * (sg * sg * (A * A) / 2)) with (A * A * (/ 10 ^ 6 * (sg * sg) / 2)) by (field; cbn; lra). apply Rmult_le_compat_l; [nra|]. cbn. nra.
Qed.
Lemma sines_power rate f n w : audio_rate rate -> let r := IZR (Z.of_N rate) in 0 < f -> 2 * f < r -> / 100 <= power_gain r f -> (1 <= w)%nat -> r + 2 * INR w <= 2 * INR n ->
  forall roles ts, length ts = length roles -> let z := power_gain r f * sine_power roles ts in
  Rabs (mean_of w roles (map (fun t => ideal rate (first n (sinusoid r f (fst t) (snd t)))) ts) - z) <= (odd_period rate f w + / 10 ^ 6) * z.
Proof.
  intros HR r H0 H1 HG Hw Hn roles. unfold mean_of, sine_power. pose proof (lt_0_INR w ltac:(lia)) as W. induction roles as [|ch roles IH]; intros [|(p, q) ts] L; try discriminate L; cbv zeta.
  - cbn. unfold Rdiv. rewrite Rmult_0_l, !Rmult_0_r, Rminus_0_r, Rabs_R0. lra.
  - cbn [map combine fst snd]. injection L as L. specialize (IH ts L). cbv zeta in IH. change (total (?x :: ?l)) with (x + total l).
    pose proof (channel_power rate f p q n w HR H0 H1 HG Hw Hn) as CP. cbv zeta in CP. fold r in CP. set (T := total (map (fun y => y * y) _)) in *. set (S := total (map _ (combine roles (map _ ts)))) in *. set (V := total (map _ (combine roles ts))) in *.
    set (k := odd_period rate f w + / 10 ^ 6) in *. set (g := power_gain r f) in *. set (h := (p ^ 2 + q ^ 2) / 2) in *. pose proof (weight_pos ch) as HW. set (u := weight ch) in *. clearbody T S V k g h u.
    replace ((u * T + S) / INR w - g * (u * h + V)) with (u * (T / INR w - g * h) + (S / INR w - g * V)) by (field; lra). eapply Rle_trans; [apply Rabs_triang|]. rewrite Rabs_mult, (Rabs_pos_eq u) by auto.
    replace (k * (g * (u * h + V))) with (u * (k * (g * h)) + k * (g * V)) by ring. apply Rplus_le_compat; auto. now apply Rmult_le_compat_l.
Qed.

(** * Loudness of powers with a small relative difference *)
Lemma lufs_relative x z k : 0 < z -> 0 <= k <= 0.11 -> Rabs (x - z) <= k * z -> 0.89 * z <= x /\ Rabs (lufs x - lufs z) <= 6 * k.
Proof.
  intros Hz Hk B. apply Rabs_le_inv in B. assert (0.89 * z <= x) as H by nra. split; auto. assert (0 < x) as Hx by nra. pose proof ln10_5 as L10. unfold lufs.
  pose proof (ln_below (x / z) ltac:(apply Rdiv_lt_0_compat; lra)) as B1. pose proof (ln_above (x / z) ltac:(apply Rdiv_lt_0_compat; lra)) as A1.
  assert (ln (x / z) = ln x - ln z) as EL by (unfold Rdiv; rewrite ln_mult, ln_Rinv by (try apply Rinv_0_lt_compat; lra); ring). rewrite EL in A1, B1.
  assert (x / z - 1 <= k) as B2. { apply Rmult_le_reg_r with z; [lra|]. replace ((x / z - 1) * z) with (x - z) by (field; lra). lra. }
  assert (- (1.125 * k) <= 1 - / (x / z)) as A2. { apply Rmult_le_reg_r with x; [lra|]. replace ((1 - / (x / z)) * x) with (x - z) by (field; lra). nra. }
  replace (10 * (ln x / ln 10) - 691 / 1000 - (10 * (ln z / ln 10) - 691 / 1000)) with (10 * (ln x - ln z) * / ln 10) by (field; lra).
  assert (0 < / ln 10 <= / 2.23) as IL by (split; [apply Rinv_0_lt_compat; lra|apply Rinv_le_contravar; lra]). assert (/ 2.23 <= 0.449) as IV by lra.
  rewrite Rabs_mult, (Rabs_pos_eq (/ ln 10)) by lra. assert (Rabs (10 * (ln x - ln z)) <= 11.25 * k) as HB by (apply Rabs_le; lra).
  apply Rle_trans with (11.25 * k * 0.449); [apply Rmult_le_compat; try lra; apply Rabs_pos|lra].
Qed.

(** * Readings *)
Lemma sine_reading P E M f delta e t ts n xss q w v : is_64bit P -> log10_accurate E -> tan_precise E -> powf_accurate E -> audio_rate (e_rate e) -> 0 <= M <= 2 ^ 370 -> 0 <= delta <= M -> heard_all P E M e t xss -> plays_sines (e_rate e) f delta (e_cmap e) ts n xss ->
  reads_last e q w -> ask P E e q = Ret (AValue (Ok v)) ->
  let r := IZR (Z.of_N (e_rate e)) in 0 < f -> 2 * f < r -> / 100 <= power_gain r f -> r + 2 * INR w <= 2 * INR n -> odd_period (e_rate e) f w <= / 10 ->
  let z := power_gain r f * sine_power (e_cmap e) ts in let d := gain_error P (e_rate e) M delta (e_cmap e) in
  / 10 ^ 29 <= z -> 5 * d <= sqrt z ->
  is_finite v = true /\ Rabs (real v - lufs z) <= 14 * (d / sqrt z) + 6 * odd_period (e_rate e) f w + / 10 ^ 5 + tolerance (w + e_channels e + 4).
Proof.
  intros HP HL HT HW HR HM HD HH (LT & HA) Hq HAsk r H0 H1 HG Hn HO. pose proof HH as (_ & HTa & HHs). destruct (reads_recent P E e t q w v HP HTa Hq HAsk) as (Hw1 & HRec).
  assert (0 <= M <= 2 ^ 400) as HM4 by (split; [lra|]; apply Rle_trans with (2 ^ 370); [lra|apply Rle_pow; [lra|lia]]).
  destruct (heard_near P E M e t xss HP HT HW HR HM4 HH) as (LC & LS & LX & HN).
  destruct (capacity_few P E e HP (taped_reachable P E e t HTa)) as (HK & H64). destruct (wider_by_facts P (e_rate e) M delta HR ltac:(lra)) as (WE & WL & WU).
  assert (0 <= wider_by (e_rate e) M delta <= 2 ^ 400) as HW4.
  { split; [lra|]. eapply Rle_trans; [exact WU|]. replace (2 ^ 400) with (2 ^ 30 * 2 ^ 370) by (rewrite <- pow_add; reflexivity). set (z := 2 ^ 370) in *. clearbody z. assert (2 ^ 28 * delta <= 2 ^ 28 * z) by (apply Rmult_le_compat_l; [cbn; lra|lra]). cbn in *. lra. }
  intros z d. assert (d = rms_error P (e_rate e) (wider_by (e_rate e) M delta) (e_cmap e)) as Ed by (unfold d, gain_error, rms_error; now rewrite WE).
  pose proof (sines_power (e_rate e) f n w HR H0 H1 HG Hw1 Hn (e_cmap e) ts LT) as SP. cbv zeta in SP. fold r in SP. fold z in SP.
  set (Yss := map (fun t => ideal (e_rate e) (first n (sinusoid r f (fst t) (snd t)))) ts) in *. set (Z := mean_of w (e_cmap e) Yss) in *. intros HZ H5.
  assert (0 < / 10 ^ 29) as P29 by (apply Rinv_0_lt_compat, pow_lt; lra). assert (0 < z) as Z0 by lra.
  assert (0 < odd_period (e_rate e) f w) as HO0.
  { unfold odd_period. fold r. pose proof (audio_real (e_rate e) HR) as (R1 & R2). fold r in R1, R2. destruct (half_angle f r ltac:(lra) ltac:(lra) H1) as (X0 & X4). pose proof PI_RGT_0 as HPI.
    assert (0 < PI * f / r) as X1 by (apply Rdiv_lt_0_compat; [nra|lra]). replace (2 * PI * f / r) with (2 * (PI * f / r)) by (unfold Rdiv; ring). apply Rinv_0_lt_compat. apply Rmult_lt_0_compat; [apply lt_0_INR; lia|]. apply sin_gt_0; lra. }
  destruct (lufs_relative Z z (odd_period (e_rate e) f w + / 10 ^ 6) Z0 ltac:(split; [|]; cbn; lra) SP) as (Z9 & LZ).
  assert (0 <= d) as D0. { unfold d, gain_error. apply Rmult_le_pos; [apply sqrt_pos|]. pose proof (filter_error_pos P (e_rate e) M ltac:(lra)). lra. }
  assert (0.94 * sqrt z <= sqrt Z) as SZ. { rewrite <- (sqrt_square 0.94) by lra. rewrite <- sqrt_mult by lra. apply sqrt_le_1_alt. lra. }
  pose proof (sqrt_lt_R0 z Z0) as S0.
  unfold recent_loudness in HRec. destruct (Nat.ltb_spec (capacity e) w) as [|Hc]; [discriminate|]. unfold reported in HRec. injection HRec as <-.
  assert (INR w <= 2 ^ 50 - 100) as HwR. { rewrite pow_IZR, INR_IZR_INZ. change (Z.of_nat 50) with 50%Z. rewrite <- minus_IZR. apply IZR_le. change (2 ^ 50)%N with 1125899906842624%N in HK. change (2 ^ 50)%Z with 1125899906842624%Z. lia. }
  assert (few (w + e_channels e + 4)) as Hf by (apply few_N; lia).
  refine (_ (energy_exact_of P E (e_rate e) (wider_by (e_rate e) M delta) (capacity e) w (e_cmap e) (signals t) Yss (w + e_channels e + 4) d HL HR HW4 Hw1 HwR ltac:(lia) LS ltac:(unfold Yss; rewrite !map_length; auto) _ Hf ltac:(lia) Ed _ _)).
  - fold Z. intros (HX & F & _ & B).
    assert (f64_le (energy (capacity e) w (e_cmap e) (signals t)) f64_zero = false) as ->.
    { destruct HX as (Fx & Px). unfold f64_le. rewrite (Bleb_correct _ _ _ f64_zero Fx eq_refl). apply Rle_bool_false. exact Px. }
    split; auto. set (y := real (loudness E _)) in *. replace (y - lufs z) with ((y - lufs Z) + (lufs Z - lufs z)) by ring. eapply Rle_trans; [apply Rabs_triang|].
    assert (12 * (d / sqrt Z) <= 14 * (d / sqrt z)) as X.
    { apply Rmult_le_reg_r with (sqrt Z * sqrt z); [apply Rmult_lt_0_compat; lra|]. replace (12 * (d / sqrt Z) * (sqrt Z * sqrt z)) with (12 * d * sqrt z) by (field; lra). replace (14 * (d / sqrt z) * (sqrt Z * sqrt z)) with (14 * d * sqrt Z) by (field; lra). nra. }
    cbn [pow] in *. lra.
  - intros c Hcc Hu. unfold Yss. rewrite (nth_indep _ [] (ideal (e_rate e) (first n (sinusoid r f (fst (0, 0)) (snd (0, 0)))))) by (rewrite map_length; lia). rewrite (map_nth (fun t => ideal (e_rate e) (first n (sinusoid r f (fst t) (snd t))))).
    exact (ideal_signal P (e_rate e) M delta _ _ (nth c xss []) HR ltac:(lra) (HN c Hcc Hu) (HA c Hcc Hu)).
  - fold Z. apply Rle_trans with (0.89 * z); [|lra]. cbn [pow] in *. lra.
  - fold Z. lra.
Qed.

(** * 997 Hz *)
Lemma odd_997 e w : (32000 <= e_rate e <= 768000)%N -> (4 * hop e <= w)%nat -> 0 <= odd_period (e_rate e) 997 w <= 0.00041.
Proof.
  intros HR Hw. unfold odd_period. set (r := IZR (Z.of_N (e_rate e))). assert (32000 <= r <= 768000) as (R1 & R2) by (unfold r; split; apply IZR_le; lia).
  assert (0.4 * (r - 4) <= INR w) as W.
  { apply Rle_trans with (INR (4 * hop e)); [|now apply le_INR]. rewrite mult_INR. replace (INR 4) with 4 by (cbn; lra). unfold hop, hundred_ms. rewrite INR_IZR_INZ, N_nat_Z.
    assert (r - 4 <= 10 * IZR (Z.of_N ((e_rate e + 5) / 10))); [|lra]. unfold r. rewrite <- minus_IZR, <- mult_IZR. apply IZR_le. pose proof (N.div_mod' (e_rate e + 5) 10) as D. pose proof (N.mod_upper_bound (e_rate e + 5) 10 ltac:(lia)). lia. }
  pose proof PI_digits as HPI. set (y := 2 * PI * 997 / r). assert (y * r = 2 * PI * 997) as EY by (unfold y; field; lra). assert (0 < y) as Y0 by (unfold y; apply Rdiv_lt_0_compat; lra).
  assert (y <= 0.1958) as Y1 by nra. pose proof (sin_poly y ltac:(lra)) as (S1 & _). assert (0.993 * y <= sin y) as S2. { replace (y ^ 3) with (y * (y * y)) in S1 by ring. assert (y * y <= 0.1958 * 0.1958) by nra. nra. }
  clearbody y. assert (2440 <= INR w * sin y) as B. { apply Rle_trans with (0.4 * (r - 4) * (0.993 * y)); [nra|]. apply Rmult_le_compat; nra. }
  split; [left; apply Rinv_0_lt_compat; lra|]. apply Rle_trans with (/ 2440); [apply Rinv_le_contravar; lra|lra].
Qed.
Lemma sine_calibrated P E M delta e t ts n xss q w v : is_64bit P -> log10_accurate E -> tan_precise E -> powf_accurate E -> (32000 <= e_rate e <= 768000)%N -> 0 <= M <= 2 ^ 370 -> 0 <= delta <= M -> heard_all P E M e t xss -> plays_sines (e_rate e) 997 delta (e_cmap e) ts n xss ->
  (q = QMomentary /\ w = 4 * hop e \/ q = QShortterm /\ w = 30 * hop e)%nat -> ask P E e q = Ret (AValue (Ok v)) -> IZR (Z.of_N (e_rate e)) / 2 + INR w <= INR n ->
  let a := sine_power (e_cmap e) ts in let d := gain_error P (e_rate e) M delta (e_cmap e) in
  / 10 ^ 29 <= a -> 5 * d <= sqrt a ->
  is_finite v = true /\ Rabs (real v - 10 * (ln a / ln 10)) <= 14 * (d / sqrt a) + 0.11 /\
  (e_rate e = 48000%N -> Rabs (real v - 10 * (ln a / ln 10)) <= 14 * (d / sqrt a) + 0.005).
Proof.
  intros HP HL HT HW HR32 HM HD HH HPl Hq HAsk Hn a d Ha H5. assert (audio_rate (e_rate e)) as HR by (unfold audio_rate; lia). assert (32000 <= IZR (Z.of_N (e_rate e)) <= 768000) as (R1 & R2) by (split; apply IZR_le; lia).
  pose proof (gain_from_32000 _ R1) as HG. assert (4 * hop e <= w)%nat as Hw4 by (destruct Hq as [(_ & ->)|(_ & ->)]; lia). pose proof (odd_997 e w HR32 Hw4) as HO.
  assert (INR w <= 2400000) as HW2 by (destruct (hop_large e HR) as (_ & A & B); destruct Hq as [(_ & ->)|(_ & ->)]; auto).
  destruct (Nat.le_gt_cases (e_channels e) 64) as [H64|H64]; [|exfalso; destruct HH as (_ & HTa & _); destruct (capacity_few P E e HP (taped_reachable P E e t HTa)); lia].
  assert (0 < / 10 ^ 29) as P29 by (apply Rinv_0_lt_compat, pow_lt; lra). set (r := IZR (Z.of_N (e_rate e))) in *.
  assert (sqrt a <= sqrt (power_gain r 997 * a)) as SA by (apply sqrt_le_1_alt; nra). pose proof (sqrt_lt_R0 a ltac:(lra)) as S0.
  assert (0 <= d) as D0. { unfold d, gain_error. apply Rmult_le_pos; [apply sqrt_pos|]. pose proof (filter_error_pos P (e_rate e) M ltac:(lra)). lra. }
  destruct (sine_reading P E M 997 delta e t ts n xss q w v HP HL HT HW HR HM HD HH HPl) as (F & B); auto; fold r; try lra.
  { destruct Hq as [X|X]; [now left|right; now left]. }
  { fold a. nra. }
  { fold a d. lra. }
  split; auto. fold r a d in B. assert (14 * (d / sqrt (power_gain r 997 * a)) <= 14 * (d / sqrt a)) as X. { apply Rmult_le_compat_l; [lra|]. unfold Rdiv. apply Rmult_le_compat_l; auto. apply Rinv_le_contravar; auto. }
  assert (tolerance (w + e_channels e + 4) <= / 10 ^ 6) as TL.
  { unfold tolerance. rewrite !plus_INR. assert (INR (e_channels e) <= 64) by (replace 64 with (INR 64) by (rewrite INR_IZR_INZ; reflexivity); now apply le_INR). replace (INR 4) with 4 by (cbn; lra). pose proof u_value as U. cbn [pow]. pose proof (pos_INR w). pose proof (pos_INR (e_channels e)). unfold roundoff in *. cbn [pow] in *. lra. }
  assert (forall k, Rabs (lufs (power_gain r 997 * a) - 10 * (ln a / ln 10)) <= k -> Rabs (real v - 10 * (ln a / ln 10)) <= 14 * (d / sqrt a) + k + 0.0026) as G.
  { intros k Hk. replace (real v - 10 * (ln a / ln 10)) with ((real v - lufs (power_gain r 997 * a)) + (lufs (power_gain r 997 * a) - 10 * (ln a / ln 10))) by ring. eapply Rle_trans; [apply Rabs_triang|]. cbn [pow] in *. lra. }
  split; [pose proof (G _ (calibration_from_32000 r a R1 ltac:(lra))); lra|]. intros E48. assert (r = 48000) as E8 by (unfold r; rewrite E48; reflexivity). rewrite E8 in G. pose proof (G _ (calibration_48000 a ltac:(lra))). lra.
Qed.
(** two front channels of equal amplitude: that amplitude in dB relative to full scale *)
Lemma sine_stereo P E M delta e t p q p' q' A n xss qu w v : is_64bit P -> log10_accurate E -> tan_precise E -> powf_accurate E -> e_rate e = 48000%N -> e_cmap e = [Left; Right] -> 0 <= M <= 2 ^ 370 -> 0 <= delta <= M -> heard_all P E M e t xss ->
  plays_sines (e_rate e) 997 delta (e_cmap e) [(p, q); (p', q')] n xss -> p ^ 2 + q ^ 2 = A ^ 2 -> p' ^ 2 + q' ^ 2 = A ^ 2 ->
  (qu = QMomentary /\ w = 4 * hop e \/ qu = QShortterm /\ w = 30 * hop e)%nat -> ask P E e qu = Ret (AValue (Ok v)) -> 24000 + INR w <= INR n ->
  / 10 ^ 14 <= A -> 10 * filter_error P 48000 M + 200 * delta <= A ->
  is_finite v = true /\ Rabs (real v - 20 * (ln A / ln 10)) <= 20 * ((filter_error P 48000 M + 19.5 * delta) / A) + 0.005.
Proof.
  intros HP HL HT HW HR HC HM HD HH HPl EA EA' Hq HAsk Hn HA HE.
  assert (sine_power (e_cmap e) [(p, q); (p', q')] = A * A) as ES. { unfold sine_power. rewrite HC. cbn [combine map weight]. rewrite EA, EA'. unfold total. cbn [fold_right]. field. }
  pose proof (filter_error_pos P 48000 M ltac:(lra)) as FP. assert (0 < / 10 ^ 14) as P14 by (apply Rinv_0_lt_compat, pow_lt; lra).
  assert (sqrt 2 <= 1.4143) as S2. { rewrite <- (sqrt_square 1.4143) by lra. apply sqrt_le_1_alt. lra. }
  assert (gain_error P (e_rate e) M delta (e_cmap e) <= 1.4143 * (filter_error P 48000 M + 19.5 * delta)) as GE.
  { unfold gain_error. rewrite HC, HR. assert (total (map weight [Left; Right]) = 2) as -> by (cbn; lra). apply Rmult_le_compat_r; lra. }
  destruct (sine_calibrated P E M delta e t [(p, q); (p', q')] n xss qu w v HP HL HT HW ltac:(rewrite HR; lia) HM HD HH HPl Hq HAsk) as (F & _ & B).
  - rewrite HR. change (IZR (Z.of_N 48000)) with 48000. lra.
  - rewrite ES. apply Rle_trans with (/ 10 ^ 14 * / 10 ^ 14); [cbn; lra|]. apply Rmult_le_compat; lra.
  - rewrite ES, sqrt_square by lra. lra.
  - split; auto. specialize (B HR). rewrite ES, sqrt_square in B by lra. rewrite ln_mult in B by lra. replace (10 * ((ln A + ln A) / ln 10)) with (20 * (ln A / ln 10)) in B by (unfold Rdiv; ring).
    eapply Rle_trans; [exact B|]. apply Rplus_le_compat_r. unfold Rdiv. rewrite <- !Rmult_assoc. apply Rmult_le_compat_r; [left; apply Rinv_0_lt_compat; lra|]. lra.
Qed.
