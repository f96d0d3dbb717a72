(** The true peak against the exact oversampled signal. *)
From Coq Require Import List Arith NArith ZArith Bool Lia Reals Lra Psatz.
From Flocq Require Import Core IEEE754.BinarySingleNaN.
From Verif Require Import Prelude Float Env Utils History Interp TruePeak Filter Ebur128 Ref Spec Spec_real Spec_response Spec_interp
  Prelude_proofs Float_proofs Ebur128_proofs Ops_proofs Chunk_proofs Reach_proofs Input_proofs Trace_proofs Format_proofs Feed_proofs Peak_proofs Lufs_proofs Noise_proofs
  Coeff_proofs Taps_proofs Ripple_proofs Tone_proofs Oversample_proofs.
Import ListNotations.
Local Open Scope R_scope.

(** * The readings of a sample agree *)
Definition agreeing (r : reading) : Prop := is_finite (r_64 r) = true -> Rabs (real (r_64 r)) <= 2 ^ 100 ->
  near32 (r_32 r) (real (r_64 r)) (v * Rabs (real (r_64 r)) + w) /\ is_finite (r_level r) = true /\ Rabs (real (r_level r) - Rabs (real (r_64 r))) <= w.
Lemma tiny_1022 : / 2 ^ 1022 <= w.
Proof. apply Rinv_le_contravar; [apply pow_lt; lra|apply Rle_pow; [lra|lia]]. Qed.
Lemma agreeing_f64 P y : agreeing (read P smp_f64 y).
Proof.
  intros F B. rewrite level_f64. change (r_64 (read P smp_f64 y)) with y in *. change (r_32 (read P smp_f64 y)) with (ftz32 P (f32_of_f64 y)).
  assert (Rabs (B2R y) <= 2 ^ 110) as B' by (pose proof pow_105; pose proof pow_100; unfold real in B; set (a := 2 ^ 100) in *; set (b := 2 ^ 105) in *; set (c := 2 ^ 110) in *; clearbody a b c; lra).
  split; [|split].
  - apply settle. pose proof (rnd32_fits _ B') as O. destruct (f32_of_f64_rounded y F) as (F' & E' & _); [apply Rnot_le_lt; intros G; apply Rlt_bool_false in G; congruence|]. auto.
  - rewrite (proj1 (flush_near P (f64_abs y))). unfold f64_abs. now rewrite is_finite_Babs.
  - pose proof (proj2 (flush_near P (f64_abs y))) as N. unfold real, f64_abs in *. rewrite B2R_Babs in N. pose proof tiny_1022. lra.
Qed.
Lemma agreeing_f32 P x : agreeing (read P smp_f32 x).
Proof.
  intros F B. rewrite level_f32. change (r_64 (read P smp_f32 x)) with (f64_of_f32 x) in *. change (r_32 (read P smp_f32 x)) with x.
  assert (is_finite x = true) as Fx by (destruct x; auto; discriminate F).
  destruct (f64_of_f32_finite x Fx) as (_ & E & _). assert (is_finite (f32_abs x) = true) as Fa by (unfold f32_abs; now rewrite is_finite_Babs).
  destruct (f64_of_f32_finite (f32_abs x) Fa) as (F2 & E2 & _). pose proof w_small as (W & _). pose proof (Rabs_pos (B2R x)).
  unfold near32, real, real32. rewrite E, E2. unfold f32_abs. rewrite B2R_Babs, !Rminus_eq_0, Rabs_R0. set (ww := / 2 ^ 125) in *. clearbody ww. repeat split; auto; lra.
Qed.
Lemma channel_samples_all {T} (Q : T -> Prop) C c l : Forall Q l -> Forall Q (channel_samples C c l).
Proof.
  intros H. apply Forall_forall. intros x Hx. unfold channel_samples in Hx. apply in_flat_map in Hx. destruct Hx as (k & _ & Hk).
  destruct (nth_error l (k * C + c)) as [y|] eqn:E; [|destruct Hk]. destruct Hk as [->|[]]. rewrite Forall_forall in H. apply H. eapply nth_error_In; eauto.
Qed.
Lemma interleaved_all {T} P (S : sample T) (Q : reading -> Prop) C l cols : Forall (fun x => Q (read P S x)) l -> interleaved_input P S C l = Some cols -> Forall (Forall Q) cols.
Proof.
  intros H E. unfold interleaved_input in E. destruct (_ =? _)%nat; [|discriminate]. injection E as <-. unfold deinterleave. rewrite Forall_map. apply Forall_forall. intros c _.
  apply channel_samples_all. now rewrite Forall_map.
Qed.
Lemma planar_all {T} P (S : sample T) (Q : reading -> Prop) l cols : Forall (Forall (fun x => Q (read P S x))) l -> planar_input P S l = Some cols -> Forall (Forall Q) cols.
Proof.
  intros H E. destruct l as [|p l]; [discriminate|]. unfold planar_input in E. destruct (forallb _ _); [|discriminate]. injection E as <-.
  change (Forall (Forall Q) (map (map (read P S)) (p :: l))). rewrite Forall_map. eapply Forall_impl; [|exact H]. intros q Hq. now rewrite Forall_map.
Qed.
Lemma input_agreeing P C a cols : integers_fit a -> input P C a = Some cols -> Forall (Forall agreeing) cols.
Proof.
  assert (forall z, in_i16 z -> agreeing (read P smp_i16 z)) as A16 by (intros z Hz; rewrite read_i16 by auto; apply agreeing_f64).
  assert (forall z, in_i32 z -> agreeing (read P smp_i32 z)) as A32 by (intros z Hz; rewrite read_i32 by auto; apply agreeing_f64).
  destruct a as [l|l|l|l|l|l|l|l]; cbn [integers_fit input]; intros H E; first [refine (interleaved_all P _ _ _ _ _ _ E)|refine (planar_all P _ _ _ _ _ E)].
  - eapply Forall_impl; [|exact H]; auto.
  - eapply Forall_impl; [|exact H]; auto.
  - apply Forall_forall; intros; apply agreeing_f32.
  - apply Forall_forall; intros; apply agreeing_f64.
  - eapply Forall_impl; [|exact H]. intros q Hq. eapply Forall_impl; [|exact Hq]; auto.
  - eapply Forall_impl; [|exact H]. intros q Hq. eapply Forall_impl; [|exact Hq]; auto.
  - apply Forall_forall; intros q _; apply Forall_forall; intros; apply agreeing_f32.
  - apply Forall_forall; intros q _; apply Forall_forall; intros; apply agreeing_f64.
Qed.

(** * The largest value as a real number *)
Lemma Rle_bool_true_inv a b : Rle_bool a b = true -> a <= b.
Proof. destruct (Rle_bool_spec a b); [auto|discriminate]. Qed.
Lemma largest_real l x : Spec.largest l x -> Forall (fun y => is_finite y = true) l ->
  is_finite x = true /\ 0 <= real x /\ Forall (fun y => real y <= real x) l /\ (real x = 0 \/ In x l).
Proof.
  intros (Z & I & A) F. assert (is_finite x = true) as Fx by (destruct I as [->|I]; [reflexivity|rewrite Forall_forall in F; auto]).
  split; auto. split; [|split].
  - unfold f64_le in Z. rewrite (Bleb_correct _ _ f64_zero x eq_refl Fx) in Z. apply Rle_bool_true_inv in Z. exact Z.
  - rewrite Forall_forall in *. intros y Hy. specialize (F y Hy). specialize (A y Hy ltac:(destruct y; auto; discriminate F)).
    unfold f64_le in A. rewrite Bleb_correct in A by auto. apply Rle_bool_true_inv in A. exact A.
  - destruct I as [->|I]; auto.
Qed.
Lemma magnitude_real y : is_finite y = true -> is_finite (f64_of_f32 (f32_abs y)) = true /\ real (f64_of_f32 (f32_abs y)) = Rabs (real32 y).
Proof.
  intros F. assert (is_finite (f32_abs y) = true) as Fa by (unfold f32_abs; now rewrite is_finite_Babs). destruct (f64_of_f32_finite _ Fa) as (A & B & _). split; auto.
  unfold real. rewrite B. unfold f32_abs. rewrite B2R_Babs. reflexivity.
Qed.
Lemma oversampling_cases rate taps factor : oversampling rate = Some (taps, factor) -> ((rate < 96000)%N /\ taps = 12 /\ factor = 4 \/ (96000 <= rate < 192000)%N /\ taps = 24 /\ factor = 2)%nat.
Proof.
  unfold oversampling. destruct (N.ltb_spec rate 96000); [intros E; injection E as <- <-; auto|]. destruct (N.ltb_spec rate 192000); [intros E; injection E as <- <-; auto|discriminate].
Qed.
Lemma oversampled_in P E rate taps factor xs from y : oversampling rate = Some (taps, factor) ->
  In y (oversampled P E rate xs from) <-> exists n f, (from <= n < length xs)%nat /\ (f < factor)%nat /\ y = interpolated P E taps factor xs n f.
Proof.
  intros H. unfold oversampled. rewrite H, in_flat_map. split.
  - intros (n & Hn & Hy). apply in_map_iff in Hy. destruct Hy as (f & <- & Hf). apply in_seq in Hn, Hf. exists n, f. split; [lia|]. split; [lia|reflexivity].
  - intros (n & f & Hn & Hf & ->). exists n. split; [apply in_seq; lia|]. apply in_map_iff. exists f. split; auto. apply in_seq. lia.
Qed.
Lemma oversample_new_channel P E rate c past new : length past = length new -> (N.to_nat c < length past)%nat ->
  channel c (oversample_new P E rate past new) = oversampled P E rate (channel c past ++ channel c new) (length (channel c past)).
Proof.
  unfold channel, oversample_new. generalize (N.to_nat c). intros k. revert past new.
  induction k as [|k IH]; intros [|x past] [|y new] Hl Hk; try discriminate Hl; cbn [length] in *; try lia; cbn [map2 nth]; auto. apply IH; lia.
Qed.
Lemma channel_map {A B} (g : A -> B) c cols : channel c (map (map g) cols) = map g (channel c cols).
Proof. unfold channel. change (@nil B) with (map g []). now rewrite map_nth. Qed.
Lemma channel_nth {A} c (cols : list (list A)) x : nth_error cols (N.to_nat c) = Some x -> channel c cols = x /\ (N.to_nat c < length cols)%nat.
Proof. intros H. split; [unfold channel; now apply nth_error_nth|]. apply nth_error_Some. congruence. Qed.

(** the log after a call that added frames *)
Lemma add_log P E e lg a c new : is_64bit P -> logged P E e lg -> admissible e (OpAdd a) -> channel_input P (e_channels e) c a = Some new -> new <> [] ->
  let lg' := log_after P E e (OpAdd a) lg in let xs := channel c (lg_past lg) ++ map r_32 new in
  channel c (lg_last lg') = new /\ channel c (lg_past lg') = xs /\ channel c (lg_inter_last lg') = oversampled P E (e_rate e) xs (length (channel c (lg_past lg))) /\ (c < N.of_nat (e_channels e))%N.
Proof.
  intros HP Hl Ha Hc Hn lg' xs. destruct (logged_ok P E e lg HP Hl) as (g & L & HG & [B1 B2 B3 B4 B5 _ _ _ _]).
  pose proof (input_cases_ok P E e g L a HG (admissible_op_ok _ _ Ha)) as Hi. subst lg'. cbn [log_after]. unfold channel_input in Hc.
  destruct (input P (e_channels e) a) as [cols|]; [|discriminate]. destruct Hi as ((Hlen & HFr) & _). destruct (channel_nth c cols new Hc) as (EC & LC).
  assert (frames_of cols =? 0 = false)%nat as ->.
  { apply Nat.eqb_neq. intros Z. rewrite Forall_forall in HFr. apply Hn. assert (length new = 0)%nat as L0; [|now destruct new]. rewrite <- Z. apply HFr. eapply nth_error_In; eauto. }
  cbn [lg_last lg_past lg_inter_last]. split; [exact EC|]. split; [|split; [|lia]].
  - subst xs. rewrite <- EC, <- channel_map. unfold channel, join. 
    assert (forall k (x y : list (list f32)), length x = length y -> nth k (map2 (@app f32) x y) [] = nth k x [] ++ nth k y []) as G.
    { clear. induction k; intros [|a x] [|b y] Hl; try discriminate Hl; cbn; auto. }
    apply G. rewrite map_length. lia.
  - rewrite oversample_new_channel, channel_map, EC by (rewrite ?map_length; lia). reflexivity.
Qed.
Lemma add_config P E e lg a r e' : is_64bit P -> logged P E e lg -> admissible e (OpAdd a) -> step P E e (OpAdd a) = Ret (r, e') ->
  logged P E e' (log_after P E e (OpAdd a) lg) /\ e_mode e' = e_mode e /\ e_channels e' = e_channels e /\ e_rate e' = e_rate e.
Proof. intros HP Hl Ha Hs. split; [eapply logged_step; eauto|]. eapply step_add_config; eauto. eapply logged_reachable; eauto. Qed.

(** * C69: the last call *)
Lemma taps_cases rate taps factor : oversampling rate = Some (taps, factor) -> (taps = 12 /\ factor = 4 \/ taps = 24 /\ factor = 2)%nat.
Proof. intros H. apply oversampling_cases in H. lia. Qed.
Lemma last_call_near P E e lg a r e' c new taps factor M : is_64bit P -> sin_accurate E -> cos_accurate E -> logged P E e lg -> admissible e (OpAdd a) -> step P E e (OpAdd a) = Ret (r, e') ->
  has_TRUE_PEAK (e_mode e) -> oversampling (e_rate e) = Some (taps, factor) -> channel_input P (e_channels e) c a = Some new -> new <> [] -> 0 <= M <= 2 ^ 100 ->
  let past := channel c (lg_past lg) in let xs := past ++ map r_32 new in
  Forall (moderate M) xs -> Forall (fun r => is_finite (r_level r) = true) new ->
  exists x, ask P E e' (QPrevTruePeak c) = Ret (AValue (Ok x)) /\ is_finite x = true /\ Forall (fun r => real (r_level r) <= real x) new /\
    (forall n f, (length past <= n < length xs)%nat -> (f < factor)%nat -> Rabs (interpolatedR taps factor xs n f) <= real x + fir_noise M) /\
    (real x = 0 \/ In x (levels_of new) \/ exists n f, (length past <= n < length xs)%nat /\ (f < factor)%nat /\ Rabs (real x - Rabs (interpolatedR taps factor xs n f)) <= fir_noise M).
Proof.
  intros HP HS HC Hl Ha Hs Hm Ho Hc Hn HM past xs HX HL. destruct (add_config P E e lg a r e' HP Hl Ha Hs) as (Hl' & Em & Ec & Er).
  destruct (add_log P E e lg a c new HP Hl Ha Hc Hn) as (L1 & L2 & L3 & Lc). fold past in L2, L3. fold xs in L2, L3.
  destruct (prev_true_peak_log P E e' _ c HP Hl' ltac:(rewrite Em; exact Hm) ltac:(rewrite Ec; exact Lc)) as (x & Q & Lg). rewrite L1, L3 in Lg.
  assert (forall n f, (f < factor)%nat -> near32 (interpolated P E taps factor xs n f) (interpolatedR taps factor xs n f) (fir_noise M)) as N.
  { intros n f Hf. exact (proj1 (interpolated_near P E taps factor M xs n f HS HC (taps_cases _ _ _ Ho) Hf HM HX)). }
  pose proof (fun y => proj1 (oversampled_in P E (e_rate e) taps factor xs (length past) y Ho)) as O1.
  pose proof (fun y => proj2 (oversampled_in P E (e_rate e) taps factor xs (length past) y Ho)) as O2.
  assert (Forall (fun y => is_finite y = true) (levels_of new ++ magnitudes (oversampled P E (e_rate e) xs (length past)))) as FF.
  { apply Forall_app. split; [unfold levels_of; now rewrite Forall_map|]. unfold magnitudes. rewrite Forall_map. apply Forall_forall. intros y Hy.
    destruct (O1 y Hy) as (n & f & _ & Hf & ->). apply magnitude_real. apply N; auto. }
  destruct (largest_real _ _ Lg FF) as (Fx & X0 & XA & XI). exists x. split; auto. split; auto. apply Forall_app in XA. destruct XA as (XA & XB).
  split; [unfold levels_of in XA; now rewrite Forall_map in XA|]. split.
  - intros n f Hn' Hf. destruct (N n f Hf) as (F & NN). unfold magnitudes in XB. rewrite Forall_map, Forall_forall in XB.
    specialize (XB _ (O2 _ (ex_intro _ n (ex_intro _ f (conj Hn' (conj Hf eq_refl)))))). rewrite (proj2 (magnitude_real _ F)) in XB.
    pose proof (Rabs_triang_inv (interpolatedR taps factor xs n f) (real32 (interpolated P E taps factor xs n f))) as T. rewrite Rabs_minus_sym in T. lra.
  - destruct XI as [XI|XI]; auto. right. apply in_app_or in XI. destruct XI as [XI|XI]; auto. right. unfold magnitudes in XI. apply in_map_iff in XI. destruct XI as (y & <- & Hy).
    destruct (O1 y Hy) as (n & f & Hn' & Hf & ->). exists n, f. split; auto. split; auto. destruct (N n f Hf) as (F & NN). rewrite (proj2 (magnitude_real _ F)).
    eapply Rle_trans; [apply Rabs_triang_inv2|]. exact NN.
Qed.

(** * C70: sessions without loud samples *)
Definition gain_limit (top : N) : R := if (top <=? 96000)%N then 1.865 else 2.307.
Lemma changed_rate E e g L c rt e' g' L' : changed E e g L c rt e' g' L' -> e_rate e' = e_rate e \/ e_rate e' = rt.
Proof.
  unfold changed. destruct (_ && _); [|intros (-> & _); auto]. intros (_ & _ & f & _ & _ & _ & ->). right. reflexivity.
Qed.
Definition softened (M : R) (lg : log) (K : R) : Prop :=
  Forall (Forall (fun r => is_finite (r_level r) = true /\ real (r_level r) <= M + w)) (lg_heard lg) /\
  Forall (Forall (moderate (M + v * M + w))) (lg_past lg) /\ Forall (Forall (moderate K)) (lg_inter lg).
Lemma channel_all {T} (Q : T -> Prop) c cols : Forall (Forall Q) cols -> Forall Q (channel c cols).
Proof.
  intros H. unfold channel. destruct (nth_in_or_default (N.to_nat c) cols []) as [I|D]; [rewrite Forall_forall in H; auto|]. rewrite D. constructor.
Qed.
Lemma soft_readings P C M a cols : 0 <= M <= 2 ^ 90 -> soft P C M a -> input P C a = Some cols ->
  Forall (Forall (fun r => (is_finite (r_level r) = true /\ real (r_level r) <= M + w) /\ moderate (M + v * M + w) (r_32 r))) cols.
Proof.
  intros HM (HI & HB) E. specialize (HB cols E). pose proof (input_agreeing P C a cols HI E) as HA. clear E.
  assert (2 ^ 90 <= 2 ^ 100) as B by (apply Rle_pow; [lra|lia]). set (Y := 2 ^ 90) in *. set (Z := 2 ^ 100) in *. clearbody Y.
  induction cols as [|x cols IH]; constructor; apply Forall_cons_iff in HB, HA; destruct HB as (B1 & B2), HA as (A1 & A2); auto. clear - B1 A1 HM B.
  apply Forall_forall. intros r Hr. rewrite Forall_forall in B1, A1. destruct (B1 r Hr) as (F & L). destruct (A1 r Hr F ltac:(unfold Z in B; eapply Rle_trans; [exact L|]; lra)) as ((F32 & N32) & FL & NL).
  pose proof (Rabs_pos (real (r_64 r))). split; [split; auto|split; auto].
  - apply Rabs_le_inv in NL. set (ww := / 2 ^ 125) in *. clearbody ww. lra.
  - replace (real32 (r_32 r)) with (real (r_64 r) + (real32 (r_32 r) - real (r_64 r))) by ring. eapply Rle_trans; [apply Rabs_triang|]. set (ww := / 2 ^ 125) in *. clearbody ww. lra.
Qed.
Lemma oversample_soft P E rate top M' K past new : sin_accurate E -> cos_accurate E -> (rate < top)%N -> 0 <= M' <= 2 ^ 100 -> gain_limit top * M' + fir_noise M' <= K -> length past = length new ->
  Forall (Forall (moderate M')) past -> Forall (Forall (moderate M')) new -> Forall (Forall (moderate K)) (oversample_new P E rate past new).
Proof.
  intros HS HC Hr HM HK. unfold oversample_new. revert new. induction past as [|x past IH]; intros [|y new] Hl HP HN; try discriminate Hl; cbn [map2]; constructor.
  - apply Forall_cons_iff in HP, HN. destruct HP as (HX & _), HN as (HY & _). destruct (oversampling rate) as [(taps, factor)|] eqn:Ho; [|unfold oversampled; rewrite Ho; constructor].
    apply Forall_forall. intros z Hz. apply (proj1 (oversampled_in P E rate taps factor _ _ z Ho)) in Hz. destruct Hz as (n & f & _ & Hf & ->).
    destruct (interpolated_near P E taps factor M' (x ++ y) n f HS HC (taps_cases _ _ _ Ho) Hf HM ltac:(apply Forall_app; auto)) as ((F & N) & B). split; auto.
    assert (worst factor <= gain_limit top) as G.
    { apply oversampling_cases in Ho. unfold gain_limit. destruct (N.leb_spec top 96000); [|pose proof (worst_bounds factor); lra]. destruct Ho as [(_ & _ & ->)|(Q & _)]; [cbn; lra|lia]. }
    set (o := real32 _) in *. set (oR := interpolatedR _ _ _ _ _) in *. clearbody o oR. replace o with (oR + (o - oR)) by ring. eapply Rle_trans; [apply Rabs_triang|].
    assert (worst factor * M' <= gain_limit top * M') by (apply Rmult_le_compat_r; lra). lra.
  - apply Forall_cons_iff in HP, HN. apply IH; try tauto. now injection Hl.
Qed.
Lemma moderate_more M K x : M <= K -> moderate M x -> moderate K x.
Proof. intros H (A & B). split; auto. lra. Qed.
Lemma limited_soft P E M top e : is_64bit P -> sin_accurate E -> cos_accurate E -> 0 <= M <= 2 ^ 90 -> limited P E M top e ->
  exists lg, logged P E e lg /\ (e_rate e < top)%N /\ softened M lg (gain_limit top * (M + v * M + w) + fir_noise (M + v * M + w)).
Proof.
  intros HP HS HC HM. assert (0 <= M + v * M + w <= 2 ^ 100) as HM'.
  { pose proof w_small as (W & _). assert (4 * 2 ^ 90 <= 2 ^ 100 - 1) as B. { replace 100%nat with (90 + 10)%nat by lia. rewrite pow_add. assert (1 <= 2 ^ 90) by (apply pow_R1_Rle; lra). set (Y := 2 ^ 90) in *. clearbody Y. lra. }
    set (Y := 2 ^ 90) in *. set (Z := 2 ^ 100) in *. set (ww := / 2 ^ 125) in *. clearbody Y Z ww. lra. }
  set (M' := M + v * M + w) in *. set (K := gain_limit top * M' + fir_noise M').
  induction 1 as [channels rate m e Hn Hs Hr|e o r e' Hlim IH Ha Hq Hst].
  - exists (empty_log (N.to_nat channels)). split; [eapply logged_new; eauto|]. split.
    + destruct (new_good P E channels rate m e HP Hn Hs) as (g & L & _ & [Q1 Q2 Q3 Q4 Q5 Q6 Q7 Q8 Q9 Q10 Q11 Q12 Q13 Q14 Q15]). congruence.
    + unfold softened, empty_log. cbn [lg_heard lg_past lg_inter]. repeat split; apply Forall_no_audio.
  - destruct IH as (lg & Hl & Hr & S1 & S2 & S3). exists (log_after P E e o lg). split; [eapply logged_step; eauto|].
    destruct (logged_ok P E e lg HP Hl) as (g & L & HG & [B1 B2 B3 B4 B5 _ _ _ _]).
    destruct (step_moves P E e g L o r e' HP HG Ha Hst) as (g' & L' & _ & HMo).
    split.
    { pose proof (moved_config _ _ _ _ _ _ _ _ _ HMo) as MC. destruct o as [number x|m|cc rt|win|h| |a|a]; try (destruct MC as (_ & -> & _); exact Hr).
      cbn [moved] in HMo. destruct (changed_rate _ _ _ _ _ _ _ _ _ HMo) as [-> | ->]; auto. }
    destruct o as [number x|m|cc rt|win|h| |a|a]; cbn [log_after] in *; try (unfold softened; repeat split; assumption).
    + destruct (negb _ || _); [split; [|split]; assumption|]. destruct (_ =? _)%N; unfold softened, empty_log; cbn [lg_heard lg_past lg_inter]; repeat split; auto using Forall_no_audio.
    + unfold softened, empty_log. cbn [lg_heard lg_past lg_inter]. repeat split; apply Forall_no_audio.
    + pose proof (input_cases_ok P E e g L a HG (admissible_op_ok _ _ Ha)) as Hi. destruct (input P (e_channels e) a) as [cols|] eqn:Ei; [|split; [|split]; assumption].
      destruct Hi as ((Hc & _) & _). destruct (frames_of cols =? 0)%nat; [split; [|split]; assumption|]. unfold softened. cbn [lg_heard lg_past lg_inter].
      pose proof (soft_readings P _ M a cols HM Hq Ei) as HR. fold M' in HR.
      assert (Forall (Forall (fun r => is_finite (r_level r) = true /\ real (r_level r) <= M + w)) cols) as R1 by (eapply Forall_impl; [|exact HR]; intros q Hq'; eapply Forall_impl; [|exact Hq']; intros ? Hx; apply Hx).
      assert (Forall (Forall (moderate M')) (map (map r_32) cols)) as R2 by (rewrite Forall_map; eapply Forall_impl; [|exact HR]; intros q Hq'; rewrite Forall_map; eapply Forall_impl; [|exact Hq']; intros ? Hx; apply Hx).
      split; [now apply Forall_join|]. split; [now apply Forall_join|]. apply Forall_join; auto.
      apply (oversample_soft P E (e_rate e) top M' K); auto; [apply Rle_refl|rewrite map_length; lia].
    + destruct (input P (e_channels e) a) as [cols|] eqn:Ei; [|split; [|split]; assumption]. unfold softened. cbn [lg_heard lg_past lg_inter].
      pose proof (soft_readings P _ M a cols HM Hq Ei) as HR. fold M' in HR. split; auto. split; auto. apply Forall_join; auto.
      rewrite Forall_map; eapply Forall_impl; [|exact HR]; intros q Hq'; rewrite Forall_map; eapply Forall_impl; [|exact Hq']; intros ? Hx; apply Hx.
Qed.
Lemma overshoot P E M top e c : is_64bit P -> sin_accurate E -> cos_accurate E -> 0 <= M <= 2 ^ 90 -> limited P E M top e -> has_TRUE_PEAK (e_mode e) -> (c < N.of_nat (e_channels e))%N ->
  exists x, ask P E e (QTruePeak c) = Ret (AValue (Ok x)) /\ is_finite x = true /\ real x <= (if (top <=? 96000)%N then 1.866 else 2.308) * M + / 2 ^ 115.
Proof.
  intros HP HS HC HM Hlim Hm Hc. destruct (limited_soft P E M top e HP HS HC HM Hlim) as (lg & Hl & _ & S1 & S2 & S3).
  destruct (true_peak_log P E e lg c HP Hl Hm Hc) as (x & Q & Lg). exists x. split; auto.
  apply (channel_all _ c) in S1, S3. set (K := gain_limit top * (M + v * M + w) + fir_noise (M + v * M + w)) in *.
  assert (Forall (fun y => is_finite y = true /\ real y <= K \/ is_finite y = true /\ real y <= M + w) (levels_of (channel c (lg_heard lg)) ++ magnitudes (channel c (lg_inter lg)))) as A.
  { apply Forall_app. split.
    - unfold levels_of. rewrite Forall_map. eapply Forall_impl; [|exact S1]. intros r Hr. right. exact Hr.
    - unfold magnitudes. rewrite Forall_map. eapply Forall_impl; [|exact S3]. intros y (F & B). left. destruct (magnitude_real y F) as (F' & ->). auto. }
  assert (M + w <= (if (top <=? 96000)%N then 1.866 else 2.308) * M + / 2 ^ 115 /\ K <= (if (top <=? 96000)%N then 1.866 else 2.308) * M + / 2 ^ 115 /\ 0 <= (if (top <=? 96000)%N then 1.866 else 2.308) * M + / 2 ^ 115) as (K1 & K2 & K3).
  { unfold K, fir_noise, gain_limit. assert (/ 2 ^ 118 = / 2 ^ 115 * / 8 /\ w = / 2 ^ 115 * / 1024) as (-> & ->).
    { split; [replace 118%nat with (115 + 3)%nat by lia|replace 125%nat with (115 + 10)%nat by lia]; rewrite pow_add, Rinv_mult; f_equal; lra. }
    assert (0 < / 2 ^ 115) by (apply Rinv_0_lt_compat, pow_lt; lra). destruct HM. set (y := / 2 ^ 115) in *. clearbody y. destruct (top <=? 96000)%N; repeat split; lra. }
  destruct (largest_real _ _ Lg) as (F & _ & _ & I).
  { eapply Forall_impl; [|exact A]. intros y [Hy|Hy]; apply Hy. }
  split; auto. destruct I as [->|I]; [exact K3|]. rewrite Forall_forall in A. destruct (A x I) as [(_ & B)|(_ & B)]; lra.
Qed.

(** * Only the last samples matter *)
Lemma nth_skip {T} (d : T) k : forall l i, nth i (skipn k l) d = nth (k + i) l d.
Proof. induction k; intros [|x l] i; cbn [skipn Nat.add nth]; auto. destruct i; reflexivity. Qed.
Lemma sample_before_skip (pre ys : list f32) n k : (k <= n)%nat -> sample_before (pre ++ ys) (length pre + n) k = sample_before ys n k.
Proof.
  intros H. unfold sample_before. destruct (Nat.leb_spec k (length pre + n)); [|lia]. destruct (Nat.leb_spec k n); [|lia]. rewrite app_nth2 by lia. f_equal. lia.
Qed.
Lemma interpolated_skip P E taps factor pre ys n f : (taps <= S n)%nat -> interpolated P E taps factor (pre ++ ys) (length pre + n) f = interpolated P E taps factor ys n f.
Proof. intros H. unfold interpolated. apply fold_left_ext_in. intros k acc Hk. apply in_seq in Hk. rewrite sample_before_skip by lia. reflexivity. Qed.

(** * C71: tones *)
Lemma total_minus {A} (g h : A -> R) l : total (map g l) - total (map h l) = total (map (fun k => g k - h k) l).
Proof. induction l as [|k l IH]; cbn [map total fold_right]; [ring|]. unfold total in *. rewrite <- IH. ring. Qed.
Lemma sinusoid_bound rate f p q n : Rabs (sinusoid rate f p q n) <= amplitude p q.
Proof. apply wave_bound. Qed.
Lemma tone_sample P E taps factor rate f p q d' ys n ph : sin_accurate E -> cos_accurate E -> (taps = 12 /\ factor = 4 \/ taps = 24 /\ factor = 2)%nat -> (ph < factor)%nat -> (taps <= S n)%nat -> (n < length ys)%nat ->
  0 <= d' -> amplitude p q + d' <= 2 ^ 100 -> (forall i, (i < length ys)%nat -> is_finite (nth i ys f32_zero) = true /\ Rabs (real32 (nth i ys f32_zero) - sinusoid rate f p q i) <= d') ->
  near32 (interpolated P E taps factor ys n ph) (wave p q (instant factor n ph * angle factor rate f))
    (amplitude p q * deviation factor ph (angle factor rate f) + 2.307 * d' + fir_noise (amplitude p q + d')).
Proof.
  intros HS HC HT Hf Hn Hn' Hd HA HY. assert (factor = 4 \/ factor = 2)%nat as HF by (clear - HT; lia). pose proof (amplitude_pos p q) as PA.
  assert (Forall (moderate (amplitude p q + d')) ys) as HM.
  { apply Forall_forall. intros x Hx. destruct (In_nth ys x f32_zero Hx) as (i & Hi & <-). destruct (HY i Hi) as (F & N). split; auto. pose proof (sinusoid_bound rate f p q i).
    replace (real32 (nth i ys f32_zero)) with (sinusoid rate f p q i + (real32 (nth i ys f32_zero) - sinusoid rate f p q i)) by ring. eapply Rle_trans; [apply Rabs_triang|]. lra. }
  destruct (interpolated_near P E taps factor (amplitude p q + d') ys n ph HS HC HT Hf ltac:(lra) HM) as ((F & N) & _). split; auto.
  assert (seq 0 taps = seq 0 (48 / factor)) as ES by (destruct HT as [(-> & ->)|(-> & ->)]; reflexivity).
  pose proof (magnitude_worst factor ph HF Hf) as MW. rewrite phase_taps, <- ES in MW. pose proof (worst_bounds factor) as WB. unfold magnitude_sum in MW. rewrite map_map in MW.
  assert (Rabs (interpolatedR taps factor ys n ph - total (map (fun k => sinusoid rate f p q (n - k) * tapR factor (k * factor + ph)) (seq 0 (48 / factor)))) <= 2.307 * d') as D.
  { rewrite <- ES. unfold interpolatedR. rewrite total_minus.
    assert (map (fun k => real32 (sample_before ys n k) * tapR factor (k * factor + ph) - sinusoid rate f p q (n - k) * tapR factor (k * factor + ph)) (seq 0 taps) =
            map (fun k => (real32 (sample_before ys n k) - sinusoid rate f p q (n - k)) * tapR factor (k * factor + ph)) (seq 0 taps)) as -> by (apply map_ext; intros; ring).
    eapply Rle_trans; [apply (total_bound (fun k => real32 (sample_before ys n k) - sinusoid rate f p q (n - k)) (fun k => tapR factor (k * factor + ph)) d' (seq 0 taps) Hd)|].
    - apply Forall_forall. intros k Hk. apply in_seq in Hk. unfold sample_before. destruct (Nat.leb_spec k n); [|lia]. apply HY. lia.
    - rewrite Rmult_comm. apply Rmult_le_compat_r; lra. }
  assert (48 / factor <= S n)%nat as H48 by (destruct HT as [(-> & ->)|(-> & ->)]; exact Hn).
  pose proof (tone_near factor rate f p q n ph HF H48) as T. cbv zeta in T.
  set (o := real32 _) in *. set (oR := interpolatedR _ _ _ _ _) in *. set (tR := total (map (fun k => sinusoid rate f p q (n - k) * tapR factor (k * factor + ph)) (seq 0 (48 / factor)))) in *. set (W := wave _ _ _) in *.
  replace (o - W) with ((o - oR) + ((oR - tR) + (tR - W))) by ring. eapply Rle_trans; [apply Rabs_triang|]. eapply Rle_trans; [apply Rplus_le_compat_l, Rabs_triang|]. lra.
Qed.
Lemma angle_value factor rate f : angle factor rate f = 2 * PI * f / rate / INR factor. Proof. reflexivity. Qed.
Lemma ripple_deviation rate f eps taps factor ph : oversampling rate = Some (taps, factor) -> (16 <= rate)%N -> 0 < f -> ripple rate f eps -> (ph < factor)%nat ->
  deviation factor ph (angle factor (IZR (Z.of_N rate)) f) <= eps - 0.0001 /\ 0 < angle factor (IZR (Z.of_N rate)) f <= 1.5.
Proof.
  intros Ho H16 Hf HR Hp. assert (16 <= IZR (Z.of_N rate)) as R0 by (apply IZR_le; lia). pose proof PI_digits as HPI. apply oversampling_cases in Ho.
  assert (forall k F, (F = 4 \/ F = 2) -> f <= k * IZR (Z.of_N rate) -> 0 < 2 * PI * f / IZR (Z.of_N rate) / F <= 2 * k / F * PI) as G.
  { intros k F HF Hk. set (R := IZR (Z.of_N rate)) in *. clearbody R. assert (f / R <= k) as Q by (apply Rmult_le_reg_r with R; [lra|]; unfold Rdiv; rewrite Rmult_assoc, Rinv_l by lra; lra).
    assert (0 < f / R) by (apply Rdiv_lt_0_compat; lra). replace (2 * PI * f / R) with (2 * PI * (f / R)) by (field; lra). set (y := f / R) in *. clearbody y.
    assert (0 < PI * y <= PI * k) by (split; [apply Rmult_lt_0_compat; lra|apply Rmult_le_compat_l; lra]).
    destruct HF as [-> | ->]; lra. }
  assert (INR 4 = 4 /\ INR 2 = 2) as (I4 & I2) by (cbn; lra). unfold angle.
  destruct HR as [(H & Hk & ->)|[(H & Hk & ->)|(H & Hk & ->)]]; destruct Ho as [(H' & _ & ->)|(H' & _ & ->)]; try lia; rewrite ?I4, ?I2.
  - pose proof (G (/ 4) 4 (or_introl eq_refl) ltac:(lra)) as (G1 & G2). split; [|lra]. eapply Rle_trans; [apply ripple_b; auto; lra|lra].
  - pose proof (G 0.35 4 (or_introl eq_refl) ltac:(lra)) as (G1 & G2). split; [|lra]. eapply Rle_trans; [apply ripple_a; auto; lra|lra].
  - pose proof (G 0.4 2 (or_intror eq_refl) ltac:(lra)) as (G1 & G2). split; [|lra]. eapply Rle_trans; [apply ripple_c; auto; lra|lra].
Qed.
Lemma tone_error A D d eps : 0 <= A -> 0 <= d -> A + d <= 2 ^ 90 -> D <= eps - 0.0001 ->
  let d' := d + v * (A + d) + w in 0 <= d' /\ A + d' <= 2 ^ 100 /\ A * D + 2.307 * d' + fir_noise (A + d') <= eps * A + 2.4 * d + / 2 ^ 115 /\ A + d + w <= (1 + 0.0041) * A + 2.4 * d + / 2 ^ 115.
Proof.
  intros PA Pd B HD d'. pose proof w_small as (W & _). assert (4 * 2 ^ 90 <= 2 ^ 100 - 1) as BB. { replace 100%nat with (90 + 10)%nat by lia. rewrite pow_add. assert (1 <= 2 ^ 90) by (apply pow_R1_Rle; lra). set (Y := 2 ^ 90) in *. clearbody Y. lra. }
  unfold d', fir_noise. assert (/ 2 ^ 118 = / 2 ^ 115 * / 8 /\ w = / 2 ^ 115 * / 1024) as (-> & E).
  { split; [replace 118%nat with (115 + 3)%nat by lia|replace 125%nat with (115 + 10)%nat by lia]; rewrite pow_add, Rinv_mult; f_equal; lra. }
  set (ww := / 2 ^ 125) in *. set (y := / 2 ^ 115) in *. set (Y := 2 ^ 90) in *. set (Z := 2 ^ 100) in *. clearbody ww y Y Z.
  assert (A * D <= A * (eps - 0.0001)) by (apply Rmult_le_compat_l; lra). repeat split; lra.
Qed.
Lemma tone_call P E e lg a r e' c new taps factor f p q d eps : is_64bit P -> sin_accurate E -> cos_accurate E -> logged P E e lg -> admissible e (OpAdd a) -> step P E e (OpAdd a) = Ret (r, e') ->
  has_TRUE_PEAK (e_mode e) -> oversampling (e_rate e) = Some (taps, factor) -> integers_fit a -> channel_input P (e_channels e) c a = Some new -> new <> [] ->
  let rate := IZR (Z.of_N (e_rate e)) in let A := amplitude p q in
  0 < f -> ripple (e_rate e) f eps -> 0 <= d -> A + d <= 2 ^ 90 -> carries_tone (taps - 1) rate f p q d (channel c (lg_past lg)) new ->
  exists x, ask P E e' (QPrevTruePeak c) = Ret (AValue (Ok x)) /\ is_finite x = true /\ real x <= (1 + eps) * A + 2.4 * d + / 2 ^ 115 /\
    (rate <= 2 * f * (INR (length new) - 1) -> A * (cos (PI * f / (INR factor * rate)) - eps) - 2.4 * d - / 2 ^ 115 <= real x).
Proof.
  intros HP HS HC Hl Ha Hs Hm Ho HI Hc Hn rate A Hf HR Hd HA (T1 & T2 & T3). destruct (add_config P E e lg a r e' HP Hl Ha Hs) as (Hl' & Em & Ec & Er).
  destruct (add_log P E e lg a c new HP Hl Ha Hc Hn) as (L1 & L2 & L3 & Lc). set (past := channel c (lg_past lg)) in *. set (xs := past ++ map r_32 new) in *.
  destruct (prev_true_peak_log P E e' _ c HP Hl' ltac:(rewrite Em; exact Hm) ltac:(rewrite Ec; exact Lc)) as (x & Q & Lg). rewrite L1, L3 in Lg. exists x. split; auto.
  assert (16 <= e_rate e)%N as H16.
  { destruct (logged_ok P E e lg HP Hl) as (g & L & (HG & _) & _). exact (proj1 (i_rate _ _ _ _ _ HG)). }
  pose proof (taps_cases _ _ _ Ho) as TC. set (m := (taps - 1)%nat) in *. pose proof (amplitude_pos p q) as PA. fold A in PA.
  pose proof (tone_error A 0 d eps PA Hd HA) as TE0. cbv zeta in TE0. set (d' := d + v * (A + d) + w) in *.
  assert (eps = 0.0041 \/ eps = 0.0131 \/ eps = 0.0061) as HE by (unfold ripple in HR; tauto).
  destruct TE0 as (D1 & D2 & _ & D4); [lra|].
  assert (Forall agreeing new) as AG.
  { unfold channel_input in Hc. destruct (input P (e_channels e) a) as [cols|] eqn:Ei; [|discriminate]. pose proof (input_agreeing P _ a cols HI Ei) as HG. rewrite Forall_forall in HG. apply HG. eapply nth_error_In; eauto. }
  assert (A + d <= 2 ^ 100) as HA'. { eapply Rle_trans; [exact HA|]. apply Rle_pow; [lra|lia]. }
  (* the new samples *)
  assert (forall i rd, nth_error new i = Some rd -> near32 (r_32 rd) (sinusoid rate f p q (m + i)) d' /\ is_finite (r_level rd) = true /\ real (r_level rd) <= A + d + w) as NEW.
  { intros i rd Hi. destruct (T3 i rd Hi) as (F & N). pose proof (sinusoid_bound rate f p q (m + i)) as SB. fold A in SB.
    assert (Rabs (real (r_64 rd)) <= A + d) as B64.
    { replace (real (r_64 rd)) with (sinusoid rate f p q (m + i) + (real (r_64 rd) - sinusoid rate f p q (m + i))) by ring. eapply Rle_trans; [apply Rabs_triang|]. lra. }
    rewrite Forall_forall in AG. destruct (AG rd (nth_error_In _ _ Hi) F ltac:(lra)) as ((F32 & N32) & FL & NL). split; [|split; auto].
    - split; auto. replace (real32 (r_32 rd) - sinusoid rate f p q (m + i)) with ((real32 (r_32 rd) - real (r_64 rd)) + (real (r_64 rd) - sinusoid rate f p q (m + i))) by ring.
      eapply Rle_trans; [apply Rabs_triang|]. unfold d'. assert (v * Rabs (real (r_64 rd)) <= v * (A + d)) by (apply Rmult_le_compat_l; lra). lra.
    - apply Rabs_le_inv in NL. lra. }
  (* all samples the output depends on *)
  set (pre := firstn (length past - m) past). set (ys := skipn (length past - m) past ++ map r_32 new).
  assert (xs = pre ++ ys) as EX by (unfold xs, pre, ys; rewrite app_assoc, firstn_skipn; reflexivity).
  assert (length pre = length past - m)%nat as LP by (unfold pre; rewrite firstn_length; lia).
  assert (length (skipn (length past - m) past) = m) as LS by (rewrite skipn_length; lia).
  assert (length ys = m + length new)%nat as LY by (unfold ys; rewrite app_length, map_length, LS; reflexivity).
  assert (forall i, (i < length ys)%nat -> is_finite (nth i ys f32_zero) = true /\ Rabs (real32 (nth i ys f32_zero) - sinusoid rate f p q i) <= d') as HY.
  { intros i Hi. unfold ys. destruct (Nat.lt_ge_cases i m) as [Hlt|Hge].
    - rewrite app_nth1 by lia. assert (nth i (skipn (length past - m) past) f32_zero = nth (length past - m + i) past f32_zero) as ->.
      { apply nth_skip. }
      destruct (T2 i Hlt) as (F & N). split; auto. unfold d'. pose proof w_small as (W & _). set (ww := / 2 ^ 125) in *. clearbody ww. lra.
    - rewrite app_nth2 by lia. rewrite LS. destruct (nth_error new (i - m)) as [rd|] eqn:Er'; [|apply nth_error_None in Er'; lia].
      assert (nth (i - m) (map r_32 new) f32_zero = r_32 rd) as ->. { apply nth_error_nth. now rewrite nth_error_map, Er'. }
      destruct (NEW _ _ Er') as ((F & N) & _). replace (m + (i - m))%nat with i in N by lia. auto. }
  set (t := angle factor rate f). set (B := eps * A + 2.4 * d + / 2 ^ 115).
  assert (forall n ph, (m <= n < length ys)%nat -> (ph < factor)%nat -> near32 (interpolated P E taps factor xs (length pre + n) ph) (wave p q (instant factor n ph * t)) B) as OUT.
  { intros n ph Hn' Hp. rewrite EX, interpolated_skip by lia. destruct (ripple_deviation (e_rate e) f eps taps factor ph Ho H16 Hf HR Hp) as (RD & _).
    destruct (tone_sample P E taps factor rate f p q d' ys n ph HS HC TC Hp ltac:(lia) ltac:(lia) D1 D2 HY) as (F & N). split; auto. eapply Rle_trans; [exact N|].
    apply (tone_error A (deviation factor ph (angle factor rate f)) d eps PA Hd HA RD). }
  pose proof (fun y => proj1 (oversampled_in P E (e_rate e) taps factor xs (length past) y Ho)) as O1.
  pose proof (fun y => proj2 (oversampled_in P E (e_rate e) taps factor xs (length past) y Ho)) as O2.
  assert (length xs = length pre + length ys)%nat as LX by (rewrite EX; apply app_length).
  assert (Forall (fun y => is_finite y = true /\ real y <= (1 + eps) * A + 2.4 * d + / 2 ^ 115) (levels_of new ++ magnitudes (oversampled P E (e_rate e) xs (length past)))) as ALL.
  { apply Forall_app. split.
    - unfold levels_of. rewrite Forall_map. apply Forall_forall. intros rd Hrd. apply In_nth_error in Hrd. destruct Hrd as (i & Hi). destruct (NEW i rd Hi) as (_ & FL & NL). split; auto.
      eapply Rle_trans; [exact NL|]. eapply Rle_trans; [exact D4|]. assert (0.0041 * A <= eps * A) by (apply Rmult_le_compat_r; lra). lra.
    - unfold magnitudes. rewrite Forall_map. apply Forall_forall. intros y Hy. destruct (O1 y Hy) as (n & ph & Hn' & Hp & ->).
      replace n with (length pre + (n - length pre))%nat by lia. destruct (OUT (n - length pre)%nat ph ltac:(lia) Hp) as (F & N). destruct (magnitude_real _ F) as (F' & ->). split; auto.
      pose proof (wave_bound p q (instant factor (n - length pre) ph * t)) as WB. fold A in WB. set (o := real32 _) in *. set (W := wave _ _ _) in *. clearbody o W.
      replace o with (W + (o - W)) by ring. eapply Rle_trans; [apply Rabs_triang|]. unfold B in N. lra. }
  destruct (largest_real _ _ Lg) as (Fx & X0 & XA & XI). { eapply Forall_impl; [|exact ALL]. intros y Hy. apply Hy. }
  split; auto. split.
  - destruct XI as [->|XI]; [|rewrite Forall_forall in ALL; now apply ALL]. assert (0 < / 2 ^ 115) by (apply Rinv_0_lt_compat, pow_lt; lra). assert (0 <= (1 + eps) * A) by (apply Rmult_le_pos; lra). lra.
  - intros Hlong. destruct (ripple_deviation (e_rate e) f eps taps factor 0 Ho H16 Hf HR ltac:(lia)) as (_ & HT). fold rate in HT. fold t in HT.
    assert (0 < INR factor) as PF by (apply lt_0_INR; lia). assert (16 <= rate) as R16 by (apply IZR_le; lia). pose proof PI_digits as HPI.
    assert (1 <= INR factor) as PF1. { change 1 with (INR 1). apply le_INR. lia. }
    assert (PI + t <= INR (factor * length new) * t) as HL.
    { rewrite mult_INR. unfold t, angle. set (k := INR (length new)) in *. replace (INR factor * k * (2 * PI * f / rate / INR factor)) with (PI * (2 * f * k / rate)) by (field; lra).
      replace (2 * PI * f / rate / INR factor) with (PI * (2 * f / rate * / INR factor)) by (field; lra).
      assert (/ INR factor <= 1) by (rewrite <- Rinv_1; apply Rinv_le_contravar; lra).
      assert (1 <= 2 * f / rate * (k - 1)). { apply Rmult_le_reg_r with rate; [lra|]. replace (2 * f / rate * (k - 1) * rate) with (2 * f * (k - 1)) by (field; lra). lra. }
      assert (0 < 2 * f / rate) by (apply Rdiv_lt_0_compat; lra). replace (2 * f * k / rate) with (2 * f / rate * (k - 1) + 2 * f / rate) by (field; lra). set (z := 2 * f / rate) in *. clearbody z.
      rewrite <- (Rmult_1_r PI) at 1. rewrite <- Rmult_plus_distr_l. apply Rmult_le_compat_l; [lra|]. assert (z * / INR factor <= z * 1) by (apply Rmult_le_compat_l; lra). lra. }
    destruct (near_peak p q t (INR factor * INR m - 24) _ HT HL) as (N & HN & HW). fold A in HW.
    set (n := (m + N / factor)%nat). set (ph := (N mod factor)%nat). assert (N = factor * (N / factor) + N mod factor)%nat as EN by (apply Nat.div_mod; lia).
    assert (ph < factor)%nat as Hp by (apply Nat.mod_upper_bound; lia).
    assert (N / factor < length new)%nat as HD by (apply Nat.div_lt_upper_bound; lia).
    assert (INR factor * INR m - 24 + INR N = instant factor n ph) as EI.
    { unfold instant, n, ph. rewrite EN at 1. rewrite !plus_INR, mult_INR. ring. }
    rewrite EI in HW. assert (m <= n < length ys)%nat as Hn' by (unfold n; lia). destruct (OUT n ph Hn' Hp) as (F & NN).
    assert (In (f64_of_f32 (f32_abs (interpolated P E taps factor xs (length pre + n) ph))) (levels_of new ++ magnitudes (oversampled P E (e_rate e) xs (length past)))) as IN.
    { apply in_or_app. right. unfold magnitudes. apply in_map_iff. eexists. split; [reflexivity|]. apply O2. exists (length pre + n)%nat, ph. split; [lia|]. split; auto. }
    rewrite Forall_forall in XA. specialize (XA _ IN). rewrite (proj2 (magnitude_real _ F)) in XA.
    assert (t / 2 = PI * f / (INR factor * rate)) as Et by (unfold t, angle; field; lra). rewrite Et in HW.
    set (o := real32 _) in *. set (W := wave _ _ _) in *. clearbody o W. pose proof (Rabs_triang_inv W o) as TI. rewrite Rabs_minus_sym in TI. unfold B in NN. lra.
Qed.

(** * C70: the bounds are attained *)
Lemma sign_real z : z = 1%Z \/ z = (-1)%Z -> is_finite (f32_of_Z z) = true /\ real32 (f32_of_Z z) = IZR z.
Proof.
  assert (bpow radix2 (-23) = / 8388608) as E by reflexivity.
  intros [->| ->]; (split; [reflexivity|]); unfold real32; rewrite <- SF2R_B2SF.
  - replace (B2SF (f32_of_Z 1)) with (SpecFloat.S754_finite false 8388608 (-23)) by (vm_compute; reflexivity). unfold SF2R, F2R. cbn [Fnum Fexp SpecFloat.cond_Zopp]. rewrite E. lra.
  - replace (B2SF (f32_of_Z (-1))) with (SpecFloat.S754_finite true 8388608 (-23)) by (vm_compute; reflexivity). unfold SF2R, F2R. cbn [Fnum Fexp SpecFloat.cond_Zopp Z.opp]. rewrite E. lra.
Qed.
Lemma signs_moderate l : Forall (fun z => z = 1%Z \/ z = (-1)%Z) l -> Forall (moderate 1) (signs l).
Proof.
  intros H. unfold signs. rewrite Forall_map. eapply Forall_impl; [|exact H]. intros z Hz. destruct (sign_real z Hz) as (F & R). split; auto. rewrite R. destruct Hz as [->| ->]; unfold Rabs; destruct (Rcase_abs _); lra.
Qed.
(** the output for the last of the signs is close to a sum of the table *)
Lemma signs_output taps factor pre l f : (taps = 12 /\ factor = 4 \/ taps = 24 /\ factor = 2)%nat -> (f < factor)%nat -> length l = taps -> Forall (fun z => z = 1%Z \/ z = (-1)%Z) l ->
  Rabs (interpolatedR taps factor (pre ++ signs l) (length pre + (taps - 1)) f -
    IZR (fold_right Z.add 0%Z (map (fun k => (nth (taps - 1 - k) l 0 * nth (gap (k * factor + f)) (tapT factor) 0)%Z) (seq 0 taps))) / 10 ^ 6) <= INR taps * (2 * / 10 ^ 6).
Proof.
  intros HT Hf Hl HS. unfold interpolatedR.
  assert (forall ks, IZR (fold_right Z.add 0%Z (map (fun k => (nth (taps - 1 - k) l 0 * nth (gap (k * factor + f)) (tapT factor) 0)%Z) ks)) / 10 ^ 6 =
    total (map (fun k => IZR (nth (taps - 1 - k) l 0%Z) * (IZR (nth (gap (k * factor + f)) (tapT factor) 0%Z) / 10 ^ 6)) ks)) as ->.
  { induction ks as [|k ks IH]; cbn [map fold_right total]; [lra|]. unfold total in IH. rewrite <- IH, plus_IZR, mult_IZR. lra. }
  rewrite <- (seq_length taps 0) at 3. apply total_diff. apply Forall_forall. intros k Hk. apply in_seq in Hk.
  rewrite sample_before_skip by lia. unfold sample_before. destruct (Nat.leb_spec k (taps - 1)); [|lia].
  assert (nth (taps - 1 - k) (signs l) f32_zero = f32_of_Z (nth (taps - 1 - k) l 0%Z)) as ->.
  { unfold signs. rewrite (nth_indep _ f32_zero (f32_of_Z 0)) by (rewrite map_length; lia). apply map_nth. }
  assert (nth (taps - 1 - k) l 0%Z = 1%Z \/ nth (taps - 1 - k) l 0%Z = (-1)%Z) as Hz by (rewrite Forall_forall in HS; apply HS, nth_In; lia).
  rewrite (proj2 (sign_real _ Hz)). rewrite <- Rmult_minus_distr_l, Rabs_mult.
  assert (Rabs (IZR (nth (taps - 1 - k) l 0%Z)) = 1) as -> by (destruct Hz as [->| ->]; unfold Rabs; destruct (Rcase_abs _); lra).
  rewrite Rmult_1_l. apply tap_near; [clear - HT; lia|]. destruct HT as [(-> & ->)|(-> & ->)]; lia.
Qed.
Lemma mono_input P l : channel_input P 1 0 (AF32 l) = Some (map (read P smp_f32) l).
Proof.
  unfold channel_input, input, interleaved_input. rewrite Nat.mod_1_r. cbn [Nat.eqb deinterleave seq map nth_error N.to_nat]. f_equal. unfold channel_samples. rewrite Nat.div_1_r.
  rewrite flat_map_concat_map. generalize (map (read P smp_f32) l). intros q. induction q as [|x q IH] using rev_ind; [reflexivity|]. rewrite app_length, Nat.add_1_r, seq_S, map_app, concat_app. cbn [map concat Nat.add].
  f_equal.
  - rewrite <- IH at 2. f_equal. apply map_ext_in. intros k Hk. apply in_seq in Hk. rewrite nth_error_app1 by lia. reflexivity.
  - rewrite nth_error_app2 by lia. replace (length q * 1 + 0 - length q)%nat with 0%nat by lia. reflexivity.
Qed.
Lemma attained P E e lg r e' taps factor l f : is_64bit P -> sin_accurate E -> cos_accurate E -> logged P E e lg -> e_channels e = 1%nat -> has_TRUE_PEAK (e_mode e) -> Forall (moderate 1) (channel 0 (lg_past lg)) ->
  oversampling (e_rate e) = Some (taps, factor) -> (f < factor)%nat -> length l = taps -> Forall (fun z => z = 1%Z \/ z = (-1)%Z) l -> step P E e (OpAdd (AF32 (signs l))) = Ret (r, e') ->
  exists x, ask P E e' (QPrevTruePeak 0) = Ret (AValue (Ok x)) /\
    IZR (fold_right Z.add 0%Z (map (fun k => (nth (taps - 1 - k) l 0 * nth (gap (k * factor + f)) (tapT factor) 0)%Z) (seq 0 taps))) / 10 ^ 6 - 0.0001 <= real x.
Proof.
  intros HP HS HC Hl C1 Hm HB Ho Hf Ll Sl Hst. pose proof (signs_moderate l Sl) as HM. pose proof (taps_cases _ _ _ Ho) as TC.
  assert (channel_input P (e_channels e) 0 (AF32 (signs l)) = Some (map (read P smp_f32) (signs l))) as Hi by (rewrite C1; apply mono_input).
  assert (map r_32 (map (read P smp_f32) (signs l)) = signs l) as E32. { rewrite map_map. cbn. apply map_id. }
  assert (length (signs l) = taps) as LS by (unfold signs; now rewrite map_length).
  destruct (last_call_near P E e lg (AF32 (signs l)) r e' 0%N _ taps factor 1 HP HS HC Hl I Hst Hm Ho Hi) as (x & Q & F & _ & B & _).
  - intros Z. apply (f_equal (@length reading)) in Z. rewrite map_length, LS in Z. cbn in Z. lia.
  - split; [lra|]. apply pow_R1_Rle. lra.
  - rewrite E32. apply Forall_app. auto.
  - rewrite Forall_map. eapply Forall_impl; [|exact HM]. intros y (Fy & _). rewrite level_f32. apply magnitude_real. exact Fy.
  - exists x. split; auto. rewrite E32 in B. set (past := channel 0 (lg_past lg)) in *.
    specialize (B (length past + (taps - 1))%nat f ltac:(rewrite app_length, LS; lia) Hf).
    pose proof (signs_output taps factor past l f TC Hf Ll Sl) as SO. set (z := IZR _ / _) in *. set (o := interpolatedR _ _ _ _ _) in *. clearbody z o.
    assert (INR taps <= 24). { destruct TC as [(-> & _)|(-> & _)]; rewrite <- INR_24; apply le_INR; lia. }
    assert (INR taps * (2 * / 10 ^ 6) <= 24 * (2 * / 10 ^ 6)) by (apply Rmult_le_compat_r; lra).
    unfold fir_noise in B. assert (/ 2 ^ 118 <= / 2 ^ 30) by (apply Rinv_le_contravar; [apply pow_lt; lra|apply Rle_pow; [lra|lia]]). set (y := / 2 ^ 118) in *. clearbody y.
    apply Rabs_le_inv in SO. pose proof (Rle_abs o). lra.
Qed.
Lemma signs_checked l : forallb (fun z => (z =? 1) || (z =? -1))%Z l = true -> Forall (fun z => z = 1%Z \/ z = (-1)%Z) l.
Proof. intros H. rewrite forallb_forall in H. apply Forall_forall. intros z Hz. specialize (H z Hz). apply orb_true_iff in H. rewrite !Z.eqb_eq in H. exact H. Qed.
Lemma attained_4 P E e lg r e' : is_64bit P -> sin_accurate E -> cos_accurate E -> logged P E e lg -> e_channels e = 1%nat -> has_TRUE_PEAK (e_mode e) -> (e_rate e < 96000)%N -> Forall (moderate 1) (channel 0 (lg_past lg)) ->
  step P E e (OpAdd (AF32 loud4)) = Ret (r, e') -> exists x, ask P E e' (QPrevTruePeak 0) = Ret (AValue (Ok x)) /\ 1.864 <= real x.
Proof.
  intros HP HS HC Hl C1 Hm Hr HB Hst. assert (oversampling (e_rate e) = Some (12, 4)%nat) as Ho by (unfold oversampling; apply N.ltb_lt in Hr; now rewrite Hr).
  destruct (attained P E e lg r e' 12 4 [-1; 1; -1; 1; -1; 1; 1; -1; 1; -1; 1; -1]%Z 2 HP HS HC Hl C1 Hm HB Ho ltac:(lia) eq_refl ltac:(apply signs_checked; reflexivity) Hst) as (x & Q & B). exists x. split; auto.
  set (z := fold_right _ _ _) in B. assert (1864150 <= z)%Z as Z by (vm_compute; discriminate). apply IZR_le in Z. lra.
Qed.
Lemma attained_2 P E e lg r e' : is_64bit P -> sin_accurate E -> cos_accurate E -> logged P E e lg -> e_channels e = 1%nat -> has_TRUE_PEAK (e_mode e) -> (96000 <= e_rate e < 192000)%N -> Forall (moderate 1) (channel 0 (lg_past lg)) ->
  step P E e (OpAdd (AF32 loud2)) = Ret (r, e') -> exists x, ask P E e' (QPrevTruePeak 0) = Ret (AValue (Ok x)) /\ 2.306 <= real x.
Proof.
  intros HP HS HC Hl C1 Hm Hr HB Hst. assert (oversampling (e_rate e) = Some (24, 2)%nat) as Ho.
  { unfold oversampling. destruct (N.ltb_spec (e_rate e) 96000); [lia|]. destruct (N.ltb_spec (e_rate e) 192000); [reflexivity|lia]. }
  destruct (attained P E e lg r e' 24 2 [-1; 1; -1; 1; -1; 1; -1; 1; -1; 1; -1; 1; 1; -1; 1; -1; 1; -1; 1; -1; 1; -1; 1; -1]%Z 1 HP HS HC Hl C1 Hm HB Ho ltac:(lia) eq_refl ltac:(apply signs_checked; reflexivity) Hst) as (x & Q & B). exists x. split; auto.
  set (z := fold_right _ _ _) in B. assert (2306700 <= z)%Z as Z by (vm_compute; discriminate). apply IZR_le in Z. lra.
Qed.

(** * C71: within the tolerance of EBU Tech 3341 *)
Lemma power_of_ten_up : 1.023 <= Rpower 10 (0.2 / 20).
Proof.
  apply Rnot_lt_le. intros H. assert (0 < Rpower 10 (0.2 / 20)) as P0 by apply exp_pos. assert (Rpower 10 (0.2 / 20) ^ 100 = 10) as E.
  { rewrite <- Rpower_pow by exact P0. rewrite Rpower_mult. replace (0.2 / 20 * INR 100) with 1; [apply Rpower_1; lra|]. rewrite (INR_IZR_INZ 100). change (IZR (Z.of_nat 100)) with 100. lra. }
  assert (Rpower 10 (0.2 / 20) ^ 100 <= 1.023 ^ 100) as L by (apply pow_incr; lra). rewrite E in L. assert (1.023 ^ 100 <= 9.8) by lra. lra.
Qed.
Lemma power_of_ten_down : Rpower 10 (- 0.4 / 20) <= 0.956.
Proof.
  apply Rnot_lt_le. intros H. assert (0 < Rpower 10 (- 0.4 / 20)) as P0 by apply exp_pos. assert (Rpower 10 (- 0.4 / 20) ^ 50 = / 10) as E.
  { rewrite <- Rpower_pow by exact P0. rewrite Rpower_mult. replace (- 0.4 / 20 * INR 50) with (Ropp 1); [rewrite Rpower_Ropp, Rpower_1; lra|]. rewrite (INR_IZR_INZ 50). change (IZR (Z.of_nat 50)) with 50. lra. }
  assert (0.956 ^ 50 <= Rpower 10 (- 0.4 / 20) ^ 50) as L by (apply pow_incr; lra). rewrite E in L. assert (0.1 < 0.956 ^ 50) by lra. lra.
Qed.
Lemma cos_sixteenth : 0.9807 <= cos (PI / 16).
Proof.
  pose proof PI_digits as HP. assert (0 <= cos (PI / 16)) as C0 by (apply cos_ge_0; lra). assert (0 <= cos (PI / 8)) as C1 by (apply cos_ge_0; lra).
  assert (cos (PI / 4) = 2 * cos (PI / 8) * cos (PI / 8) - 1) as E1 by (rewrite <- cos_2a_cos; f_equal; lra).
  assert (cos (PI / 8) = 2 * cos (PI / 16) * cos (PI / 16) - 1) as E2 by (rewrite <- cos_2a_cos; f_equal; lra).
  rewrite cos_PI4 in E1. assert (0.7071 <= 1 / sqrt 2) as S2. { pose proof sqrt2_digits as D. apply Rmult_le_reg_r with (sqrt 2); [lra|]. replace (1 / sqrt 2 * sqrt 2) with 1 by (field; lra). lra. }
  assert (0.9238 <= cos (PI / 8)) by (apply Rnot_lt_le; intros H; nra). apply Rnot_lt_le. intros H'. nra.
Qed.
Lemma tone_tolerance P E e lg a r e' c new f p q d : is_64bit P -> sin_accurate E -> cos_accurate E -> logged P E e lg -> admissible e (OpAdd a) -> step P E e (OpAdd a) = Ret (r, e') ->
  has_TRUE_PEAK (e_mode e) -> (e_rate e < 96000)%N -> integers_fit a -> channel_input P (e_channels e) c a = Some new ->
  let rate := IZR (Z.of_N (e_rate e)) in let A := amplitude p q in
  0 < f <= rate / 4 -> 0 <= d <= 0.007 * A -> / 2 ^ 100 <= A <= 2 ^ 80 -> carries_tone 11 rate f p q d (channel c (lg_past lg)) new -> rate <= 2 * f * (INR (length new) - 1) ->
  exists x, ask P E e' (QPrevTruePeak c) = Ret (AValue (Ok x)) /\ A * Rpower 10 (- 0.4 / 20) <= real x <= A * Rpower 10 (0.2 / 20).
Proof.
  intros HP HS HC Hl Ha Hst Hm Hr HI Hc rate A Hf Hd HA HT Hlong. assert (oversampling (e_rate e) = Some (12, 4)%nat) as Ho by (unfold oversampling; apply N.ltb_lt in Hr; now rewrite Hr).
  assert (16 <= rate) as R16. { apply IZR_le. destruct (logged_ok P E e lg HP Hl) as (g & L & (HG & _) & _). pose proof (proj1 (i_rate _ _ _ _ _ HG)). lia. }
  assert (new <> []) as Hn by (intros ->; cbn [length INR] in Hlong; nra).
  assert (ripple (e_rate e) f 0.0041) as HR by (left; repeat split; auto; apply Hf).
  assert (0 < / 2 ^ 100) as P100 by (apply Rinv_0_lt_compat, pow_lt; lra).
  assert (/ 2 ^ 115 = / 2 ^ 100 * / 32768) as E115. { replace 115%nat with (100 + 15)%nat by lia. rewrite pow_add, Rinv_mult. f_equal. lra. }
  assert (2 * 2 ^ 80 <= 2 ^ 90) as P90. { replace 90%nat with (80 + 10)%nat by lia. rewrite pow_add. assert (0 < 2 ^ 80) by (apply pow_lt; lra). set (y := 2 ^ 80) in *. clearbody y. lra. }
  destruct (tone_call P E e lg a r e' c new 12 4 f p q d 0.0041 HP HS HC Hl Ha Hst Hm Ho HI Hc Hn) as (x & Q & _ & U & L); auto; try lra.
  { fold A. set (Y := 2 ^ 80) in *. set (Z := 2 ^ 90) in *. clearbody Y Z. lra. }
  exists x. split; auto. specialize (L Hlong). fold A in U, L. fold rate in L. pose proof power_of_ten_up as PU. pose proof power_of_ten_down as PD. rewrite E115 in U, L.
  assert (0.9807 <= cos (PI * f / (INR 4 * rate))) as CC.
  { eapply Rle_trans; [exact cos_sixteenth|]. pose proof PI_digits. assert (INR 4 = 4) as -> by (cbn; lra).
    assert (0 < f / rate <= / 4) as (Z1 & Z2). { split; [apply Rdiv_lt_0_compat; lra|]. apply Rmult_le_reg_r with rate; [lra|]. unfold Rdiv. rewrite Rmult_assoc, Rinv_l by lra. lra. }
    assert (PI * f / (4 * rate) = PI * (f / rate) / 4) as -> by (field; lra). set (z := f / rate) in *. clearbody z.
    assert (0 < PI * z <= PI * / 4) by (split; [apply Rmult_lt_0_compat; lra|apply Rmult_le_compat_l; lra]). apply cos_decr_1; lra. }
  set (C := cos _) in *. set (y := / 2 ^ 100) in *. clearbody C y. set (pu := Rpower 10 (0.2 / 20)) in *. set (pd := Rpower 10 (- 0.4 / 20)) in *. clearbody pu pd.
  assert (A * (0.9807 - 0.0041) <= A * (C - 0.0041)) by (apply Rmult_le_compat_l; lra). assert (A * pd <= A * 0.956) by (apply Rmult_le_compat_l; lra). assert (A * 1.023 <= A * pu) by (apply Rmult_le_compat_l; lra).
  split; lra.
Qed.
