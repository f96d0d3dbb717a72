(** Two analyzers that get corresponding calls: if what is noted down about their signals
    corresponds and corresponding signals have the same energies, they report the same
    loudness. *)
From Coq Require Import List Arith NArith ZArith Bool Lia.
From Verif Require Import Prelude Float Env Utils Interp History TruePeak Filter Ebur128 Ref Prelude_proofs Utils_proofs
  Filter_proofs Geometry_proofs History_proofs Ebur128_proofs Ops_proofs Chunk_proofs Spec Reach_proofs Input_proofs
  Trace_proofs Stream_proofs Energy_proofs Loud_proofs Peak_proofs.
Import ListNotations.
Local Open Scope nat_scope.

Definition cut_track (k : nat) (t : list track) : list track := map (fun tr => (fst tr, firstn k (snd tr))) t.
Lemma cut_signals k t : signals (cut_track k t) = map (firstn k) (signals t).
Proof. unfold signals, cut_track. now rewrite !map_map. Qed.

Section Compare.
Variables (P : platform) (E : ext).
Hypothesis HP : is_64bit P.
Variable K : list Filter.channel -> list Filter.channel -> Prop.
Variable T : list track -> list track -> Prop.
Variable X : list (list reading) -> list (list reading) -> Prop.
Variable M : ebur128 -> op -> op -> Prop.
Hypothesis X_frames : forall x y, X x y -> frames_of x = frames_of y.
Hypothesis X_cut : forall k x y, X x y -> X (map (firstn k) x) (map (firstn k) y) /\ X (map (skipn k) x) (map (skipn k) y).
Hypothesis T_frames : forall t u, T t u -> frames_of (signals t) = frames_of (signals u).
Hypothesis T_blank : forall C, T (blank C) (blank C).
Hypothesis T_window : forall t u, T t u -> T (map (fun tr => (fst tr, [])) t) (map (fun tr => (fst tr, [])) u).
Hypothesis T_cut : forall k t u, T t u -> T (cut_track k t) (cut_track k u).
Hypothesis T_add : forall e f t u x y, e_rate e = e_rate f -> capacity e = capacity f -> K (e_cmap e) (e_cmap f) ->
  length t = length (e_cmap e) -> length x = length (e_cmap e) -> T t u -> X x y ->
  T (per_channel (track_after P E e) (e_cmap e) t x) (per_channel (track_after P E f) (e_cmap f) u y).
Hypothesis T_seed : forall e f t u x y, e_rate e = e_rate f -> K (e_cmap e) (e_cmap f) ->
  length t = length (e_cmap e) -> length x = length (e_cmap e) -> T t u -> X x y ->
  T (per_channel (seed_track P E e) (e_cmap e) t x) (per_channel (seed_track P E f) (e_cmap f) u y).
Hypothesis K_default : forall C, K (default_channel_map C) (default_channel_map C).
Hypothesis T_energy : forall L w cm cm' t u, K cm cm' -> length t = length cm -> T t u ->
  energy L w cm (signals t) = energy L w cm' (signals u).
Definition sets_map (o : op) : bool := match o with OpSetChannel _ _ | OpSetChannelMap _ => true | _ => false end.
Hypothesis M_map : forall e f o o' r r' e' f', sets_map o = true -> sets_map o' = true -> M e o o' ->
  e_channels e = e_channels f -> length (e_cmap e) = e_channels e -> K (e_cmap e) (e_cmap f) ->
  step P E e o = Ret (r, e') -> step P E f o' = Ret (r', f') ->
  exists m m', e' = with_cmap e m /\ f' = with_cmap f m' /\ K m m'.

Definition comp_call (e : ebur128) (o o' : op) : Prop :=
  match o, o' with
  | OpAdd a, OpAdd b | OpSeed a, OpSeed b => same_input X (input P (e_channels e) a) (input P (e_channels e) b)
  | OpSetChannel _ _, OpSetChannel _ _ | OpSetChannelMap _, OpSetChannelMap _ => M e o o'
  | _, _ => o = o'
  end.
Inductive comp_session : ebur128 -> ebur128 -> ebur128 -> ebur128 -> Prop :=
| comp_nil e f : comp_session e f e f
| comp_cons e f o o' r r' e1 f1 e2 f2 :
    comp_call e o o' -> admissible e o -> admissible f o' ->
    step P E e o = Ret (r, e1) -> step P E f o' = Ret (r', f1) ->
    comp_session e1 f1 e2 f2 -> comp_session e f e2 f2.

Record paired (e f : ebur128) : Prop := {
  pr_mode : e_mode f = e_mode e; pr_rate : e_rate f = e_rate e; pr_channels : e_channels f = e_channels e;
  pr_cmap : K (e_cmap e) (e_cmap f); pr_window : e_window f = e_window e; pr_history : e_history f = e_history e;
  pr_block : e_block f = e_block e; pr_short : e_short f = e_short e }.

Lemma taped_length e t : taped P E e t -> length t = e_channels e /\ length (e_cmap e) = e_channels e.
Proof.
  intros HT. destruct (taped_ok P E e t HP HT) as (g & L & HG & HO). destruct HG as (H & _).
  split; [|exact (i_cmap _ _ _ _ _ H)].
  exact (y_len _ _ _ _ _ (proj1 HO)).
Qed.
Lemma pair_capacity e f : paired e f -> capacity f = capacity e /\ hop f = hop e.
Proof. intros []. unfold capacity, hop. split; congruence. Qed.
Lemma pair_pieces e f : paired e f -> forall ks t u x y, length t = length (e_cmap e) -> length x = length (e_cmap e) ->
  T t u -> X x y -> T (tape_pieces P E e ks t x) (tape_pieces P E f ks u y).
Proof.
  intros W. destruct (pair_capacity e f W) as (Hc & _). destruct W.
  induction ks as [|k ks IH]; intros t u x y Ht Hx HT HX; cbn [tape_pieces]; auto.
  destruct (X_cut k x y HX) as (X1 & X2). apply IH; auto.
  - rewrite per_channel_length; rewrite ?map_length; lia.
  - now rewrite map_length.
  - apply T_add; auto. now rewrite map_length.
Qed.
Lemma pair_recorded flag L w cm cm' t u ends : K cm cm' -> length t = length cm -> T t u -> forall h,
  recorded_in flag L w cm (signals t) ends h = recorded_in flag L w cm' (signals u) ends h.
Proof.
  intros HK Ht HT. unfold recorded_in. destruct flag; auto.
  assert (forall k, energy_at L w cm (signals t) k = energy_at L w cm' (signals u) k) as He.
  { intros k. unfold energy_at. rewrite <- !cut_signals. apply T_energy; auto. unfold cut_track. now rewrite map_length. }
  induction ends as [|k l IH]; intros h; cbn [fold_left map]; auto. rewrite He. apply IH.
Qed.

Lemma pair_tape e f o o' t u :
  paired e f -> comp_call e o o' -> T t u -> length t = length (e_cmap e) ->
  (forall a x, (o = OpAdd a \/ o = OpSeed a) -> input P (e_channels e) a = Some x -> length x = length (e_cmap e)) ->
  T (tape_after P E e o t) (tape_after P E f o' u).
Proof.
  intros W HC HT Ht Hlen. destruct (pair_capacity e f W) as (HL & Hh). pose proof W as [].
  destruct o as [number v|m|c rt|w|h| |a|a], o' as [number' v'|m'|c' rt'|w'|h'| |b|b];
    cbn [comp_call] in HC; try discriminate; try (injection HC; intros; subst); cbn [tape_after]; auto;
    rewrite ?pr_channels0, ?pr_rate0, ?pr_mode0, ?pr_window0.
  - destruct (negb _ || _); auto.
  - destruct (_ =? _)%N; auto.
  - auto.
  - specialize (Hlen a). destruct (input P (e_channels e) a) as [x|], (input P (e_channels e) b) as [y|]; cbn [same_input] in HC;
      try contradiction; auto.
    unfold tape_add. rewrite Hh, <- (X_frames x y HC), <- (T_frames t u HT). apply pair_pieces; auto.
  - specialize (Hlen a). destruct (input P (e_channels e) a) as [x|], (input P (e_channels e) b) as [y|]; cbn [same_input] in HC;
      try contradiction; auto.
Qed.

Lemma pair_step e f t u o o' r r' e' f' : taped P E e t -> taped P E f u -> T t u -> paired e f ->
  comp_call e o o' -> admissible e o -> admissible f o' -> step P E e o = Ret (r, e') -> step P E f o' = Ret (r', f') ->
  paired e' f' /\ T (tape_after P E e o t) (tape_after P E f o' u).
Proof.
  intros HT HT' HTu W HC Ha Ha' Hs Hs'. destruct (pair_capacity e f W) as (HL & Hh).
  destruct (taped_length e t HT) as (Lt & Lc).
  destruct (taped_ok P E e _ HP HT) as (g & L & HG & HO). destruct (taped_ok P E f _ HP HT') as (g1 & L1 & HG1 & HO1).
  destruct (step_moves P E e g L o r e' HP HG Ha Hs) as (g' & L' & HG' & HMv).
  destruct (step_moves P E f g1 L1 o' r' f' HP HG1 Ha' Hs') as (g1' & L1' & HG1' & HMv').
  assert (forall a x, (o = OpAdd a \/ o = OpSeed a) -> input P (e_channels e) a = Some x -> length x = length (e_cmap e)) as Hlen.
  { intros a x [-> | ->] Hx; cbn [moved] in HMv; destruct HMv as (_ & Hi & _); rewrite Hx in Hi;
      destruct Hi as ((Hi & _) & _); congruence. }
  assert (T (tape_after P E e o t) (tape_after P E f o' u)) as Htape.
  { apply pair_tape; auto. congruence. }
  split; auto. pose proof W as W0. destruct W0.
  destruct o as [number v|m|c rt|w|h| |a|a], o' as [number' v'|m'|c' rt'|w'|h'| |b|b];
    cbn [comp_call] in HC; try discriminate; try (injection HC; intros; subst).
  - destruct (M_map e f (OpSetChannel number v) (OpSetChannel number' v') r r' e' f' eq_refl eq_refl HC) as (m & m' & -> & -> & HK); auto. split; auto.
  - destruct (M_map e f (OpSetChannelMap m) (OpSetChannelMap m') r r' e' f' eq_refl eq_refl HC) as (n & n' & -> & -> & HK); auto. split; auto.
  - cbn [moved] in HMv, HMv'. unfold changed in HMv, HMv'. rewrite pr_rate0, pr_channels0 in HMv'.
    destruct (params_ok c' rt' && _).
    + destruct HMv as (_ & _ & f1 & _ & _ & _ & ->). destruct HMv' as (_ & _ & f2 & _ & _ & _ & ->).
      split; inv_fields; auto. now destruct (_ =? _)%N.
    + destruct HMv as (-> & _). destruct HMv' as (-> & _). exact W.
  - cbn [moved] in HMv, HMv'. unfold rewindowed in HMv, HMv'. cbv zeta in HMv, HMv'. rewrite pr_mode0, pr_window0 in HMv'.
    destruct (_ =? _)%N.
    + destruct HMv as (-> & _). destruct HMv' as (-> & _). exact W.
    + destruct HMv as (_ & _ & ->). destruct HMv' as (_ & _ & ->). split; inv_fields; auto.
  - cbn [moved] in HMv, HMv'. destruct HMv as (-> & _). destruct HMv' as (-> & _). unfold set_max_history.
    rewrite pr_history0, pr_mode0. destruct (_ =? _)%N; [exact W|]. cbn [snd]. split; cbn; auto; congruence.
  - cbn [moved] in HMv, HMv'. destruct HMv as ((f1 & _ & _ & _ & ->) & _). destruct HMv' as ((f2 & _ & _ & _ & ->) & _).
    split; inv_fields; auto; congruence.
  - cbn [moved] in HMv, HMv'. destruct HMv as (-> & Hi & Heq). destruct HMv' as (-> & Hi' & Heq').
    rewrite pr_channels0 in Hi', Heq'. cbn [tape_after] in Htape. rewrite pr_channels0 in Htape.
    specialize (Hlen a).
    destruct (input P (e_channels e) a) as [x|] eqn:Ex, (input P (e_channels e) b) as [y|] eqn:Ey;
      cbn [same_input] in HC; try contradiction.
    2:{ apply pair_equal_spec in Heq, Heq'. destruct Heq as (-> & _). destruct Heq' as (-> & _). exact W. }
    destruct Hi as (Hc & _). destruct Hi' as (Hc' & _). 
    assert (columns (e_channels f) y) as Hc2 by (rewrite pr_channels0; exact Hc').
    pose proof (added_taped P E e g L t x HG HO Hc) as Y. pose proof (added_taped P E f g1 L1 u y HG1 HO1 Hc2) as Y'.
    cbv zeta in Y, Y'. rewrite <- Heq in Y. rewrite <- Heq' in Y'. cbn [fst snd] in Y, Y'.
    destruct Y as (_ & _ & _ & _ & X4 & X5). destruct Y' as (_ & _ & _ & _ & X4' & X5').
    assert (L1 = L) as ->.
    { destruct HG as (H & _). destruct HG1 as (H1 & _). rewrite <- (capacity_L _ _ _ _ _ H), <- (capacity_L _ _ _ _ _ H1). exact HL. }
    rewrite Hh, pr_mode0, pr_block0, <- (T_frames t u HTu), <- (X_frames x y HC) in X4'.
    rewrite Hh, pr_mode0, pr_short0, <- (T_frames t u HTu), <- (X_frames x y HC) in X5'.
    assert (length (tape_add P E e t x) = length (e_cmap e)) as Hl.
    { pose proof (taped_step P E e (OpAdd a) _ _ t HT Ha Hs) as HT2. cbn [tape_after] in HT2. rewrite Ex in HT2.
      destruct (taped_length _ _ HT2) as (Q1 & Q2). rewrite Q1.
      pose proof (added_config P E smp_reading e g (frame_count x) x) as (C1 & C2 & C3 & C4 & C5 & C6 & C7).
      rewrite <- Heq in *. cbn [fst] in *. congruence. }
    rewrite <- (pair_recorded _ _ _ _ _ _ _ _ pr_cmap0 Hl Htape) in X4'.
    rewrite <- (pair_recorded _ _ _ _ _ _ _ _ pr_cmap0 Hl Htape) in X5'.
    pose proof (added_config P E smp_reading e g (frame_count x) x) as (C1 & C2 & C3 & C4 & C5 & C6 & C7).
    pose proof (added_config P E smp_reading f g1 (frame_count y) y) as (D1 & D2 & D3 & D4 & D5 & D6 & D7).
    rewrite <- Heq in *. rewrite <- Heq' in *. cbn [fst] in *. split; try congruence.
  - cbn [moved] in HMv, HMv'. destruct HMv as (-> & _ & Heq). destruct HMv' as (-> & _ & Heq'). rewrite pr_channels0 in Heq'.
    destruct (input P (e_channels e) a) as [x|], (input P (e_channels e) b) as [y|]; cbn [same_input] in HC; try contradiction;
      apply pair_equal_spec in Heq, Heq'; destruct Heq as (-> & _); destruct Heq' as (-> & _); auto.
    split; auto.
Qed.
Lemma pair_ask e f t u q : taped P E e t -> taped P E f u -> T t u -> paired e f -> about_loudness q = true ->
  ask P E e q = ask P E f q.
Proof.
  intros HT HT' HTu W Hq. destruct (pair_capacity e f W) as (HL & Hh). pose proof W as [].
  destruct (taped_length e t HT) as (Lt & Lc).
  assert (forall w, energy_in_interval e w = energy_in_interval f w) as HE.
  { intros w. rewrite (interval_ok P E e _ w HP HT), (interval_ok P E f _ w HP HT'). rewrite HL.
    rewrite (T_energy _ _ _ (e_cmap f) t u); auto. congruence. }
  assert (e_s100 e = e_s100 f) as Hs.
  { now rewrite (hop_eq P E e t), (hop_eq P E f u) by auto. }
  destruct q; try discriminate; cbn [ask].
  - unfold loudness_momentary. now rewrite HE, Hs.
  - unfold loudness_shortterm, energy_shortterm. now rewrite HE, Hs.
  - unfold loudness_window. rewrite pr_rate0. destruct (checked _ _); auto. now rewrite HE.
  - unfold loudness_global. now rewrite pr_mode0, pr_block0.
  - unfold loudness_range. now rewrite pr_mode0, pr_short0.
  - unfold relative_threshold. now rewrite pr_mode0, pr_block0.
  - unfold gating_block_count_and_energy. now rewrite pr_block0.
Qed.
Lemma pair_sessions : forall e f e' f', comp_session e f e' f' -> forall t u,
  taped P E e t -> taped P E f u -> T t u -> paired e f ->
  exists t' u', taped P E e' t' /\ taped P E f' u' /\ T t' u' /\ paired e' f'.
Proof.
  intros e f e' f' HS. induction HS as [e f|e f o o' r r' e1 f1 e2 f2 HC Ha Ha' Hs Hs' HS IH]; intros t u HT HT' HTu W.
  - eauto 8.
  - destruct (pair_step e f t u o o' r r' e1 f1 HT HT' HTu W HC Ha Ha' Hs Hs') as (M1 & T1).
    eapply IH; eauto; eapply taped_step; eauto.
Qed.
Lemma compared channels rate m e e' f' : ebur128_new P E channels rate m = Ret (Ok e) -> supported m rate ->
  comp_session e e e' f' ->
  paired e' f' /\ forall q, about_loudness q = true -> ask P E e' q = ask P E f' q.
Proof.
  intros Hn Hs HS. pose proof (taped_new P E channels rate m e Hn Hs) as HT.
  assert (paired e e) as W.
  { split; auto. destruct (new_shape _ _ _ _ _ _ Hn) as (Hp1 & Hp2 & Hp3).
    destruct (ebur128_new_ok P E channels rate m HP) as
      (e1 & g & L & Hn1 & _ & _ & _ & C & _ & _ & _ & _ & _ & _ & _ & X5 & _).
    { apply params_valid. auto. } { now apply window_mode. }
    rewrite Hn in Hn1. apply Ret_inj in Hn1. injection Hn1 as <-. rewrite X5. apply K_default. }
  destruct (pair_sessions e e e' f' HS _ _ HT HT (T_blank _) W) as (t' & u' & T1 & T2 & T3 & W').
  split; auto. intros q Hq. eapply pair_ask; eauto.
Qed.
End Compare.

(** the peak meters *)
Definition log_sizes (C : nat) (lg : log) : Prop :=
  length (lg_heard lg) = C /\ length (lg_last lg) = C /\ length (lg_past lg) = C /\ length (lg_inter lg) = C /\
  length (lg_inter_last lg) = C.
Definition log_added (P : platform) (E : ext) (rate : N) (lg : log) (cols : list (list reading)) : log :=
  let new := map (map r_32) cols in
  let inter := oversample_new P E rate (lg_past lg) new in
  {| lg_heard := join (lg_heard lg) cols; lg_last := cols; lg_past := join (lg_past lg) new;
     lg_inter := join (lg_inter lg) inter; lg_inter_last := inter |}.
Definition log_seeded (lg : log) (cols : list (list reading)) : log :=
  {| lg_heard := lg_heard lg; lg_last := lg_last lg; lg_past := join (lg_past lg) (map (map r_32) cols);
     lg_inter := lg_inter lg; lg_inter_last := lg_inter_last lg |}.
Definition log_restarted (C : nat) (lg : log) : log :=
  {| lg_heard := lg_heard lg; lg_last := no_audio C; lg_past := no_audio C; lg_inter := lg_inter lg;
     lg_inter_last := no_audio C |}.
Section Compare_logs.
Variables (P : platform) (E : ext).
Hypothesis HP : is_64bit P.
Variable X : list (list reading) -> list (list reading) -> Prop.
Variable G : log -> log -> Prop.
Variable M : ebur128 -> op -> op -> Prop.
Hypothesis X_frames : forall x y, X x y -> frames_of x = frames_of y.
Hypothesis G_empty : forall C, G (empty_log C) (empty_log C).
Hypothesis G_add : forall rate lg lg' x y, log_sizes (length x) lg -> G lg lg' -> X x y ->
  G (log_added P E rate lg x) (log_added P E rate lg' y).
Hypothesis G_seed : forall lg lg' x y, log_sizes (length x) lg -> G lg lg' -> X x y ->
  G (log_seeded lg x) (log_seeded lg' y).
Hypothesis G_restart : forall C lg lg', log_sizes C lg -> G lg lg' -> G (log_restarted C lg) (log_restarted C lg').

Lemma logged_sizes e lg : logged P E e lg -> log_sizes (e_channels e) lg.
Proof.
  intros Hl. destruct (logged_ok P E e lg HP Hl) as (g & L & _ & B). destruct B. repeat split; auto.
Qed.
Lemma logs_step e f lg lg' o o' r e' : logged P E e lg -> G lg lg' -> e_rate f = e_rate e ->
  e_channels f = e_channels e -> comp_call P X M e o o' -> admissible e o -> step P E e o = Ret (r, e') ->
  G (log_after P E e o lg) (log_after P E f o' lg').
Proof.
  intros Hl HG HR HC Hcall Ha Hs. pose proof (logged_sizes e lg Hl) as Hsz.
  destruct (logged_ok P E e lg HP Hl) as (g & L & HGd & _).
  destruct (step_moves P E e g L o r e' HP HGd Ha Hs) as (g' & L' & _ & HMv).
  destruct o as [number v|m|c rt|w|h| |a|a], o' as [number' v'|m'|c' rt'|w'|h'| |b|b];
    cbn [comp_call] in Hcall; try discriminate; try (injection Hcall; intros; subst); cbn [log_after moved] in *; auto;
    rewrite ?HC, ?HR; auto.
  - destruct (negb _ || _); auto. destruct (_ =? _)%N; auto. now apply G_restart.
  - destruct HMv as (_ & Hi & _).
    destruct (input P (e_channels e) a) as [x|], (input P (e_channels e) b) as [y|]; cbn [same_input] in Hcall; try contradiction; auto.
    rewrite (X_frames x y Hcall). destruct (_ =? 0); auto. apply G_add; auto. destruct Hi as ((-> & _) & _). auto.
  - destruct HMv as (_ & Hi & _).
    destruct (input P (e_channels e) a) as [x|], (input P (e_channels e) b) as [y|]; cbn [same_input] in Hcall; try contradiction; auto.
    apply G_seed; auto. destruct Hi as ((-> & _) & _). auto.
Qed.
(** corresponding calls keep the shapes of the analyzers together *)
Lemma shape_step e f o o' r r' e' f' g L g1 L1 : good P E e g L -> good P E f g1 L1 ->
  e_rate f = e_rate e -> e_channels f = e_channels e -> e_mode f = e_mode e -> comp_call P X M e o o' ->
  admissible e o -> admissible f o' -> step P E e o = Ret (r, e') -> step P E f o' = Ret (r', f') ->
  e_rate f' = e_rate e' /\ e_channels f' = e_channels e' /\ e_mode f' = e_mode e'.
Proof.
  intros HG HG1 HR HC HM Hcall Ha Ha' Hs Hs'.
  destruct (step_moves P E e g L o r e' HP HG Ha Hs) as (ga & La & _ & HMv).
  destruct (step_moves P E f g1 L1 o' r' f' HP HG1 Ha' Hs') as (gb & Lb & _ & HMv').
  pose proof (moved_config _ _ _ _ _ _ _ _ _ HMv) as Q. pose proof (moved_config _ _ _ _ _ _ _ _ _ HMv') as Q'.
  destruct o as [number v|m|c rt|w|h| |a|a], o' as [number' v'|m'|c' rt'|w'|h'| |b|b];
    cbn [comp_call] in Hcall; try discriminate;
    try (destruct Q as (-> & -> & ->); destruct Q' as (-> & -> & ->); auto).
  injection Hcall; intros; subst. cbn [moved] in HMv, HMv'. unfold changed in HMv, HMv'. rewrite HR, HC in HMv'.
  destruct (params_ok c' rt' && _).
  - destruct HMv as (_ & _ & f1 & _ & _ & _ & ->). destruct HMv' as (_ & _ & f2 & _ & _ & _ & ->).
    inv_fields. auto.
  - destruct HMv as (-> & _). destruct HMv' as (-> & _). auto.
Qed.
Lemma logs_sessions : forall e f e' f', comp_session P E X M e f e' f' -> forall lg lg',
  logged P E e lg -> logged P E f lg' -> G lg lg' -> e_rate f = e_rate e -> e_channels f = e_channels e -> e_mode f = e_mode e ->
  exists l l', logged P E e' l /\ logged P E f' l' /\ G l l' /\ e_channels f' = e_channels e' /\ e_mode f' = e_mode e'.
Proof.
  intros e f e' f' HS. induction HS as [e f|e f o o' r r' e1 f1 e2 f2 HC Ha Ha' Hs Hs' HS IH]; intros lg lg' Hl Hl' HG H1 H2 H3.
  - eauto 10.
  - pose proof (logs_step e f lg lg' o o' r e1 Hl HG H1 H2 HC Ha Hs) as HG1.
    destruct (logged_ok P E e lg HP Hl) as (g & L & Hgd & _). destruct (logged_ok P E f lg' HP Hl') as (g1 & L1 & Hgd' & _).
    destruct (shape_step e f o o' r r' e1 f1 g L g1 L1) as (S1 & S2 & S3); auto.
    eapply IH; eauto; eapply logged_step; eauto.
Qed.
End Compare_logs.
