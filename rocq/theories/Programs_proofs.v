(** Proofs about the example programs (C78, C79). *)
From Coq Require Import List Arith NArith ZArith Bool Lia Reals Lra.
From Flocq Require Import Core IEEE754.BinarySingleNaN.
From Verif Require Import Prelude Float Env Utils Interp History TruePeak Filter Ebur128 Programs Prelude_proofs Utils_proofs
  TruePeak_proofs Filter_proofs Float_proofs Ebur128_proofs Ops_proofs Spec Reach_proofs Config_proofs
  Input_proofs Trace_proofs Feed_proofs Stream_proofs Loud_proofs Peak_proofs Blocks_proofs Answers_proofs Silence_proofs
  Spec_real Spec_history Spec_accuracy Spec_programme Spec_programs Accuracy_proofs Order_proofs Lufs_proofs Programme_proofs Value_proofs Report_proofs Twin_proofs Played_proofs Binned_proofs.
Import ListNotations.
Import Spec_history.
Local Open Scope nat_scope.

(** * Pieces *)
Lemma portions_ok {A} C n : 0 < n -> n mod C = 0 -> 0 < C -> forall fuel (l : list A), length l <= fuel -> length l mod C = 0 ->
  concat (portions_fuel fuel n l) = l /\ Forall (fun p => length p mod C = 0) (portions_fuel fuel n l).
Proof.
  intros Hn Hm HC. induction fuel as [|fuel IH]; intros l Hl Hd.
  - destruct l; [|cbn in Hl; lia]. split; [reflexivity|constructor].
  - destruct l as [|x l]; [split; [reflexivity|constructor]|]. cbn [portions_fuel concat]. set (k := x :: l) in *.
    assert (length (skipn n k) mod C = 0 /\ length (firstn n k) mod C = 0) as (D1 & D2).
    { rewrite skipn_length, firstn_length. apply Nat.mod_divides in Hm; [|lia]. apply Nat.mod_divides in Hd; [|lia]. destruct Hm as (a & ->), Hd as (b & ->).
      rewrite <- Nat.mul_sub_distr_l, Nat.mul_min_distr_l. rewrite !(Nat.mul_comm C), !Nat.mod_mul by lia. auto. }
    assert (length (skipn n k) <= fuel) as F by (rewrite skipn_length; unfold k in *; cbn [length] in *; lia).
    destruct (IH (skipn n k) F D1) as (I1 & I2). rewrite I1, firstn_skipn. split; auto.
Qed.
Lemma deinterleave_app {T} C (a b : list T) : 0 < C -> length a mod C = 0 -> length b mod C = 0 ->
  deinterleave C (a ++ b) = join (deinterleave C a) (deinterleave C b).
Proof.
  intros HC Ha Hb. apply Nat.mod_divides in Ha; [|lia]. apply Nat.mod_divides in Hb; [|lia]. destruct Ha as (n & Ha), Hb as (m & Hb).
  rewrite Nat.mul_comm in Ha, Hb. rewrite (deinterleave_cols C n a Ha), (deinterleave_cols C m b Hb).
  rewrite (deinterleave_cols C (n + m)) by (rewrite app_length; lia).
  destruct (chunks_split C a n HC Ha) as (A1 & A2 & _). destruct (chunks_split C b m HC Hb) as (B1 & B2 & _).
  assert (chunks C (a ++ b) = chunks C a ++ chunks C b) as ->.
  { rewrite <- A1 at 1. rewrite <- B1 at 1. rewrite <- concat_app. apply chunks_concat; auto. apply Forall_app; auto. }
  unfold join, cols_of. generalize (seq 0 C) as cs. induction cs as [|c cs IH]; [reflexivity|]. cbn [map map2]. rewrite col_app, IH. reflexivity.
Qed.
Lemma deinterleave_nil {T} C : 0 < C -> @deinterleave T C [] = no_audio C.
Proof.
  intros HC. unfold deinterleave, no_audio, channel_samples. cbn [length]. rewrite Nat.div_0_l by lia. cbn [seq flat_map].
  generalize 0. induction C as [|C IH]; intros k; [reflexivity|]. destruct C; [reflexivity|]. cbn [seq map repeat] in *. f_equal. apply IH. lia.
Qed.
Lemma all_input_pieces P C : 0 < C -> forall pieces, Forall (fun p => length p mod C = 0) pieces ->
  all_input P C (map AF32 pieces) = Some (deinterleave C (map (read P smp_f32) (concat pieces))) /\ length (concat pieces) mod C = 0.
Proof.
  intros HC. induction 1 as [|p l Hp Hl (IH & IH2)]; cbn [map all_input concat].
  - rewrite deinterleave_nil by auto. split; auto. apply Nat.mod_0_l. lia.
  - rewrite IH. cbn [input]. unfold interleaved_input. rewrite Hp. cbn [Nat.eqb]. rewrite map_app, deinterleave_app by (rewrite ?map_length; auto).
    split; auto. rewrite app_length, Nat.add_mod, Hp, IH2 by lia. cbn. apply Nat.mod_0_l. lia.
Qed.

(** * One analyzer fed in pieces *)
Lemma deinterleave_frames {T} C (l : list T) : 0 < C -> length l mod C = 0 -> frames_of (deinterleave C l) = length l / C.
Proof.
  intros HC Hl. unfold frames_of, deinterleave. destruct C as [|C]; [lia|]. cbn [seq map hd]. set (D := S C) in *. clearbody D.
  apply Nat.mod_divides in Hl; [|lia]. destruct Hl as (n & Hl). rewrite Nat.mul_comm in Hl. unfold channel_samples. rewrite Hl, Nat.div_mul by lia.
  assert (forall ks, Forall (fun k => k < n) ks -> length (flat_map (fun k => match nth_error l (k * D + 0) with Some x => [x] | None => [] end) ks) = length ks) as X.
  { induction 1 as [|k ks Hk Hks IH]; [reflexivity|]. cbn [flat_map]. rewrite app_length, IH. destruct (nth_error l (k * D + 0)) eqn:N; [reflexivity|]. apply nth_error_None in N. nia. }
  rewrite X; [apply seq_length|]. apply Forall_forall. intros k Hk. apply in_seq in Hk. lia.
Qed.
Lemma all_modes : has_M 127%N /\ has_S 127%N /\ has_I 127%N /\ has_LRA 127%N /\ has_SAMPLE_PEAK 127%N /\ has_HISTOGRAM 127%N.
Proof. repeat split. Qed.
Lemma loudness_answer P E e : is_64bit P -> bsearch_contract E -> reachable P E e -> e_mode e = 127%N -> exists v, loudness_global P E e = Ret (Ok v).
Proof.
  intros HP HB Hr HM. destruct (queries_total P E e QGlobal HP HB Hr I) as (a & Ha & Hf). unfold refusal in Hf. rewrite HM in Hf. cbn in Hf.
  cbn [ask] in Ha. destruct (loudness_global P E e) as [r| | |]; cbn [obind] in Ha; try discriminate. injection Ha as <-. destruct r as [v|er]; [eauto|discriminate Hf].
Qed.
Lemma measured P E C : is_64bit P -> bsearch_contract E -> 0 < C -> forall pieces e t, taped P E e t -> e_mode e = 127%N -> e_channels e = C ->
  Forall (fun p => length p mod C = 0) pieces ->
  exists e' t', ofold (measure_chunk P E) e pieces = Ret e' /\ run P E e (map (fun p => OpAdd (AF32 p)) pieces) = Ret (repeat (Ok tt) (length pieces), e') /\
    taped_session P E e t (map (fun p => OpAdd (AF32 p)) pieces) e' t' /\ settings e' = settings e /\
    frames_of (signals t') = frames_of (signals t) + length (concat pieces) / C.
Proof.
  intros HP HB HC. induction pieces as [|p l IH]; intros e t HT HM HE HF.
  - exists e, t. cbn. rewrite Nat.div_0_l by lia. repeat split; auto. constructor.
  - apply Forall_cons_iff in HF. destruct HF as (Hp & HF). pose proof (taped_reachable P E e t HT) as Hr.
    destruct (containers P E smp_f32 e HP Hr) as (_ & CO & _). rewrite HE in CO. destruct (CO p Hp) as (e1 & _ & A1 & _).
    assert (admissible e (OpAdd (AF32 p))) as AD by exact I. assert (step P E e (OpAdd (AF32 p)) = Ret (Ok tt, e1)) as ST by exact A1.
    pose proof (taped_step P E e _ _ e1 t HT AD ST) as HT1. pose proof (adds_config P E e t _ _ e1 HP HT AD ST) as SC.
    destruct (settings_hop _ _ SC) as (_ & _ & _ & M1 & C1 & _).
    destruct (add_records P E e t (AF32 p) (deinterleave C (map (read P smp_f32) p)) _ e1 HP HT AD ST) as (FR & _).
    { cbn [input]. unfold interleaved_input. rewrite HE, Hp. reflexivity. }
    destruct (IH e1 _ HT1 ltac:(congruence) ltac:(congruence) HF) as (e' & t' & I1 & I2 & I3 & I4 & I5).
    destruct (loudness_answer P E e1 HP HB (taped_reachable _ _ _ _ HT1) ltac:(congruence)) as (v & Hv).
    exists e', t'. split.
    { cbn [ofold]. unfold measure_chunk at 1. rewrite A1. cbn [obind expect]. rewrite Hv. cbn [obind expect]. exact I1. }
    split. { cbn [map run length repeat]. rewrite ST. cbn [obind]. rewrite I2. reflexivity. }
    split. { cbn [map]. econstructor; eauto. }
    split; [congruence|]. rewrite I5, FR, deinterleave_frames by (rewrite ?map_length; auto). rewrite map_length. cbn [concat]. rewrite app_length.
    destruct (all_input_pieces P C HC l HF) as (_ & Hl). apply Nat.mod_divides in Hp; [|lia]. apply Nat.mod_divides in Hl; [|lia].
    destruct Hp as (a & ->), Hl as (b & ->). rewrite <- Nat.mul_add_distr_l, !(Nat.mul_comm C), !Nat.div_mul by lia. lia.
Qed.
(** what an analyzer that was given the whole recording in pieces has recorded *)
Lemma pieces_played P E w e0 pieces : is_64bit P -> bsearch_contract E -> proper_recording w -> ebur128_new P E (w_channels w) (w_rate w) 127%N = Ret (Ok e0) ->
  concat pieces = map sample_value (w_samples w) -> Forall (fun p => length p mod N.to_nat (w_channels w) = 0) pieces ->
  exists e t, ofold (measure_chunk P E) e0 pieces = Ret e /\ run P E e0 (map (fun p => OpAdd (AF32 p)) pieces) = Ret (repeat (Ok tt) (length pieces), e) /\
    session P E e0 (map (fun p => OpAdd (AF32 p)) pieces) e /\
    played P E e t /\ settings e = settings e0 /\ frames_of (signals t) = length (w_samples w) / N.to_nat (w_channels w).
Proof.
  intros HP HB (Hc & Hr & Hs & Hm & Hlen & Hrange) Hn Hcat HF.
  destruct (new_spec P E (w_channels w) (w_rate w) 127%N HP) as (_ & _ & NS). destruct (NS Hc Hr eq_refl) as (e0' & Hn' & M0 & R0 & C0 & _).
  rewrite Hn in Hn'. injection Hn' as <-. assert (0 < N.to_nat (w_channels w)) as HC by (destruct Hc; lia).
  pose proof (taped_new P E _ _ _ _ Hn Hs) as HT. destruct (measured P E _ HP HB HC pieces e0 _ HT M0 C0 HF) as (e & t & H1 & H2 & H3 & H4 & H5).
  exists e, t. split; auto. split; auto. split.
  { clear - H3. revert H3. generalize (map (fun p => OpAdd (AF32 p)) pieces) as os. induction 1; econstructor; eauto. }
  assert (frames_of (signals (blank (N.to_nat (w_channels w)))) = 0) as F0 by (destruct (N.to_nat (w_channels w)); [lia|reflexivity]).
  split. { exists e0, (blank (N.to_nat (w_channels w))), (map (fun p => OpAdd (AF32 p)) pieces). split; [eapply noted_new; eauto|]. split; auto. split; auto.
    apply Forall_forall. intros o Ho. apply in_map_iff in Ho. destruct Ho as (p & <- & _). exact I. }
  split; auto. rewrite H5, F0, Hcat, map_length. reflexivity.
Qed.
Lemma played_count P E e t : is_64bit P -> played P E e t -> e_mode e = 127%N -> (population (blocks e) <= N.of_nat (frames_of (signals t) / hop e - 3))%N.
Proof.
  intros HP HPl HM. destruct all_modes as (_ & _ & HI & _ & _ & HH). destruct (recorded_bins P E e t HP HPl ltac:(now rewrite HM)) as (RB & _).
  rewrite (RB ltac:(now rewrite HM)), bins_population. destruct (played_blocks P E e t HP HPl) as (HT & _).
  assert (1 <= hop e) as Hh. { destruct (taped_ok P E e t HP HT) as (g & L & (H & _ & _) & _). pose proof (inv_s_pos _ _ _ _ _ H) as X. rewrite <- (hop_s _ _ _ _ _ H) in X. lia. }
  rewrite block_ends_0 by auto. set (f := energy_at _ _ _ _). pose proof (filter_short measurable (map f (map (fun k => k * hop e) (seq 4 (frames_of (signals t) / hop e - 3))))) as X.
  rewrite !map_length, seq_length in X. lia.
Qed.

(** * The largest peak *)
Lemma largest_more l l' v : Spec.largest l v -> (forall x, In x l <-> In x l') -> Spec.largest l' v.
Proof.
  intros (H1 & H2 & H3) HI. split; auto. split; [destruct H2; [auto|right; now apply HI]|]. rewrite Forall_forall in *. intros x Hx. apply H3, HI, Hx.
Qed.
Lemma largest_number l v : Spec.largest l v -> f64_is_nan v = false.
Proof. intros (H & _). destruct v; try reflexivity. discriminate H. Qed.
Lemma largest_max l l' v v' : Spec.largest l v -> Spec.largest l' v' -> Spec.largest (l ++ l') (f64_max v v').
Proof.
  intros H H'. pose proof (largest_number _ _ H) as N1. pose proof (largest_number _ _ H') as N2. destruct H as (A1 & A2 & A3), H' as (B1 & B2 & B3).
  unfold f64_max. rewrite N1, N2. destruct (f64_lt v v') eqn:L.
  - pose proof (Bltb_le _ _ L) as LE. split; auto. split; [destruct B2; [auto|right; apply in_or_app; auto]|]. apply Forall_app. split; auto.
    eapply Forall_impl; [|exact A3]. intros x Hx Hn. exact (Bleb_trans _ _ _ (Hx Hn) LE).
  - assert (f64_le v' v = true) as LE. { unfold f64_lt in L. rewrite (Bltb_Bleb v v') in L by auto. now apply negb_false_iff in L. }
    split; auto. split; [destruct A2; [auto|right; apply in_or_app; auto]|]. apply Forall_app. split; auto.
    eapply Forall_impl; [|exact B3]. intros x Hx Hn. exact (Bleb_trans _ _ _ (Hx Hn) LE).
Qed.
Lemma In_deinterleave {T} C (l : list T) x : 0 < C -> length l mod C = 0 -> (In x (concat (deinterleave C l)) <-> In x l).
Proof.
  intros HC Hl. rewrite in_concat. unfold deinterleave, channel_samples. split.
  - intros (c & Hc & Hx). apply in_map_iff in Hc. destruct Hc as (i & <- & _). apply in_flat_map in Hx. destruct Hx as (k & _ & Hx).
    destruct (nth_error l (k * C + i)) eqn:N; [|destruct Hx]. destruct Hx as [<-|[]]. eapply nth_error_In; eauto.
  - intros Hx. apply In_nth_error in Hx. destruct Hx as (n & Hn). assert (n < length l) as Ln by (apply nth_error_Some; congruence).
    eexists. split; [apply in_map_iff; exists (n mod C); split; [reflexivity|apply in_seq; pose proof (Nat.mod_upper_bound n C); lia]|].
    apply in_flat_map. exists (n / C). split.
    + apply in_seq. split; [lia|]. apply Nat.div_lt_upper_bound; [lia|]. apply Nat.mod_divides in Hl; [|lia]. destruct Hl as (m & Hl). rewrite Hl in *. rewrite (Nat.mul_comm C m), Nat.div_mul by lia. lia.
    + rewrite (Nat.mul_comm (n / C)), <- Nat.div_mod, Hn by lia. now left.
Qed.
Lemma largest_peak_ok P E w e0 pieces rs e : is_64bit P -> proper_recording w -> ebur128_new P E (w_channels w) (w_rate w) 127%N = Ret (Ok e0) ->
  concat pieces = map sample_value (w_samples w) -> Forall (fun p => length p mod N.to_nat (w_channels w) = 0) pieces ->
  run P E e0 (map (fun p => OpAdd (AF32 p)) pieces) = Ret (rs, e) ->
  exists v, largest_peak e (N.to_nat (w_channels w)) = Ret v /\ Spec.largest (sample_levels w) v.
Proof.
  intros HP (Hc & Hr & Hs & Hm & Hlen & Hrange) Hn Hcat HF HR. assert (0 < N.to_nat (w_channels w)) as HC by (destruct Hc; lia).
  destruct (all_input_pieces P _ HC pieces HF) as (HI & Hcm). set (C := N.to_nat (w_channels w)) in *. set (cols := deinterleave C (map (read P smp_f32) (concat pieces))) in *.
  assert (forall c, c < C -> exists v, sample_peak e (N.of_nat c) = Ret (Ok v) /\ Spec.largest (levels_of (nth c cols [])) v) as HQ.
  { intros c Hcc. destruct (fresh_sample_peak P E (w_channels w) (w_rate w) 127%N e0 (map AF32 pieces) rs e cols (N.of_nat c) HP Hn Hs) as (v & V1 & V2); auto.
    - repeat split.
    - unfold C in Hcc. lia.
    - apply Forall_forall. intros a Ha. apply in_map_iff in Ha. destruct Ha as (p & <- & _). exact I.
    - now rewrite map_map.
    - unfold Spec.channel in V2. rewrite Nat2N.id in V2. exists v. split; auto. cbn [ask] in V1. destruct (sample_peak e (N.of_nat c)) as [r| | |]; cbn [obind] in V1; try discriminate. now injection V1 as ->. }
  assert (forall n k l a, k + n <= C -> Spec.largest l a ->
    exists v, ofold (fun a c => r <- sample_peak e (N.of_nat c) ;; b <- expect r ;; Ret (f64_max a b)) a (seq k n) = Ret v /\
      Spec.largest (l ++ concat (map (fun c => levels_of (nth c cols [])) (seq k n))) v) as HFold.
  { induction n as [|n IH]; intros k l a Hk Ha; cbn [seq ofold map concat].
    - exists a. rewrite app_nil_r. auto.
    - destruct (HQ k ltac:(lia)) as (b & B1 & B2). rewrite B1. cbn [obind expect].
      destruct (IH (S k) _ _ ltac:(lia) (largest_max _ _ _ _ Ha B2)) as (v & V1 & V2). exists v. split; auto. now rewrite app_assoc. }
  destruct (HFold C 0 [] f64_zero ltac:(lia)) as (v & V1 & V2).
  { split; [reflexivity|]. split; [now left|constructor]. }
  exists v. split; auto. cbn [app] in V2. eapply largest_more; [exact V2|]. intros x.
  replace (concat (map (fun c => levels_of (nth c cols [])) (seq 0 C))) with (map r_level (concat cols)).
  2:{ rewrite concat_map. f_equal. assert (length cols = C) as LC by apply deinterleave_length. rewrite <- LC. clearbody cols. clear. induction cols as [|c cols IH]; [reflexivity|]. cbn [length seq map nth]. f_equal. rewrite <- seq_shift, map_map. exact IH. }
  unfold sample_levels. rewrite !in_map_iff. split.
  - intros (r & <- & Hx). unfold cols in Hx. rewrite In_deinterleave in Hx by (rewrite ?map_length; auto). rewrite Hcat, map_map in Hx. apply in_map_iff in Hx. destruct Hx as (s & <- & Hs2). exists s. split; auto. symmetry. apply level_f32.
  - intros (s & <- & Hs2). exists (read P smp_f32 (sample_value s)). split; [apply level_f32|]. unfold cols. rewrite In_deinterleave by (rewrite ?map_length; auto). rewrite Hcat, map_map. apply in_map_iff. eauto.
Qed.

(** * A track *)
Lemma measure_ok P E w : is_64bit P -> bsearch_contract E -> proper_recording w -> exists e t, measure_recording P E w = Ret e /\ analyzed P E w e /\
  played P E e t /\ e_mode e = 127%N /\ e_rate e = w_rate w /\ e_channels e = N.to_nat (w_channels w) /\ frames_of (signals t) = length (w_samples w) / N.to_nat (w_channels w) /\
  exists v, largest_peak e (N.to_nat (w_channels w)) = Ret v /\ Spec.largest (sample_levels w) v.
Proof.
  intros HP HB HW. pose proof HW as (Hc & Hr & Hs & Hm & Hlen & Hrange).
  destruct (new_spec P E (w_channels w) (w_rate w) 127%N HP) as (_ & _ & NS). destruct (NS Hc Hr eq_refl) as (e0 & Hn & M0 & R0 & C0 & _).
  assert (0 < N.to_nat (w_channels w)) as HC by (destruct Hc; lia). assert (0 < N.to_nat (w_rate w)) as HR by (destruct Hr; lia).
  set (n := N.to_nat (w_rate w) * N.to_nat (w_channels w)) in *. assert (0 < n) as Hn0 by (unfold n; nia).
  destruct (portions_ok (N.to_nat (w_channels w)) n Hn0 ltac:(unfold n; apply Nat.mod_mul; lia) HC (length (map sample_value (w_samples w))) (map sample_value (w_samples w)) ltac:(lia) ltac:(rewrite map_length; auto)) as (PC & PF).
  fold (portions n (map sample_value (w_samples w))) in PC, PF.
  destruct (pieces_played P E w e0 _ HP HB HW Hn PC PF) as (e & t & H1 & H2 & _ & H3 & H4 & H5).
  destruct (settings_hop _ _ H4) as (_ & _ & _ & M1 & C1 & R1 & _).
  exists e, t. split.
  { unfold measure_recording. change MODE_ALL with 127%N. rewrite Hn. cbn [obind expect]. unfold slice_chunks. fold n. destruct (Nat.eqb_spec n 0); [lia|]. cbn [obind]. exact H1. }
  split. { exists e0, (portions n (map sample_value (w_samples w))). auto. }
  split; auto. split; [congruence|]. split; [congruence|]. split; [congruence|]. split; auto.
  eapply largest_peak_ok; eauto.
Qed.
Lemma bins_positive P E e : is_64bit P -> powf_contract E -> reachable P E e -> has_HISTOGRAM (e_mode e) -> countable (blocks e) -> population (blocks e) <> 0%N ->
  exists n x, ask P E e QCount = Ret (ACount (Some (n, x))) /\ (0 < n <= population (blocks e))%N /\ is_finite x = true /\
    (Pass_proofs.tiny <= real x <= bpow radix2 78)%R /\ positive (f64_div x (f64_of_N n)).
Proof.
  intros HP HE Hr Hh Hc H0. destruct (is_histogram P E e HP Hr Hh) as (b & s & Eb & Es & Lb & Ls). destruct (blocks_one P E e HP Hr Hc) as (HB & HS).
  destruct (global_ok P E e HP HE Hr Hc) as (_ & _ & G). rewrite G.
  assert (forall y, In y (blocks e) -> measurable (snd y) = true /\ is_finite (snd y) = true) as HM.
  { pose proof (histogram_measured P E e HP Hr Hh) as HM. apply Forall_app in HM. destruct HM as (HM & _). rewrite Forall_forall in HM. exact HM. }
  assert (forall y, In y (blocks e) -> (B2R (snd y) <= 2000)%R) as HT.
  { intros (m, y) Hy. unfold blocks in Hy. rewrite Eb in Hy. cbn [contents] in Hy. apply Gating_proofs.In_combine_cen in Hy. destruct Hy as (i & Hi & -> & _). now apply cen_le. }
  destruct (gated_positive E (blocks e) HE HB Hc H0) as (n & x & Q1 & Q2 & Q3 & _); auto.
  - unfold blocks in *. rewrite Eb in *. cbn [contents] in *. now apply bins_finite.
  - intros y Hy. apply (HM y Hy).
  - exists n, x. rewrite Q1. split; auto. split; auto. pose proof Q1 as Q1'. unfold gated in Q1'. destruct (_ || _); [discriminate|]. injection Q1' as En Ex. rewrite <- En in Q2.
    assert (forall y, In y (passing E [blocks e]) -> In y (blocks e)) as SUB. { intros y Hy. unfold passing, at_least in Hy. apply filter_In in Hy. rewrite concat_one in Hy. apply Hy. }
    assert (Forall Pass_proofs.block_ok (passing E [blocks e])) as HBP. { apply Forall_forall. intros y Hy. rewrite Forall_forall in HB. apply HB, SUB, Hy. }
    assert (is_finite x = true) as Fx. { destruct (Gating_proofs.of_N_real n) as (Fn & _ & _); [unfold countable in Hc; lia|]. pose proof (Gating_proofs.of_N_pos n) as P1. apply (div_fin x (f64_of_N n) Fn); [|apply Q3]. specialize (P1 ltac:(unfold countable in Hc; lia)). lra. }
    split; auto. split; auto. rewrite <- Ex in *. split.
    + apply sum_lower; auto; [|lia]. intros y Hy. apply HM, SUB, Hy.
    + destruct (Pass_proofs.sum_bound _ HBP f64_zero eq_refl Fx) as (_ & _ & _ & B). fold (energy_sum (passing E [blocks e])) in B. change (B2R f64_zero) with 0%R in B. unfold real.
      pose proof (Pass_proofs.weighted_max (passing E [blocks e]) 2000 ltac:(lra) ltac:(intros y Hy _; apply HT, SUB, Hy)) as W.
      unfold countable in Hc. assert (Pass_proofs.size_of (population (passing E [blocks e])) <= bpow radix2 64)%R as S.
      { change (bpow radix2 64) with (IZR 18446744073709551616). unfold Pass_proofs.size_of. apply IZR_le. lia. }
      replace (bpow radix2 78) with (bpow radix2 64 * 16384)%R by (replace 16384%R with (bpow radix2 14) by (cbn; lra); rewrite <- bpow_plus; reflexivity).
      pose proof (bpow_gt_0 radix2 64) as P64. revert B W S P64. generalize (bpow radix2 64) (Pass_proofs.size_of (population (passing E [blocks e]))) (Pass_proofs.weighted (passing E [blocks e])) (B2R (energy_sum (passing E [blocks e]))). clear. intros. lra.
Qed.
Lemma blocks_bound P E w e t : is_64bit P -> played P E e t -> e_mode e = 127%N -> frames_of (signals t) = length (w_samples w) / N.to_nat (w_channels w) ->
  (population (blocks e) <= N.of_nat (length (w_samples w)))%N.
Proof.
  intros HP HPl HM HF. pose proof (played_count P E e t HP HPl HM) as X. rewrite HF in X. eapply N.le_trans; [exact X|].
  assert (forall a b, a / b <= a) as D. { intros a b. destruct b; [cbn; lia|]. apply Nat.div_le_upper_bound; nia. }
  pose proof (D (length (w_samples w)) (N.to_nat (w_channels w))) as D1. pose proof (D (length (w_samples w) / N.to_nat (w_channels w)) (hop e)) as D2. lia.
Qed.
(** what the program reports about a track *)
Definition report (E : ext) (w : recording) (t : track_data) : Prop :=
  (0 < t_count t <= N.of_nat (length (w_samples w)))%N /\ is_finite (t_energy t) = true /\ (Pass_proofs.tiny <= real (t_energy t) <= bpow radix2 78)%R /\
  positive (f64_div (t_energy t) (f64_of_N (t_count t))) /\ t_loudness t = loudness E (f64_div (t_energy t) (f64_of_N (t_count t))) /\
  Spec.largest (sample_levels w) (t_peak t).
Lemma track_full P E w : is_64bit P -> powf_contract E -> bsearch_contract E -> proper_recording w -> exists e, measure_recording P E w = Ret e /\ analyzed P E w e /\
  ((population (blocks e) = 0%N /\ ask P E e QCount = Ret (ACount None) /\ analyze_file P E w = Panic /\ ask P E e QGlobal = Ret (AValue (Ok (f64_neg f64_inf)))) \/
   (population (blocks e) <> 0%N /\ exists t, analyze_file P E w = Ret t /\ ask P E e QCount = Ret (ACount (Some (t_count t, t_energy t))) /\
     ask P E e QGlobal = Ret (AValue (Ok (t_loudness t))) /\ report E w t)).
Proof.
  intros HP HE HB HW. destruct (measure_ok P E w HP HB HW) as (e & t & H1 & H2 & H3 & H4 & H5 & H6 & H7 & (v & V1 & V2)). exists e. split; auto. split; auto.
  destruct (played_blocks P E e t HP H3) as (HT & _). pose proof (taped_reachable P E e t HT) as Hr. pose proof (blocks_bound P E w e t HP H3 H4 H7) as HN.
  assert (countable (blocks e)) as Hc. { unfold countable. destruct HW as (_ & _ & _ & _ & W & _). lia. }
  assert (has_I (e_mode e) /\ has_HISTOGRAM (e_mode e)) as (HI & HH) by (rewrite H4; repeat split).
  destruct (loudness_answer P E e HP HB Hr H4) as (l & Hl).
  destruct (count_agrees P E e HP HE Hr HI Hc) as (c & C1 & C2).
  assert (gating_block_count_and_energy P E e = Ret c) as GC. { cbn [ask] in C1. destruct (gating_block_count_and_energy P E e); cbn [obind] in C1; try discriminate. now injection C1 as ->. }
  destruct (N.eq_dec (population (blocks e)) 0) as [H0|H0]; [left|right]; (split; [exact H0|]).
  - destruct (global_ok P E e HP HE Hr Hc) as (_ & _ & G3). unfold gated in G3. rewrite concat_one, H0 in G3. cbn [N.eqb orb] in G3. split; auto.
    rewrite C1 in G3. injection G3 as ->. split; [|rewrite H0 in C2; exact C2]. unfold analyze_file. rewrite H1. cbn [obind]. rewrite Hl. cbn [obind expect]. rewrite V1. cbn [obind]. rewrite GC. reflexivity.
  - destruct (bins_positive P E e HP HE Hr HH Hc H0) as (n & x & B1 & B2 & B3 & B4 & B5). rewrite C1 in B1. injection B1 as ->. destruct C2 as (C2 & C3).
    assert (ask P E e QGlobal = Ret (AValue (Ok l))) as GL by (cbn [ask]; rewrite Hl; reflexivity).
    exists {| t_loudness := l; t_peak := v; t_count := n; t_energy := x |}. unfold report. cbn [t_loudness t_peak t_count t_energy]. split.
    + unfold analyze_file. rewrite H1. cbn [obind]. rewrite Hl. cbn [obind expect]. rewrite V1. cbn [obind]. rewrite GC. reflexivity.
    + split; auto. split; auto. split; [lia|]. split; auto. split; auto. split; auto. split; auto. rewrite GL in C3. congruence.
Qed.

Lemma track P E w : is_64bit P -> powf_contract E -> bsearch_contract E -> proper_recording w -> exists e, analyzed P E w e /\
  ((population (blocks e) = 0%N /\ ask P E e QCount = Ret (ACount None) /\ analyze_file P E w = Panic) \/
   (population (blocks e) <> 0%N /\ exists t, analyze_file P E w = Ret t /\ ask P E e QCount = Ret (ACount (Some (t_count t, t_energy t))) /\
     ask P E e QGlobal = Ret (AValue (Ok (t_loudness t))) /\ report E w t)).
Proof.
  intros HP HE HB HW. destruct (track_full P E w HP HE HB HW) as (e & _ & He & [(H1 & H2 & H3 & _)|H]); exists e; auto 6.
Qed.

(** * The album *)
Local Open Scope R_scope.
Lemma fold_sum : forall xs t T (k : nat), Forall (fun x => is_finite x = true /\ 0 <= real x <= bpow radix2 78) xs -> is_finite t = true -> 0 <= B2R t <= INR k * bpow radix2 79 ->
  INR (k + length xs) <= 1000000 -> nearly k 0 (B2R t) T -> 0 <= T ->
  let r := fold_left f64_add xs t in is_finite r = true /\ 0 <= B2R r /\ nearly (k + length xs) 0 (B2R r) (T + total (map real xs)).
Proof.
  induction xs as [|x xs IH]; intros t T k HF Ft Bt Hk HN HT; cbn [fold_left length map].
  - cbn zeta. rewrite Nat.add_0_r. change (total []) with 0. rewrite Rplus_0_r. split; auto. split; [lra|auto].
  - apply Forall_cons_iff in HF. destruct HF as ((Fx & Bx) & HF). unfold real in Bx.
    assert (INR k + 1 <= 1000000) as Hk1. { rewrite <- S_INR. eapply Rle_trans; [apply le_INR|exact Hk]. cbn [length]. lia. }
    assert (bpow radix2 79 = 2 * bpow radix2 78) as E79 by (change 2 with (bpow radix2 1); rewrite <- bpow_plus; reflexivity).
    assert (1000001 * bpow radix2 79 <= bpow radix2 1000) as BIG. { apply Rle_trans with (bpow radix2 20 * bpow radix2 79). { apply Rmult_le_compat_r; [apply bpow_ge_0|cbn; lra]. } rewrite <- bpow_plus. apply bpow_le. lia. }
    pose proof (bpow_gt_0 radix2 78) as P78. pose proof (pos_INR k) as PK.
    assert (INR k * bpow radix2 79 <= 1000000 * bpow radix2 79) as KB by (apply Rmult_le_compat_r; [apply bpow_ge_0|lra]).
    assert (B2R t + B2R x <= bpow radix2 1000) as SB by lra.
    destruct (add_small t x Ft Fx ltac:(rewrite Rabs_pos_eq; lra)) as (Fa & Ea).
    assert (0 <= B2R (f64_add t x)) as A0 by (rewrite Ea; apply Pass_proofs.rnd_nonneg; lra).
    assert (B2R (f64_add t x) <= INR (S k) * bpow radix2 79) as A1. { rewrite Ea, S_INR. eapply Rle_trans; [apply Pass_proofs.rnd_add_le; lra|]. rewrite E79 in *. lra. }
    assert (nearly (S k) 0 (B2R (f64_add t x)) (T + real x)) as A2.
    { rewrite Ea. unfold real. assert (nearly k 0 (B2R x) (B2R x)) as NX by (apply nearly_mono with (n := 0%nat) (d := 0); [lia|lra|lra|apply nearly_exact; lra]).
      pose proof (nearly_add k 0 0 t x T (B2R x) HT (proj1 Bx) (Rle_refl 0) (Rle_refl 0) ltac:(lra) HN NX) as NA. replace (0 + 0) with 0 in NA by ring. exact NA. }
    destruct (IH (f64_add t x) (T + real x) (S k) HF Fa (conj A0 A1)) as (R1 & R2 & R3); auto.
    { cbn [length] in Hk. replace (S k + length xs)%nat with (k + S (length xs))%nat by lia. exact Hk. }
    { unfold real. lra. }
    split; auto. split; auto. replace (k + S (length xs))%nat with (S k + length xs)%nat by lia. change (total (real x :: map real xs)) with (real x + total (map real xs)). rewrite <- Rplus_assoc. exact R3.
Qed.
Lemma minus_18 : is_finite REPLAYGAIN2_REFERENCE = true /\ B2R REPLAYGAIN2_REFERENCE = -18.
Proof. split; [reflexivity|]. unfold REPLAYGAIN2_REFERENCE. rewrite <- SF2R_B2SF. change (SF2R radix2 _) with (F2R (Float radix2 (-5066549580791808) (-48))). unfold F2R. cbn. lra. Qed.
Lemma gain_of l L n : close n l L -> Rabs (real l) <= 4000 -> INR n <= 100010 -> is_finite (f64_sub REPLAYGAIN2_REFERENCE l) = true /\ Rabs (real (f64_sub REPLAYGAIN2_REFERENCE l) - (-18 - L)) <= / 10 ^ 9.
Proof.
  intros (F & B) BL Hn. destruct minus_18 as (F18 & E18). unfold tolerance in B.
  assert (roundoff <= 12 / 10 ^ 17) as U. { unfold roundoff. cbn. lra. }
  pose proof u_pos as U0. assert (10 * INR n * roundoff <= 10 * 100010 * (12 / 10 ^ 17)) as T. { apply Rmult_le_compat; try lra. pose proof (pos_INR n). lra. }
  assert (10 * 100010 * (12 / 10 ^ 17) + / 10 ^ 11 <= 2 / 10 * / 10 ^ 9) as T2 by (cbn; lra).
  unfold real in *. set (v := B2R l) in *. assert (Rabs (v - L) <= 2 / 10 * / 10 ^ 9) as B0 by lra. clear B T T2. apply Rabs_le_inv in BL. assert (Rabs (-18 - v) <= 4100) as BV by (apply Rabs_le; lra).
  destruct (sub_small REPLAYGAIN2_REFERENCE l F18 F) as (FS & ES).
  { rewrite E18. fold v. eapply Rle_trans; [exact BV|]. change 1000%Z with (13 + 987)%Z. rewrite bpow_plus. pose proof (bpow_le radix2 0 987 ltac:(lia)) as X. change (bpow radix2 0) with 1 in X. change (bpow radix2 13) with 8192. lra. }
  split; auto. rewrite ES, E18. fold v. pose proof (rnd_error (-18 - v)) as R1. assert (underflow <= roundoff) as EU. { unfold underflow, roundoff. apply Rinv_le_contravar; [apply pow_lt; lra|]. apply Rle_pow; [lra|lia]. }
  assert (roundoff * Rabs (-18 - v) <= roundoff * 4100) as R2 by (apply Rmult_le_compat_l; lra).
  assert (4101 * (12 / 10 ^ 17) <= / 10 * / 10 ^ 9) as T3 by (cbn; lra).
  apply Rabs_le_inv in R1, B0. apply Rabs_le. assert (0 < / 10 ^ 9) by (cbn; lra). set (q := / 10 ^ 9) in *. clearbody q. lra.
Qed.
Lemma loudness_size E x : log10_accurate E -> positive x -> Rabs (real (loudness E x)) <= 4000.
Proof.
  intros HL Hx. destruct (loudness_close E x HL Hx) as (_ & B). pose proof (positive_log x Hx) as BX. unfold lufs in B. set (g := ln (real x) / ln 10) in *.
  assert (/ 2 ^ 37 <= 1) by (cbn; lra). apply Rabs_le_inv in B, BX. apply Rabs_le. lra.
Qed.
Lemma pos_unsigned x : is_finite x = true -> 0 < B2R x -> Energy_proofs.unsigned x.
Proof.
  intros F P. unfold Energy_proofs.unsigned. destruct x as [s|s| |s m e q]; try discriminate F; cbn [B2R] in P; [lra|]. destruct s; auto. exfalso.
  pose proof (F2R_lt_0 radix2 (Float radix2 (Zneg m) e) ltac:(reflexivity)). cbn [SpecFloat.cond_Zopp Z.opp] in P. lra.
Qed.
Lemma reported_close E w t : log10_accurate E -> (N.of_nat (length (w_samples w)) < 18446744073709551616)%N -> report E w t ->
  close 4 (t_loudness t) (lufs (real (t_energy t) / amount (t_count t))).
Proof.
  intros HL Hw (Hn & Fx & Bx & Px & El & _). rewrite El.
  assert (0 < Pass_proofs.tiny) as PT by apply Pass_proofs.tiny_pos. assert (1 <= amount (t_count t)) as PN by (apply IZR_le; lia).
  destruct (mean_near (t_energy t) (real (t_energy t)) (t_count t) 0) as (_ & HN); try lra; try lia.
  - apply pos_unsigned; auto. unfold real in Bx. lra.
  - apply nearly_exact. lra.
  - apply Px.
  - refine (proj2 (loudness_near E 4 (INR 0 + 1) _ _ HL _ _ _ _ _ _)); auto.
    + apply few_N. vm_compute. discriminate.
    + cbn. lra.
    + apply Rmult_le_pos; [lra|]. left. apply Rinv_0_lt_compat. lra.
    + apply nearly_mono with (n := 3%nat) (d := INR 0 + 1); auto; [cbn; lra|]. apply Rmult_le_pos; [lra|]. left. apply Rinv_0_lt_compat. lra.
    + left. destruct (mean_lower _ (t_count t) Fx) as (_ & ML); [unfold real in Bx; lra|lia|]. unfold real. eapply Rle_trans; [|exact ML]. unfold faint. rewrite <- (Rinv_inv (bpow radix2 (-105))).
      apply Rinv_le_contravar; [apply Rinv_0_lt_compat, bpow_gt_0|]. rewrite <- bpow_opp. change (- -105)%Z with 105%Z. rewrite (bpow_powerRZ radix2 105). change (powerRZ _ _) with (2 ^ 105). apply Rle_pow; [lra|lia].
Qed.
Lemma track_gain_ok E w t : log10_accurate E -> (N.of_nat (length (w_samples w)) < 18446744073709551616)%N -> report E w t ->
  is_finite (track_gain t) = true /\ Rabs (real (track_gain t) - prescribed_gain (real (t_energy t)) (amount (t_count t))) <= / 10 ^ 9.
Proof.
  intros HL Hw HR. pose proof (reported_close E w t HL Hw HR) as C. destruct HR as (_ & _ & _ & Px & El & _). apply (gain_of _ _ 4); auto; [rewrite El; now apply loudness_size|cbn; lra].
Qed.
Lemma amounts : forall l : list N, amount (fold_right N.add 0%N l) = total (map amount l).
Proof. induction l as [|n l IH]; [reflexivity|]. cbn [fold_right map]. change (total (amount n :: map amount l)) with (amount n + total (map amount l)). rewrite <- IH. unfold amount. rewrite N2Z.inj_add. apply plus_IZR. Qed.
Lemma album_parts : forall ts p n x, fold_left album_add ts (p, n, x) = (fold_left f64_max (map t_peak ts) p, (n + fold_right N.add 0 (map t_count ts))%N, fold_left f64_add (map t_energy ts) x).
Proof.
  induction ts as [|t ts IH]; intros p n x; cbn [fold_left map fold_right]; [now rewrite N.add_0_r|]. rewrite <- N.add_assoc || idtac. unfold album_add at 2. rewrite IH. now rewrite N.add_assoc.
Qed.
Lemma album_gain_ok E ts : log10_accurate E -> ts <> [] -> (N.of_nat (length ts) <= 100000)%N -> (fold_right N.add 0 (map t_count ts) < 18446744073709551616)%N ->
  Forall (fun t => (0 < t_count t)%N /\ is_finite (t_energy t) = true /\ Pass_proofs.tiny <= real (t_energy t) <= bpow radix2 78) ts ->
  is_finite (album_gain E ts) = true /\
  Rabs (real (album_gain E ts) - prescribed_gain (total (map (fun t => real (t_energy t)) ts)) (total (map (fun t => amount (t_count t)) ts))) <= / 10 ^ 9.
Proof.
  intros HL Hne Hlen Hcnt HF. unfold album_gain, album_of. rewrite album_parts. cbn [fst snd]. rewrite N.add_0_l.
  rewrite <- (map_map t_count amount), <- amounts. set (N0 := fold_right N.add 0%N (map t_count ts)) in *.
  assert (0 < Pass_proofs.tiny) as PT by apply Pass_proofs.tiny_pos. assert (INR (length ts) <= 100000) as HL2. { rewrite INR_IZR_INZ. apply IZR_le. lia. }
  destruct (fold_sum (map t_energy ts) f64_zero 0 0) as (FX & PX & NX).
  { apply Forall_forall. intros x Hx. apply in_map_iff in Hx. destruct Hx as (t & <- & Ht). rewrite Forall_forall in HF. destruct (HF t Ht) as (_ & F & B). split; auto. lra. }
  { reflexivity. } { cbn. lra. } { rewrite map_length, Nat.add_0_l. lra. } { cbn [B2R f64_zero]. apply nearly_exact. lra. } { lra. }
  rewrite map_length, Nat.add_0_l, Rplus_0_l, map_map in *. set (X := fold_left f64_add (map t_energy ts) f64_zero) in *. set (T := total (map (fun t => real (t_energy t)) ts)) in *.
  assert (Pass_proofs.tiny <= T /\ (0 < N0)%N) as (PTT & PN).
  { destruct ts as [|t ts]; [congruence|]. apply Forall_cons_iff in HF. destruct HF as ((H1 & H2 & H3) & HF). unfold T, N0. cbn [map fold_right]. change (total (?a :: ?l)) with (a + total l). split; [|lia].
    assert (0 <= total (map (fun t => real (t_energy t)) ts)); [|lra]. apply total_nonneg. apply Forall_forall. intros z Hz. apply in_map_iff in Hz. destruct Hz as (y & <- & Hy). rewrite Forall_forall in HF. destruct (HF y Hy) as (_ & _ & B). lra. }
  assert (/ 2 * Pass_proofs.tiny <= B2R X) as BX.
  { destruct NX as (NX & _). rewrite Rmult_0_l, Rminus_0_r in NX. pose proof (pow_lower (length ts)) as PL. assert (INR (length ts) * roundoff <= / 2). { pose proof Pass_proofs.u_1000. pose proof (few_u (length ts)) as Q. destruct Q as (_ & Q); [|lra]. apply few_N. change (2 ^ 50)%N with 1125899906842624%N. lia. }
    eapply Rle_trans; [|exact NX]. apply Rmult_le_compat; lra. }
  assert (1 <= amount N0) as A1 by (apply IZR_le; lia). destruct (Gating_proofs.of_N_real N0 ltac:(lia)) as (Fn & _ & _). pose proof (Gating_proofs.of_N_pos N0 ltac:(lia)) as PN1.
  destruct (Pass_proofs.div_down X (f64_of_N N0) FX Fn PX PN1) as (FD & ED).
  assert (amount N0 <= bpow radix2 64) as A64. { change (bpow radix2 64) with (IZR 18446744073709551616). apply IZR_le. lia. }
  assert (positive (f64_div X (f64_of_N N0))) as PD.
  { split; auto. unfold real. rewrite ED. eapply Rlt_le_trans; [apply (bpow_gt_0 radix2 (-107))|]. apply rnd_bpow; [lia|].
    assert (B2R (f64_of_N N0) <= bpow radix2 66) as BN. { destruct (of_N_near N0 ltac:(lia)) as (_ & _ & B). pose proof Pass_proofs.u_1000. rewrite pow_1 in B. replace (bpow radix2 66) with (4 * bpow radix2 64) by (change 4 with (bpow radix2 2); rewrite <- bpow_plus; reflexivity). nra. }
    apply Rmult_le_reg_r with (B2R (f64_of_N N0)); [lra|]. unfold Rdiv. rewrite Rmult_assoc, Rinv_l, Rmult_1_r by lra.
    apply Rle_trans with (bpow radix2 (-107) * bpow radix2 66); [apply Rmult_le_compat_l; [apply bpow_ge_0|lra]|]. rewrite <- bpow_plus. eapply Rle_trans; [|exact BX]. unfold Pass_proofs.tiny. change (/ 2) with (bpow radix2 (-1)). rewrite <- bpow_plus. apply bpow_le. lia. }
  unfold prescribed_gain. apply (gain_of _ _ (length ts + 3)); [|now apply loudness_size|rewrite plus_INR; cbn [INR]; lra].
  destruct (mean_near X T N0 (length ts)) as (_ & HN); try lra; try lia.
  - apply pos_unsigned; auto. lra.
  - apply nearly_mono with (n := length ts) (d := 0); auto; [|lra]. pose proof (pos_INR (length ts)). lra.
  - auto.
  - assert (0 <= T / amount N0) as TN by (apply Rmult_le_pos; [lra|left; apply Rinv_0_lt_compat; lra]).
    refine (proj2 (loudness_near E (length ts + 3) (INR (length ts) + 1) _ _ HL _ _ _ _ _ _)); auto.
    + apply few_N. change (2 ^ 50)%N with 1125899906842624%N. lia.
    + pose proof (pos_INR (length ts)). split; [lra|]. apply Rle_trans with 100001; [lra|]. cbn. lra.
    + right. unfold faint. apply Rmult_le_reg_r with (amount N0); [lra|]. unfold Rdiv. rewrite Rmult_assoc, Rinv_l, Rmult_1_r by lra.
      apply Rle_trans with (bpow radix2 (-200) * bpow radix2 64).
      * apply Rmult_le_compat; try lra. change (-200)%Z with (- (200))%Z. rewrite bpow_opp. rewrite (bpow_powerRZ radix2 200). apply Rle_refl.
      * rewrite <- bpow_plus. eapply Rle_trans; [|exact PTT]. unfold Pass_proofs.tiny. apply bpow_le. lia.
Qed.
(** the album lies between its tracks *)
Lemma lufs_decibel y : lufs (decibel (y + 691 / 1000)) = y.
Proof. unfold lufs, decibel, Rpower. rewrite ln_exp. pose proof ln10_pos. field. lra. Qed.
Lemma average_between {A} (f g : A -> R) lo hi l : l <> [] -> (forall a, In a l -> 0 < f a /\ 0 < g a /\ lo <= lufs (f a / g a) <= hi) ->
  lo <= lufs (total (map f l) / total (map g l)) <= hi.
Proof.
  intros Hne H. set (a := decibel (lo + 691 / 1000)). set (b := decibel (hi + 691 / 1000)).
  assert (0 < a /\ 0 < b) as (Pa & Pb) by (split; apply Table_proofs.decibel_pos).
  assert (forall x, In x l -> a * g x <= f x <= b * g x) as HB.
  { intros x Hx. destruct (H x Hx) as (F & G & L1 & L2). assert (0 < f x / g x) as Q by (apply Rmult_lt_0_compat; auto; now apply Rinv_0_lt_compat).
    rewrite <- (lufs_decibel lo) in L1. rewrite <- (lufs_decibel hi) in L2. fold a in L1. fold b in L2. apply (Programme_proofs.lufs_le a _ Pa Q) in L1. apply (Programme_proofs.lufs_le _ b Q Pb) in L2.
    assert (f x = f x / g x * g x) as -> by (field; lra). split; apply Rmult_le_compat_r; lra. }
  assert (0 < total (map f l) /\ 0 < total (map g l) /\ a * total (map g l) <= total (map f l) <= b * total (map g l)) as (P1 & P2 & T1 & T2).
  { assert (forall l', (forall x, In x l' -> In x l) -> 0 <= total (map f l') /\ 0 <= total (map g l') /\ a * total (map g l') <= total (map f l') <= b * total (map g l')) as X.
    { induction l' as [|x l' IH]; intros Hs; [cbn; lra|]. destruct (IH ltac:(intros; apply Hs; now right)) as (I1 & I2 & I3 & I4). cbn [map]. change (total (?u :: ?v)) with (u + total v).
      destruct (HB x (Hs x (or_introl eq_refl))). destruct (H x (Hs x (or_introl eq_refl))) as (? & ? & _). repeat split; lra. }
    destruct l as [|x l]; [congruence|]. destruct (X (x :: l) ltac:(auto)) as (_ & _ & X3). destruct (X l ltac:(intros; now right)) as (X1 & X2 & _). destruct (H x (or_introl eq_refl)) as (? & ? & _).
    split; [|split; auto]; cbn [map]; change (total (?u :: ?v)) with (u + total v); lra. }
  set (F := total (map f l)) in *. set (G := total (map g l)) in *. assert (0 < F / G) as Q by (apply Rmult_lt_0_compat; auto; now apply Rinv_0_lt_compat).
  assert (a <= F / G <= b) as (C1 & C2). { split; apply Rmult_le_reg_r with G; auto; unfold Rdiv; rewrite Rmult_assoc, Rinv_l, Rmult_1_r by lra; lra. }
  rewrite <- (lufs_decibel lo), <- (lufs_decibel hi). fold a b. split; apply Programme_proofs.lufs_le; auto.
Qed.
Lemma album_peak_ok E : forall ws ts, Forall2 (report E) ws ts -> Spec.largest (flat_map sample_levels ws) (album_peak ts).
Proof.
  intros ws ts H. unfold album_peak, album_of. rewrite album_parts. cbn [fst].
  assert (forall p l, Spec.largest l p -> Spec.largest (l ++ flat_map sample_levels ws) (fold_left f64_max (map t_peak ts) p)) as X.
  { induction H as [|w t ws ts Hw Hws IH]; intros p l Hp; cbn [flat_map map fold_left]; [now rewrite app_nil_r|]. rewrite app_assoc. apply IH. apply largest_max; auto. apply Hw. }
  apply (X f64_zero []). split; [reflexivity|]. split; [now left|constructor].
Qed.
Lemma all_tracks P E : is_64bit P -> powf_contract E -> bsearch_contract E -> forall ws, Forall proper_recording ws -> Forall (audible P E) ws ->
  exists ts, omap (analyze_file P E) ws = Ret ts /\ Forall2 (report E) ws ts /\
    Forall2 (fun w t => exists e, analyzed P E w e /\ ask P E e QCount = Ret (ACount (Some (t_count t, t_energy t)))) ws ts.
Proof.
  intros HP HE HB. induction 1 as [|w ws Hw Hws IH]; intros HA; [exists []; cbn; auto|]. apply Forall_cons_iff in HA. destruct HA as (HA1 & HA).
  destruct (IH HA) as (ts & I1 & I2 & I3). destruct (track P E w HP HE HB Hw) as (e & Ha & [(_ & Q & _)|(_ & t & T1 & T2 & T3 & T4)]); [now destruct (HA1 e Ha)|].
  exists (t :: ts). cbn [omap]. rewrite T1. cbn [obind]. rewrite I1. cbn [obind]. split; auto. split; constructor; auto. exists e. auto.
Qed.
Lemma counts_bound E : forall ws ts, Forall2 (report E) ws ts -> (fold_right N.add 0 (map t_count ts) <= N.of_nat (length (flat_map w_samples ws)))%N.
Proof. induction 1 as [|w t ws ts (Hn & _) _ IH]; cbn [map fold_right flat_map]; [lia|]. rewrite app_length. lia. Qed.
Lemma album P E ws : is_64bit P -> powf_contract E -> bsearch_contract E -> log10_accurate E -> ws <> [] -> (N.of_nat (length ws) <= 100000)%N ->
  (N.of_nat (length (flat_map w_samples ws)) < 18446744073709551616)%N -> Forall proper_recording ws -> Forall (audible P E) ws ->
  exists ts gain peak, replaygain P E ws = Ret (map (fun t => (track_gain t, t_peak t)) ts, (gain, peak)) /\
    Forall2 (report E) ws ts /\
    Forall2 (fun w t => exists e, analyzed P E w e /\ ask P E e QCount = Ret (ACount (Some (t_count t, t_energy t)))) ws ts /\
    Forall (fun t => is_finite (track_gain t) = true /\ Rabs (real (track_gain t) - prescribed_gain (real (t_energy t)) (amount (t_count t))) <= / 10 ^ 9) ts /\
    is_finite gain = true /\ Rabs (real gain - prescribed_gain (total (map (fun t => real (t_energy t)) ts)) (total (map (fun t => amount (t_count t)) ts))) <= / 10 ^ 9 /\
    (forall lo hi, Forall (fun t => lo <= real (track_gain t) <= hi) ts -> lo - 2 / 10 ^ 9 <= real gain <= hi + 2 / 10 ^ 9) /\
    Spec.largest (flat_map sample_levels ws) peak.
Proof.
  intros HP HE HB HL Hne Hlen Htot HW HA. destruct (all_tracks P E HP HE HB ws HW HA) as (ts & T1 & T2 & T3). exists ts, (album_gain E ts), (album_peak ts).
  assert (length ws = length ts) as LL by (clear - T2; induction T2; cbn; congruence).
  assert (forall t, In t ts -> exists w, report E w t /\ (N.of_nat (length (w_samples w)) < 18446744073709551616)%N) as HR.
  { clear - T2 Htot. induction T2 as [|w t ws ts Hw _ IH]; intros y [].
    - subst. exists w. split; auto. cbn [flat_map] in Htot. rewrite app_length in Htot. lia.
    - apply IH; auto. cbn [flat_map] in Htot. rewrite app_length in Htot. lia. }
  assert (Forall (fun t => is_finite (track_gain t) = true /\ Rabs (real (track_gain t) - prescribed_gain (real (t_energy t)) (amount (t_count t))) <= / 10 ^ 9) ts) as HG.
  { apply Forall_forall. intros t Ht. destruct (HR t Ht) as (w & R1 & R2). eapply track_gain_ok; eauto. }
  destruct (album_gain_ok E ts HL) as (FA & BA).
  { intros ->. apply Hne. destruct ws; [auto|discriminate LL]. } { rewrite <- LL. exact Hlen. } { pose proof (counts_bound E ws ts T2). lia. }
  { apply Forall_forall. intros t Ht. destruct (HR t Ht) as (w & (R1 & R2 & R3 & _) & _). split; [lia|]. auto. }
  split. { unfold replaygain. rewrite T1. reflexivity. }
  split; auto. split; auto. split; auto. split; auto. split; auto. split.
  - intros lo hi HT. set (d := / 10 ^ 9) in *. replace (2 / 10 ^ 9) with (2 * d) by (unfold d; field). unfold prescribed_gain in *.
    assert (-18 - hi - d <= lufs (total (map (fun t => real (t_energy t)) ts) / total (map (fun t => amount (t_count t)) ts)) <= -18 - lo + d) as Q.
    { apply average_between. { intros ->. apply Hne. destruct ws; [auto|discriminate LL]. }
      intros t Ht. destruct (HR t Ht) as (w & (R1 & _ & R3 & _) & _). pose proof Pass_proofs.tiny_pos. split; [lra|]. split; [apply IZR_lt; lia|].
      rewrite Forall_forall in HG, HT. destruct (HG t Ht) as (_ & G). pose proof (HT t Ht). apply Rabs_le_inv in G. lra. }
    apply Rabs_le_inv in BA. lra.
  - eapply album_peak_ok; eauto.
Qed.

(** * Pieces, short and silent recordings *)
Local Open Scope nat_scope.
Lemma analyzed_same P E w e e' q : is_64bit P -> p_ftz P = true -> proper_recording w -> analyzed P E w e -> analyzed P E w e' -> is_prev q = false -> ask P E e q = ask P E e' q.
Proof.
  intros HP HF (Hc & Hr & Hs & _) (e0 & ps & N1 & C1 & F1 & R1) (e0' & ps' & N2 & C2 & F2 & R2) Hq. rewrite N1 in N2. injection N2 as <-.
  assert (0 < N.to_nat (w_channels w)) as HC by (destruct Hc; lia). destruct (new_spec P E (w_channels w) (w_rate w) 127%N HP) as (_ & _ & NS). destruct (NS Hc Hr eq_refl) as (f0 & Hn' & M0 & R0 & C0 & _). rewrite N1 in Hn'. injection Hn' as <-.
  assert (reachable P E e0) as HR by (eapply reach_new; eauto).
  assert (forall ps, Forall (fun a => admissible e0 (OpAdd a)) (map AF32 ps)) as HA. { intros l. apply Forall_forall. intros a Ha. apply in_map_iff in Ha. destruct Ha as (p & <- & _). exact I. }
  destruct (all_input_pieces P _ HC ps F1) as (I1 & _). destruct (all_input_pieces P _ HC ps' F2) as (I2 & _). rewrite C1, <- C0 in I1. rewrite C2, <- C0 in I2.
  destruct (chunks_same P E e0 (map AF32 ps) (map AF32 ps') _ HP HF HR (HA _) (HA _) I1 I2) as (f1 & f2 & Q1 & Q2 & Q3). rewrite map_map in Q1, Q2. rewrite R1 in Q1. rewrite R2 in Q2. apply Ret_pair_inj in Q1, Q2.
  destruct Q1 as (_ & <-), Q2 as (_ & <-). now apply same_answers.
Qed.
Lemma short_panics P E w : is_64bit P -> powf_contract E -> bsearch_contract E -> proper_recording w -> too_short w -> analyze_file P E w = Panic.
Proof.
  intros HP HE HB HW HS. destruct (track P E w HP HE HB HW) as (e & (e0 & ps & N1 & C1 & F1 & R1) & [(_ & _ & H)|(H0 & _)]); auto. exfalso. apply H0.
  destruct (pieces_played P E w e0 ps HP HB HW N1 C1 F1) as (e' & t & _ & R2 & _ & H3 & H4 & H5). rewrite R1 in R2. apply Ret_pair_inj in R2. destruct R2 as (_ & <-).
  pose proof HW as (Hc & Hr & Hs & Hm & _). destruct (new_spec P E (w_channels w) (w_rate w) 127%N HP) as (_ & _ & NS). destruct (NS Hc Hr eq_refl) as (f0 & Hn' & M0 & R0 & C0 & _). rewrite N1 in Hn'. injection Hn' as <-.
  destruct (settings_hop _ _ H4) as (HH & _ & _ & M1 & _). pose proof (played_count P E e t HP H3 ltac:(congruence)) as X. rewrite H5, HH in X.
  destruct (played_blocks P E e t HP H3) as (HT & _). assert (1 <= hop e0) as H1. { rewrite <- HH. apply (Heard_proofs.taped_sizes P E e t HP HT). }
  assert (hop e0 = N.to_nat (hundred_ms (w_rate w))) as EH by (unfold hop; now rewrite R0).
  unfold too_short in HS. apply Nat.mod_divides in Hm; [|destruct Hc; lia]. destruct Hm as (k & Hk). rewrite Hk, Nat.mul_comm, Nat.div_mul in X by (destruct Hc; lia).
  assert (k < 4 * hop e0) as Lk. { rewrite EH. rewrite Hk in HS. destruct Hc. nia. }
  assert (k / hop e0 < 4) as L4 by (apply Nat.div_lt_upper_bound; lia). lia.
Qed.
Lemma silent_panics P E w : is_64bit P -> powf_contract E -> bsearch_contract E -> sort_contract E -> finite_filter E (w_rate w) -> finite_taps E (w_rate w) -> proper_recording w ->
  Forall (fun s => s = 0%Z) (w_samples w) -> analyze_file P E w = Panic.
Proof.
  intros HP HE HB HS H1 H2 HW HZ. destruct (track P E w HP HE HB HW) as (e & (e0 & ps & N1 & C1 & F1 & R1) & [(_ & _ & H)|(_ & t & _ & HQ & _)]); auto. exfalso.
  destruct (pieces_played P E w e0 ps HP HB HW N1 C1 F1) as (e' & t' & _ & R2 & HSes & _). rewrite R1 in R2. apply Ret_pair_inj in R2. destruct R2 as (_ & <-).
  pose proof HW as (_ & _ & Hs & _).
  destruct (silence P E _ _ _ e0 _ e HP HS H1 H2 Hs N1 HSes) as (_ & _ & _ & _ & _ & Q & _).
  - apply Forall_forall. intros o Ho. apply in_map_iff in Ho. destruct Ho as (p & <- & Hp). cbn [quiet silent_audio].
    apply Forall_forall. intros x Hx. assert (In x (concat ps)) as Hin by (apply in_concat; eauto). rewrite C1 in Hin. apply in_map_iff in Hin. destruct Hin as (s & <- & Hi). rewrite Forall_forall in HZ. rewrite (HZ s Hi). exists false. vm_compute. reflexivity.
  - rewrite HQ in Q. discriminate Q.
Qed.
(** one bad track is enough *)
Lemma album_panics P E ws : is_64bit P -> powf_contract E -> bsearch_contract E -> Forall proper_recording ws ->
  (exists w, In w ws /\ analyze_file P E w = Panic) -> replaygain P E ws = Panic.
Proof.
  intros HP HE HB HW (w & Hw & Hp). unfold replaygain. assert (omap (analyze_file P E) ws = Panic) as ->; [|reflexivity].
  induction HW as [|v ws Hv HWs IH]; [destruct Hw|]. cbn [omap]. destruct Hw as [->|Hw]; [now rewrite Hp|].
  destruct (track P E v HP HE HB Hv) as (e & _ & [(_ & _ & ->)|(_ & t & -> & _)]); [reflexivity|]. cbn [obind]. now rewrite (IH Hw).
Qed.
Lemma short_stops P E ws w : is_64bit P -> powf_contract E -> bsearch_contract E -> Forall proper_recording ws ->
  In w ws -> too_short w -> replaygain P E ws = Panic.
Proof.
  intros HP HE HB HW Hw HS. apply album_panics; auto. exists w. split; auto. apply short_panics; auto. rewrite Forall_forall in HW. auto.
Qed.
Lemma silent_stops P E ws w : is_64bit P -> powf_contract E -> bsearch_contract E -> sort_contract E -> Forall proper_recording ws ->
  In w ws -> Forall (fun s => s = 0%Z) (w_samples w) -> finite_filter E (w_rate w) -> finite_taps E (w_rate w) -> replaygain P E ws = Panic.
Proof.
  intros HP HE HB HS HW Hw HZ H1 H2. apply album_panics; auto. exists w. split; auto. apply silent_panics; auto. rewrite Forall_forall in HW. auto.
Qed.
Lemma track_answers P E w : is_64bit P -> powf_contract E -> bsearch_contract E -> proper_recording w ->
  exists e, analyzed P E w e /\
  ((ask P E e QCount = Ret (ACount None) /\ analyze_file P E w = Panic) \/
   (exists t, analyze_file P E w = Ret t /\ ask P E e QCount = Ret (ACount (Some (t_count t, t_energy t))) /\
      ask P E e QGlobal = Ret (AValue (Ok (t_loudness t))) /\ Spec.largest (sample_levels w) (t_peak t))).
Proof.
  intros HP HE HB HW. destruct (track P E w HP HE HB HW) as (e & He & [(_ & H1 & H2)|(_ & t & H1 & H2 & H3 & H4)]); exists e; split; auto. right. exists t. repeat split; auto; apply H4.
Qed.
Local Open Scope R_scope.
Lemma album_answers P E ws : is_64bit P -> powf_contract E -> bsearch_contract E -> log10_accurate E -> ws <> [] -> (N.of_nat (length ws) <= 100000)%N ->
  (N.of_nat (length (flat_map w_samples ws)) < 18446744073709551616)%N -> Forall proper_recording ws -> Forall (audible P E) ws ->
  exists ts gain peak, replaygain P E ws = Ret (map (fun t => (track_gain t, t_peak t)) ts, (gain, peak)) /\
    Forall2 (fun w t => exists e, analyzed P E w e /\ ask P E e QCount = Ret (ACount (Some (t_count t, t_energy t))) /\ Spec.largest (sample_levels w) (t_peak t)) ws ts /\
    Forall (fun t => is_finite (track_gain t) = true /\ Rabs (real (track_gain t) - prescribed_gain (real (t_energy t)) (amount (t_count t))) <= / 10 ^ 9) ts /\
    is_finite gain = true /\ Rabs (real gain - prescribed_gain (total (map (fun t => real (t_energy t)) ts)) (total (map (fun t => amount (t_count t)) ts))) <= / 10 ^ 9 /\
    (forall lo hi, Forall (fun t => lo <= real (track_gain t) <= hi) ts -> lo - 2 / 10 ^ 9 <= real gain <= hi + 2 / 10 ^ 9) /\
    Spec.largest (flat_map sample_levels ws) peak.
Proof.
  intros HP HE HB HL H1 H2 H3 H4 H5. destruct (album P E ws HP HE HB HL H1 H2 H3 H4 H5) as (ts & g & p & A1 & A2 & A3 & A4).
  exists ts, g, p. split; auto. split; auto. clear - A2 A3. induction A2 as [|w t ws ts Hw _ IH]; [constructor|]. apply Forall2_cons_inv in A3 || (inversion A3 as [|? ? ? ? B1 B2]; subst).
  constructor; auto. destruct B1 as (e & E1 & E2). exists e. split; auto. split; auto. apply Hw.
Qed.
