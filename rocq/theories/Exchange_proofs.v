(** Exchanging the first two channels (C57). *)
From Coq Require Import List Arith NArith ZArith Bool Lia.
From Flocq Require Import IEEE754.BinarySingleNaN.
From Verif Require Import Prelude Float Env Utils Interp History TruePeak Filter Ebur128 Ref Prelude_proofs Utils_proofs
  Filter_proofs Geometry_proofs History_proofs Ebur128_proofs Ops_proofs Chunk_proofs Spec Reach_proofs Input_proofs
  Trace_proofs Stream_proofs Energy_proofs Loud_proofs Peak_proofs Spec_symmetry Opposite_proofs Compare_proofs
  Polarity_proofs.
Import ListNotations.
Local Open Scope nat_scope.

Lemma Bplus_swap (x y : f64) : f64_add x y = f64_add y x.
Proof.
  unfold f64_add. destruct x as [sx|sx| |sx mx ex Bx], y as [sy|sy| |sy my ey By]; cbn [Bplus]; auto;
    try (destruct sx, sy; reflexivity).
  rewrite Z.min_comm. f_equal. unfold Fplus_naive. apply Z.add_comm.
Qed.

Definition even {A} (x : list (list A)) : Prop := exists n, Forall (fun l => length l = n) x.
Lemma exchange_map {A B} (f : A -> B) l : map f (exchange l) = exchange (map f l).
Proof. destruct l as [|a [|b l]]; reflexivity. Qed.
Lemma exchange_length {A} (l : list A) : length (exchange l) = length l.
Proof. destruct l as [|a [|b l]]; reflexivity. Qed.
Lemma exchange_Forall {A} (Q : A -> Prop) l : Forall Q l -> Forall Q (exchange l).
Proof.
  destruct l as [|a [|b l]]; cbn; auto. intros H. inversion H as [|? ? H1 H2]; subst. inversion H2; subst. auto.
Qed.
Lemma exchange_map2 {A B C} (f : A -> B -> C) l m : length l = length m ->
  map2 f (exchange l) (exchange m) = exchange (map2 f l m).
Proof. destruct l as [|a [|b l]], m as [|c [|d m]]; cbn; intros; try lia; auto. Qed.
Lemma exchange_repeat {A} (a : A) n : exchange (repeat a n) = repeat a n.
Proof. destruct n as [|[|n]]; reflexivity. Qed.
Lemma exchange_twice {A} (l : list A) : exchange (exchange l) = l.
Proof. destruct l as [|a [|b l]]; reflexivity. Qed.
Lemma even_exchange {A} (x : list (list A)) : even x -> even (exchange x).
Proof. intros (n & H). exists n. now apply exchange_Forall. Qed.
Lemma even_frames {A} (x : list (list A)) : even x -> frames_of (exchange x) = frames_of x.
Proof.
  intros (n & H). unfold frames_of. destruct x as [|a [|b x]]; cbn; auto. inversion H as [|? ? H1 H2]; subst. inversion H2; auto.
Qed.

(** ** Input *)
Lemma channel_samples_length {T} C c (l : list T) : length l mod C = 0 -> c < C -> length (channel_samples C c l) = length l / C.
Proof.
  intros Hm Hc. unfold channel_samples. 
  assert (forall ks, Forall (fun k => k < length l / C) ks ->
    length (flat_map (fun k => match nth_error l (k * C + c) with Some x => [x] | None => [] end) ks) = length ks) as H.
  { induction ks as [|k ks IH]; intros HF; cbn [flat_map]; auto. inversion HF as [|? ? Hk HF']; subst. rewrite app_length, IH by auto.
    destruct (nth_error l (k * C + c)) eqn:En; auto. apply nth_error_None in En.
    pose proof (Nat.div_mod (length l) C ltac:(lia)). nia. }
  rewrite H, seq_length; auto. apply Forall_forall. intros k Hk. apply in_seq in Hk. lia.
Qed.
Lemma interleaved_even {T} P (S : sample T) C l x : interleaved_input P S C l = Some x -> even x.
Proof.
  unfold interleaved_input. destruct (Nat.eqb_spec (length l mod C) 0) as [Hm|]; intros [= <-].
  exists (length l / C). unfold deinterleave. apply Forall_forall. intros xs Hx. apply in_map_iff in Hx.
  destruct Hx as (c & <- & Hc). apply in_seq in Hc. rewrite channel_samples_length; rewrite ?map_length; auto. lia.
Qed.
Lemma planar_even {T} P (S : sample T) l x : planar_input P S l = Some x -> even x.
Proof.
  unfold planar_input. destruct l as [|p l]; [discriminate|]. destruct (forallb _ _) eqn:Ef; intros [= <-].
  exists (length p). rewrite forallb_forall in Ef. apply Forall_forall. intros xs Hx.
  assert (In xs (map (map (read P S)) (p :: l))) as Hin by exact Hx. apply in_map_iff in Hin.
  destruct Hin as (q & <- & Hq). rewrite map_length. apply Nat.eqb_eq. now apply Ef.
Qed.
Lemma input_even P C a x : input P C a = Some x -> even x.
Proof. destruct a; cbn [input]; (apply interleaved_even || apply planar_even). Qed.

(** ** Roles *)
Definition roles (cm cm' : list Filter.channel) : Prop := Forall2 same_weight (exchange cm) cm'.
Lemma weight_unused ch ch' : same_weight ch ch' -> unused ch = unused ch'.
Proof.
  assert (forall c, unused c = (weight_class c =? 0)) as H by (intros []; reflexivity). intros E. rewrite !H, E. auto.
Qed.
Lemma weight_dual ch ch' : same_weight ch ch' -> channel_eqb ch DualMono = channel_eqb ch' DualMono.
Proof.
  assert (forall c, channel_eqb c DualMono = (weight_class c =? 3)) as H by (intros []; reflexivity). intros E. rewrite !H, E. auto.
Qed.
Lemma weight_gain ch ch' x : same_weight ch ch' -> gain ch x = gain ch' x.
Proof.
  assert (forall c, gain c x = match weight_class c with 2 => f64_mul x (f64_bin 6350075474592399 (-52)) | 3 => f64_mul x f64_two | _ => x end) as H
    by (intros []; reflexivity). intros E. rewrite !H, E. auto.
Qed.
Lemma weight_refl l : Forall2 same_weight l l.
Proof. induction l; auto. constructor; auto. reflexivity. Qed.
Lemma roles_default C : roles (default_channel_map C) (default_channel_map C).
Proof.
  unfold roles. assert (default_channel_map C = [] \/ default_channel_map C = [Left] \/
    exists l, default_channel_map C = Left :: Right :: l) as H.
  { destruct C as [|[|[|[|[|[|C]]]]]]; cbn; eauto. }
  destruct H as [-> |[-> |(l & ->)]]; cbn [exchange]; auto using weight_refl.
  constructor; [reflexivity|]. constructor; [reflexivity|]. apply weight_refl.
Qed.
Lemma roles_length cm cm' : roles cm cm' -> length cm' = length cm.
Proof. intros H. apply Forall2_length' in H. now rewrite exchange_length in H. Qed.

(** ** Signals *)
Definition swapped_tracks (t u : list track) : Prop := u = exchange t /\ even (signals t).
Definition swapped (x y : list (list reading)) : Prop := y = exchange x /\ even x.
Lemma swapped_frames x y : swapped x y -> frames_of x = frames_of y.
Proof. intros (-> & H). now rewrite even_frames. Qed.
Lemma even_map {A B} (f : list A -> list B) x : (forall a b, length a = length b -> length (f a) = length (f b)) ->
  even x -> even (map f x).
Proof.
  intros Hf (n & H). destruct x as [|a x]; [exists 0; constructor|]. inversion H as [|? ? H1 H2]; subst.
  exists (length (f a)). cbn. constructor; auto. apply Forall_forall. intros y Hy. apply in_map_iff in Hy.
  destruct Hy as (b & <- & Hb). apply Hf. rewrite Forall_forall in H2. auto.
Qed.
Lemma swapped_cut k x y : swapped x y -> swapped (map (firstn k) x) (map (firstn k) y) /\ swapped (map (skipn k) x) (map (skipn k) y).
Proof.
  intros (-> & H). split; (split; [now rewrite exchange_map|]); apply even_map; auto; intros a b; rewrite ?firstn_length, ?skipn_length; lia.
Qed.
Lemma swapped_tframes t u : swapped_tracks t u -> frames_of (signals t) = frames_of (signals u).
Proof. intros (-> & H). unfold signals. rewrite exchange_map. now rewrite even_frames. Qed.
Lemma swapped_blank C : swapped_tracks (blank C) (blank C).
Proof.
  split; [unfold blank; now rewrite exchange_repeat|]. exists 0. unfold signals, blank. rewrite map_rep.
  apply Forall_forall. intros x Hx. apply repeat_spec in Hx. now subst.
Qed.
Lemma swapped_window t u : swapped_tracks t u -> swapped_tracks (map (fun tr => (fst tr, [])) t) (map (fun tr => (fst tr, [])) u).
Proof.
  intros (-> & _). split; [apply exchange_map|]. exists 0. unfold signals. rewrite map_map. apply Forall_forall.
  intros x Hx. apply in_map_iff in Hx. destruct Hx as (? & <- & _). reflexivity.
Qed.
Lemma swapped_tcut k t u : swapped_tracks t u -> swapped_tracks (cut_track k t) (cut_track k u).
Proof.
  intros (-> & H). split; [apply exchange_map|]. rewrite cut_signals. apply even_map; auto.
  intros a b. rewrite !firstn_length. lia.
Qed.
Lemma per_channel_weights {B C D} (f g : Filter.channel -> B -> C -> D) :
  (forall ch ch' b c, same_weight ch ch' -> f ch b c = g ch' b c) -> forall cm cm' t x, Forall2 same_weight cm cm' ->
  per_channel f cm t x = per_channel g cm' t x.
Proof.
  intros H cm cm' t x HF. revert t x. induction HF; intros [|b t] [|c x']; cbn; auto. f_equal; auto. apply IHHF.
Qed.
Lemma per_channel_exchange {A B C D} (f : A -> B -> C -> D) cm t x : length t = length cm -> length x = length cm ->
  per_channel f (exchange cm) (exchange t) (exchange x) = exchange (per_channel f cm t x).
Proof.
  intros H1 H2. unfold per_channel. rewrite !exchange_map2; auto; rewrite ?map2_length'; lia.
Qed.
Lemma even_tracks P E e : forall cm t x n k, length t = length cm -> length x = length cm ->
  Forall (fun l => length l = n) (signals t) -> Forall (fun l : list reading => length l = k) x ->
  Forall (fun l => length l = n + k) (signals (per_channel (track_after P E e) cm t x)).
Proof.
  induction cm as [|ch cm IH]; intros [|tr t] [|xs x] n k H1 H2 F1 F2; cbn in *; try lia; auto.
  inversion F1; subst. inversion F2; subst. constructor; [|apply IH; auto; lia].
  destruct (track_app P E e ch tr xs) as (out & -> & Ho). rewrite app_length. lia.
Qed.
Lemma swapped_add P E e f t u x y : e_rate e = e_rate f -> capacity e = capacity f -> roles (e_cmap e) (e_cmap f) ->
  length t = length (e_cmap e) -> length x = length (e_cmap e) -> swapped_tracks t u -> swapped x y ->
  swapped_tracks (per_channel (track_after P E e) (e_cmap e) t x) (per_channel (track_after P E f) (e_cmap f) u y).
Proof.
  intros HR HC HK Ht Hx (-> & n & Hn) (-> & k & Hk). split.
  - rewrite <- per_channel_exchange by auto. symmetry. apply per_channel_weights; auto.
    intros ch ch' b c Hw. unfold track_after. now rewrite (weight_unused _ _ Hw), HR, HC.
  - exists (n + k). now apply even_tracks.
Qed.
Lemma seed_signals P E e : forall cm t x, length t = length cm -> length x = length cm ->
  signals (per_channel (seed_track P E e) cm t x) = signals t.
Proof.
  induction cm as [|ch cm IH]; intros [|tr t] [|xs x] H1 H2; cbn in *; try lia; auto. f_equal; [|apply IH; lia].
  unfold seed_track. destruct (unused ch); auto.
Qed.
Lemma swapped_seed P E e f t u x y : e_rate e = e_rate f -> roles (e_cmap e) (e_cmap f) ->
  length t = length (e_cmap e) -> length x = length (e_cmap e) -> swapped_tracks t u -> swapped x y ->
  swapped_tracks (per_channel (seed_track P E e) (e_cmap e) t x) (per_channel (seed_track P E f) (e_cmap f) u y).
Proof.
  intros HR HK Ht Hx (-> & n & Hn) (-> & k & Hk). split.
  - rewrite <- per_channel_exchange by auto. symmetry. apply per_channel_weights; auto.
    intros ch ch' b c Hw. unfold seed_track. now rewrite (weight_unused _ _ Hw), HR.
  - exists n. now rewrite seed_signals.
Qed.
Lemma swapped_energy L w cm cm' t u : roles cm cm' -> length t = length cm -> swapped_tracks t u ->
  energy L w cm (signals t) = energy L w cm' (signals u).
Proof.
  intros HK Hl (-> & _). unfold energy. f_equal. unfold signals. rewrite exchange_map. fold (signals t).
  assert (length (signals t) = length cm) as Hl' by (unfold signals; now rewrite map_length).
  revert Hl'. generalize (signals t). clear t Hl. intros ss Hl.
  set (step := fun sum '(ch, ys) => if unused ch then sum else
    f64_add sum (gain ch (sum_of_squares (ring_order (length ys mod L) (recent w ys))))).
  assert (forall c c' ys, same_weight c c' -> forall s, step s (c, ys) = step s (c', ys)) as Hstep.
  { intros c c' ys Hw s. unfold step. now rewrite (weight_unused _ _ Hw), (weight_gain _ _ _ Hw). }
  assert (forall cm cm' ss, Forall2 same_weight cm cm' -> forall s,
    fold_left step (combine cm ss) s = fold_left step (combine cm' ss) s) as HF.
  { intros a b ss' H. revert ss'. induction H; intros [|ys ss'] s; cbn [combine fold_left]; auto. rewrite (Hstep _ _ ys H). auto. }
  destruct cm as [|a [|b cm]], ss as [|x [|y ss]]; cbn in Hl; try lia.
  - inversion HK; subst. reflexivity.
  - cbn [exchange] in HK |- *. now apply HF.
  - rewrite <- (HF _ cm' _ HK). cbn [exchange combine fold_left]. f_equal. unfold step.
    assert (forall ch ys, unsigned (gain ch (sum_of_squares (ring_order (length ys mod L) (recent w ys))))) as Hu.
    { intros. apply gain_unsigned, sum_of_squares_unsigned. }
    destruct (unused a), (unused b); auto. rewrite !add_zero_l by auto. apply Bplus_swap.
Qed.

(** ** Setting roles *)
Lemma exchanged_bound C n : (N.of_nat C <=? exchanged_channel C n)%N = (N.of_nat C <=? n)%N.
Proof.
  unfold exchanged_channel. destruct (Nat.ltb_spec C 2); auto.
  destruct (N.eqb_spec n 0) as [->|]; [|destruct (N.eqb_spec n 1) as [->|]; auto];
    destruct (N.leb_spec (N.of_nat C) 0), (N.leb_spec (N.of_nat C) 1); auto; lia.
Qed.
Lemma bad_many C : C <> 1 -> forall m k, map_has_bad_dual_mono C k m = existsb (fun v => channel_eqb v DualMono) m.
Proof.
  intros HC. induction m as [|v m IH]; intros k; cbn [map_has_bad_dual_mono existsb]; auto. rewrite IH. f_equal.
  unfold dual_mono_bad. destruct (Nat.eqb_spec C 1); [lia|]. cbn. now rewrite andb_true_r.
Qed.
Lemma bad_weights : forall m m', Forall2 same_weight m m' -> forall C k, map_has_bad_dual_mono C k m = map_has_bad_dual_mono C k m'.
Proof.
  induction 1 as [|v v' m m' H HF IH]; intros C k; cbn; auto. rewrite IH. f_equal. unfold dual_mono_bad. now rewrite (weight_dual _ _ H).
Qed.
Lemma bad_exchange C m : length m = C -> map_has_bad_dual_mono C 0 (exchange m) = map_has_bad_dual_mono C 0 m.
Proof.
  destruct m as [|a [|b m]]; auto. cbn [length]. intros HC. rewrite !bad_many by lia. cbn.
  rewrite !orb_assoc. f_equal. apply orb_comm.
Qed.
Lemma Forall2_upd {A B} (R : A -> B -> Prop) l m : Forall2 R l m -> forall n a b, R a b -> Forall2 R (upd l n a) (upd m n b).
Proof. induction 1; intros [|n] u v Huv; cbn; auto. Qed.
Lemma exchange_upd {A} (l : list A) n v : N.to_nat n < length l ->
  exchange (upd l (N.to_nat n) v) = upd (exchange l) (N.to_nat (exchanged_channel (length l) n)) v.
Proof.
  unfold exchanged_channel. destruct l as [|a [|b l]]; cbn [length exchange]; intros Hn; [lia| |].
  - change (1 <? 2) with true. cbv iota. destruct (N.to_nat n); [reflexivity|lia].
  - change (S (S (length l)) <? 2) with false. cbv iota.
    destruct (N.eqb_spec n 0) as [->|]; [reflexivity|]. destruct (N.eqb_spec n 1) as [->|]; [reflexivity|].
    destruct (N.to_nat n) as [|[|k]] eqn:Ek; try lia. reflexivity.
Qed.
Lemma exchanged_map_step P E e f o o' r r' e' f' : sets_map o = true -> sets_map o' = true -> exchanged_call P e o o' ->
  e_channels e = e_channels f -> length (e_cmap e) = e_channels e -> roles (e_cmap e) (e_cmap f) ->
  step P E e o = Ret (r, e') -> step P E f o' = Ret (r', f') ->
  exists m m', e' = with_cmap e m /\ f' = with_cmap f m' /\ roles m m'.
Proof.
  intros H1 H2 HC A3 Hl HK Hs Hs'.
  assert (forall e : ebur128, e = with_cmap e (e_cmap e)) as Hid by (intros []; reflexivity).
  destruct o as [number v|m|c rt|w|h| |a|a]; try discriminate; destruct o' as [number' v'|m'|c' rt'|w'|h'| |a'|a']; try discriminate;
    cbn [step exchanged_call] in Hs, Hs', HC; try discriminate.
  - destruct HC as (-> & Hw). unfold set_channel in Hs, Hs'. rewrite <- A3, exchanged_bound in Hs'.
    destruct (N.leb_spec (N.of_nat (e_channels e)) number) as [Hn|Hn].
    { apply Ret_pair_inj in Hs, Hs'. destruct Hs as (_ & <-). destruct Hs' as (_ & <-). eauto. }
    assert (dual_mono_bad (e_channels e) (N.to_nat (exchanged_channel (e_channels e) number)) v' =
            dual_mono_bad (e_channels e) (N.to_nat number) v) as Hd.
    { unfold dual_mono_bad. rewrite (weight_dual _ _ Hw). f_equal. unfold exchanged_channel.
      destruct (Nat.ltb_spec (e_channels e) 2); auto. destruct (Nat.eqb_spec (e_channels e) 1); auto. lia. }
    rewrite Hd in Hs'. destruct (dual_mono_bad _ _ _).
    { apply Ret_pair_inj in Hs, Hs'. destruct Hs as (_ & <-). destruct Hs' as (_ & <-). eauto. }
    unfold set_idx in Hs, Hs'. destruct (_ <? length (e_cmap e)); [|discriminate]. destruct (_ <? length (e_cmap f)); [|discriminate].
    cbn [obind] in Hs, Hs'. apply Ret_pair_inj in Hs, Hs'. destruct Hs as (_ & <-). destruct Hs' as (_ & <-).
    do 2 eexists. split; [reflexivity|]. split; [reflexivity|]. unfold roles. rewrite exchange_upd by lia. rewrite Hl.
    now apply Forall2_upd.
  - unfold set_channel_map in Hs, Hs'. rewrite <- A3 in Hs'. pose proof (Forall2_length' _ _ _ HC) as HL. rewrite exchange_length in HL.
    rewrite <- HL in Hs'. destruct (Nat.eqb_spec (length m) (e_channels e)) as [Hm|Hm]; cbn [negb] in Hs, Hs'.
    2:{ apply Ret_pair_inj in Hs, Hs'. destruct Hs as (_ & <-). destruct Hs' as (_ & <-). eauto. }
    rewrite <- (bad_weights _ _ HC), bad_exchange in Hs' by auto. destruct (map_has_bad_dual_mono _ _ _).
    { apply Ret_pair_inj in Hs, Hs'. destruct Hs as (_ & <-). destruct Hs' as (_ & <-). eauto. }
    destruct (length (e_cmap e) =? length m); [|discriminate]. destruct (length (e_cmap f) =? length m); [|discriminate].
    cbn [obind] in Hs, Hs'. apply Ret_pair_inj in Hs, Hs'. destruct Hs as (_ & <-). destruct Hs' as (_ & <-). eauto.
Qed.

(** ** Peaks *)
Definition swapped_logs (a b : log) : Prop :=
  lg_heard b = exchange (lg_heard a) /\ lg_last b = exchange (lg_last a) /\ lg_past b = exchange (lg_past a) /\
  lg_inter b = exchange (lg_inter a) /\ lg_inter_last b = exchange (lg_inter_last a).
Lemma swapped_empty C : swapped_logs (empty_log C) (empty_log C).
Proof. unfold swapped_logs, empty_log, no_audio. cbn [lg_heard lg_last lg_past lg_inter lg_inter_last]. rewrite ?exchange_repeat. repeat split; auto. Qed.
Lemma swapped_restart C lg lg' : swapped_logs lg lg' -> swapped_logs (log_restarted C lg) (log_restarted C lg').
Proof.
  intros (H1 & H2 & H3 & H4 & H5). unfold swapped_logs, log_restarted, no_audio. cbn [lg_heard lg_last lg_past lg_inter lg_inter_last].
  rewrite ?exchange_repeat. repeat split; auto.
Qed.
Lemma swapped_log_seed lg lg' x y : log_sizes (length x) lg -> swapped_logs lg lg' -> swapped x y ->
  swapped_logs (log_seeded lg x) (log_seeded lg' y).
Proof.
  intros (L1 & L2 & L3 & L4 & L5) (H1 & H2 & H3 & H4 & H5) (-> & _). unfold swapped_logs, log_seeded, join.
  cbn [lg_heard lg_last lg_past lg_inter lg_inter_last]. rewrite H3, exchange_map, exchange_map2 by (now rewrite map_length). repeat split; auto.
Qed.
Lemma swapped_log_add P E rate lg lg' x y : log_sizes (length x) lg -> swapped_logs lg lg' -> swapped x y ->
  swapped_logs (log_added P E rate lg x) (log_added P E rate lg' y).
Proof.
  intros (L1 & L2 & L3 & L4 & L5) (H1 & H2 & H3 & H4 & H5) (-> & _). unfold swapped_logs, log_added, join, oversample_new.
  cbn [lg_heard lg_last lg_past lg_inter lg_inter_last].
  rewrite H1, H3, H4, exchange_map. rewrite ?exchange_map.
  repeat rewrite exchange_map2 by (rewrite ?map2_length', ?map_length, ?L1, ?L3, ?L4; auto).
  repeat split; auto. apply exchange_map2. rewrite map2_length'; rewrite ?map_length; congruence.
Qed.
Lemma channel_exchange {A} C c (x : list (list A)) : length x = C -> channel (exchanged_channel C c) (exchange x) = channel c x.
Proof.
  intros <-. unfold channel, exchanged_channel. destruct x as [|a [|b x]]; cbn [length exchange]; auto.
  change (S (S (length x)) <? 2) with false. cbv iota.
  destruct (N.eqb_spec c 0) as [->|]; [reflexivity|]. destruct (N.eqb_spec c 1) as [->|]; [reflexivity|].
  destruct (N.to_nat c) as [|[|k]] eqn:Ek; try lia. reflexivity.
Qed.

Definition exchanged_roles (P : platform) (e : ebur128) (o o' : op) : Prop := exchanged_call P e o o'.
Lemma exchanged_comp P E : forall e f e' f', exchanged_session P E e f e' f' ->
  comp_session P E swapped (exchanged_roles P) e f e' f'.
Proof.
  induction 1 as [e f|e f o o' r r' e1 f1 e2 f2 HC Ha Ha' Hs Hs' HS IH]; [constructor|].
  eapply comp_cons; eauto. clear - HC.
  destruct o, o'; cbn [exchanged_call comp_call] in *; auto;
    (destruct (input P (e_channels e) a) as [x|] eqn:Ex, (input P (e_channels e) a0) as [y|]; cbn [same_input] in *; auto;
     split; auto; eapply input_even; eauto).
Qed.
Lemma exchanged P E channels rate m e e' f' : is_64bit P -> ebur128_new P E channels rate m = Ret (Ok e) ->
  supported m rate -> exchanged_session P E e e e' f' ->
  recorded e' = recorded f' /\ e_channels e' = e_channels f' /\
  forall q, ask P E e' q = ask P E f' (exchanged_query (e_channels e') q).
Proof.
  intros HP Hn Hs HS. apply exchanged_comp in HS.
  assert (paired roles e' f' /\ forall q, about_loudness q = true -> ask P E e' q = ask P E f' q) as ([] & HQ).
  { eapply (compared P E HP roles swapped_tracks swapped (exchanged_roles P)); try exact HS; eauto.
    - apply swapped_frames.
    - apply swapped_cut.
    - apply swapped_tframes.
    - apply swapped_blank.
    - apply swapped_window.
    - apply swapped_tcut.
    - intros. now apply swapped_add.
    - intros. now apply swapped_seed.
    - apply roles_default.
    - apply swapped_energy.
    - apply exchanged_map_step. }
  split; [unfold recorded; congruence|]. split; [congruence|].
  intros q. destruct (about_loudness q) eqn:Eq.
  { rewrite HQ by auto. destruct q; try discriminate; reflexivity. }
  pose proof (logged_new P E channels rate m e Hn Hs) as Hl.
  destruct (logs_sessions P E HP swapped swapped_logs (exchanged_roles P)) with (6 := HS) (7 := Hl) (8 := Hl)
    as (lg & lg' & L1 & L2 & (G1 & G2 & G3 & G4 & G5) & C & M); auto.
  - apply swapped_frames.
  - apply swapped_empty.
  - intros. now apply swapped_log_add.
  - intros. now apply swapped_log_seed.
  - intros. now apply swapped_restart.
  - apply swapped_empty.
  - destruct (logged_sizes P E HP e' lg L1) as (Z1 & Z2 & Z3 & Z4 & Z5).
    assert (forall c, let d := exchanged_channel (e_channels e') c in
      sample_peak e' c = sample_peak f' d /\ prev_sample_peak e' c = prev_sample_peak f' d /\
      true_peak e' c = true_peak f' d /\ prev_true_peak e' c = prev_true_peak f' d) as HK.
    { intros c d. apply (peak_query_cases P E e' f' lg lg'); auto; unfold d; rewrite ?G1, ?G2, ?G4, ?G5, ?channel_exchange; auto.
      rewrite !N.ltb_antisym. now rewrite exchanged_bound. }
    destruct q as [| | | | | | |c|c|c|c]; try discriminate; cbn [ask exchanged_query]; destruct (HK c) as (K1 & K2 & K3 & K4); congruence.
Qed.
