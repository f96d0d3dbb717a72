(** The ring buffer holds the most recent filtered frames; blocks end on schedule. *)
From Coq Require Import List Arith NArith ZArith Bool Lia.
From Flocq Require Import IEEE754.BinarySingleNaN.
From Verif Require Import Prelude Float Env Utils History Interp TruePeak Filter Ebur128 Ref
  Prelude_proofs Utils_proofs Interp_proofs Float_proofs TruePeak_proofs Filter_proofs
  Geometry_proofs History_proofs Ebur128_proofs Ops_proofs Chunk_proofs Spec Reach_proofs Input_proofs Trace_proofs
  Peak_proofs.
Import ListNotations.
Ltac Zify.zify_post_hook ::= Z.div_mod_to_equations.

(** * The last frames of a signal *)
Lemma skipn_skipn' {A} m n (l : list A) : skipn m (skipn n l) = skipn (n + m) l.
Proof. revert l; induction n; simpl; intros; auto. destruct l; [now rewrite skipn_nil|]. apply IHn. Qed.
Lemma skipn_app_le {A} n (l m : list A) : n <= length l -> skipn n (l ++ m) = skipn n l ++ m.
Proof. intros. rewrite skipn_app. replace (n - length l) with 0 by lia. reflexivity. Qed.
Lemma firstn_app_le {A} n (l m : list A) : n <= length l -> firstn n (l ++ m) = firstn n l.
Proof. intros. rewrite firstn_app. replace (n - length l) with 0 by lia. simpl. now rewrite app_nil_r. Qed.

Lemma recent_length w ys : length (recent w ys) = w.
Proof. unfold recent. rewrite skipn_length, app_length, repeat_length. lia. Qed.
Lemma recent_nil w : recent w [] = repeat f64_zero w.
Proof. unfold recent. simpl. now rewrite app_nil_r. Qed.
Lemma recent_app w ys out : recent w (ys ++ out) = skipn (length out) (recent w ys ++ out).
Proof.
  unfold recent. rewrite app_length, <- skipn_skipn'. f_equal.
  rewrite app_assoc, skipn_app_le; auto. rewrite app_length. lia.
Qed.
Lemma recent_sub w L ys : w <= L -> recent w ys = skipn (L - w) (recent L ys).
Proof.
  intros H. unfold recent. rewrite skipn_skipn'.
  replace (length ys + (L - w)) with ((L - w) + length ys) by lia. rewrite <- skipn_skipn'. f_equal.
  replace L with ((L - w) + w) at 2 by lia. rewrite repeat_app, <- app_assoc.
  rewrite skipn_app, repeat_length, Nat.sub_diag. rewrite skipn_all2 by (rewrite repeat_length; lia). reflexivity.
Qed.
Lemma recent_enough w ys : w <= length ys -> recent w ys = skipn (length ys - w) ys.
Proof.
  intros H. unfold recent. rewrite skipn_app, repeat_length, skipn_all2 by (rewrite repeat_length; lia). reflexivity.
Qed.

(** ring contents for the last [L] frames [W] with write position [i] *)
Definition ringed (L i : nat) (W : list f64) : list f64 := skipn (L - i) W ++ firstn (L - i) W.
Lemma ringed_length L i W : length W = L -> length (ringed L i W) = L.
Proof. intros. unfold ringed. rewrite app_length, skipn_length, firstn_length. lia. Qed.
Lemma ringed_wrap L W : length W = L -> ringed L L W = ringed L 0 W.
Proof.
  intros H. unfold ringed. rewrite Nat.sub_diag, Nat.sub_0_r. simpl.
  rewrite <- H, skipn_all, firstn_all. simpl. now rewrite app_nil_r.
Qed.

Lemma splice_ringed L i W out : length W = L -> i + length out <= L ->
  splice i (ringed L i W) out = ringed L (i + length out) (skipn (length out) (W ++ out)).
Proof.
  intros HW Hi. set (m := length out) in *. unfold splice, ringed. fold m.
  assert (length (skipn (L - i) W) = i) as H1 by (rewrite skipn_length; lia).
  rewrite firstn_app_le by lia. rewrite firstn_all2 by lia.
  rewrite skipn_app, H1. rewrite (skipn_all2 (skipn (L - i) W)) by lia. simpl.
  rewrite skipn_app_le by lia. replace (i + m - i) with m by lia.
  assert (length (skipn m W) = L - m) as H2 by (rewrite skipn_length; lia).
  rewrite (skipn_app_le (L - (i + m))) by lia. rewrite firstn_app_le by lia.
  rewrite skipn_skipn'. replace (m + (L - (i + m))) with (L - i) by lia.
  rewrite <- app_assoc. do 2 f_equal.
  rewrite skipn_firstn_comm. f_equal. lia.
Qed.

Lemma nth_skipn0 {A} n (l : list A) d k : nth k (skipn n l) d = nth (n + k) l d.
Proof. revert l; induction n; intros [|x l]; simpl; auto. destruct k; auto. Qed.
Lemma nth_repeat' {A} (a : A) n k : nth k (repeat a n) a = a.
Proof. revert k; induction n; destruct k; simpl; auto. Qed.
Lemma stale_spec L ys : 0 < L -> stale L ys = nth 0 (recent L ys) f64_zero.
Proof.
  intros HL. unfold stale, recent. rewrite nth_skipn0, Nat.add_0_r.
  destruct (Nat.ltb_spec (length ys) L).
  - rewrite app_nth1 by (rewrite repeat_length; lia). now rewrite nth_repeat'.
  - rewrite app_nth2 by (rewrite repeat_length; lia). now rewrite repeat_length.
Qed.
Lemma ringed_step L i W : length W = L -> i < L ->
  ringed L i W = ringed L (i + 1) (skipn 1 (W ++ [nth 0 W f64_zero])).
Proof.
  intros HW Hi. pose proof (splice_ringed L i W [nth 0 W f64_zero] HW) as H. cbn [length] in H.
  rewrite <- H by lia. unfold splice. cbn [length].
  assert (length (skipn (L - i) W) = i) as H1 by (rewrite skipn_length; lia).
  unfold ringed. rewrite (firstn_app_le i) by lia. rewrite (firstn_all2 (skipn (L - i) W)) by lia.
  rewrite skipn_app, H1, (skipn_all2 (skipn (L - i) W)) by lia. replace (i + 1 - i) with 1 by lia.
  f_equal. cbn [app]. destruct W as [|x W]; [cbn in HW; lia|].
  destruct (L - i) eqn:E; [lia|]. reflexivity.
Qed.
Lemma hold_length L n ys : length (hold L n ys) = length ys + n.
Proof. revert ys; induction n; simpl; intros; [lia|]. rewrite IHn, app_length. simpl. lia. Qed.
Lemma hold_add L n m ys : hold L (n + m) ys = hold L m (hold L n ys).
Proof. revert ys; induction n; simpl; intros; auto. Qed.
Lemma hold_app L n ys : exists out, hold L n ys = ys ++ out /\ length out = n.
Proof.
  revert ys; induction n; simpl; intros. { exists []. now rewrite app_nil_r. }
  destruct (IHn (ys ++ [stale L ys])) as (out & -> & H). exists (stale L ys :: out).
  rewrite <- app_assoc. simpl. auto.
Qed.
Lemma hold_ringed L n : forall i ys, i + n <= L ->
  ringed L i (recent L ys) = ringed L (i + n) (recent L (hold L n ys)).
Proof.
  induction n; intros i ys H; simpl; [now rewrite Nat.add_0_r|].
  rewrite ringed_step by (try apply recent_length; lia).
  rewrite <- stale_spec by lia.
  pose proof (recent_app L ys [stale L ys]) as R. cbn [length] in R. rewrite <- R.
  rewrite IHn by lia. f_equal. lia.
Qed.

(** * Windows *)
Lemma window_ringed L w i ys : w <= L -> i <= L ->
  ring_window w i (ringed L i (recent L ys)) = ring_order i (recent w ys).
Proof.
  intros Hw Hi. unfold ring_window, ring_order.
  rewrite (recent_sub w L) by auto. pose proof (recent_length L ys) as HW.
  set (W := recent L ys) in *. rewrite ringed_length by auto.
  rewrite skipn_length, HW. replace (L - (L - w)) with w by lia.
  assert (length (skipn (L - i) W) = i) as H1 by (rewrite skipn_length; lia).
  unfold ringed. destruct (Nat.ltb_spec i w).
  - rewrite firstn_app_le, firstn_all2 by lia. rewrite skipn_app, H1.
    rewrite (skipn_all2 (skipn (L - i) W)) by lia. cbn [app].
    rewrite skipn_skipn'. replace (L - w + (w - i)) with (L - i) by lia. f_equal.
    rewrite firstn_skipn_comm. f_equal; [lia|]. f_equal. lia.
  - rewrite skipn_app_le, firstn_app_le by (rewrite ?skipn_length; lia).
    rewrite skipn_skipn'. replace (L - i + (i - w)) with (L - w) by lia.
    apply firstn_all2. rewrite skipn_length. lia.
Qed.

(** * The schedule *)
Lemma next_block_gt s n : 1 <= s -> n < next_block s n.
Proof.
  intros Hs. unfold next_block. destruct (Nat.ltb_spec n (4 * s)); [lia|].
  pose proof (Nat.div_mod n s ltac:(lia)). pose proof (Nat.mod_upper_bound n s ltac:(lia)). nia.
Qed.
Lemma next_block_same s n k : 1 <= s -> k < next_block s n - n -> next_block s (n + k) = next_block s n.
Proof.
  intros Hs. unfold next_block. destruct (Nat.ltb_spec n (4 * s)).
  - intros H1. destruct (Nat.ltb_spec (n + k) (4 * s)); [reflexivity|lia].
  - intros H1. destruct (Nat.ltb_spec (n + k) (4 * s)); [lia|].
    pose proof (Nat.div_mod n s ltac:(lia)) as Hd. pose proof (Nat.mod_upper_bound n s ltac:(lia)).
    set (q := n / s) in *. set (r := n mod s) in *.
    assert ((n + k) / s = q) as ->; [|reflexivity].
    symmetry. apply Nat.div_unique with (r := r + k); nia.
Qed.
Lemma next_block_multiple s n : 1 <= s -> exists q, next_block s n = q * s /\ 4 <= q /\ (4 * s <= n -> q = n / s + 1).
Proof.
  intros Hs. unfold next_block. destruct (Nat.ltb_spec n (4 * s)).
  - exists 4. repeat split; lia.
  - exists (n / s + 1). repeat split.
    assert (4 <= n / s) by (apply Nat.div_le_lower_bound; lia). lia.
Qed.
Lemma next_block_next s n : 1 <= s -> next_block s (next_block s n) = next_block s n + s.
Proof.
  intros Hs. destruct (next_block_multiple s n Hs) as (q & -> & Hq & _). unfold next_block.
  destruct (Nat.ltb_spec (q * s) (4 * s)); [nia|]. rewrite Nat.div_mul by lia. nia.
Qed.
(** where the 3 s blocks stand *)
Definition counted (s n : nat) : nat :=
  if n <? 30 * s then n else 20 * s + (n - 30 * s) mod (10 * s).
Definition is_end (s t : nat) : bool := (4 * s <=? t) && (t mod s =? 0).
Definition is_short_end (s t : nat) : bool := (30 * s <=? t) && ((t - 30 * s) mod (10 * s) =? 0).

Lemma between_not_end s n t : 1 <= s -> n < t < next_block s n -> is_end s t = false.
Proof.
  intros Hs (H1 & H2). unfold is_end, next_block in *. destruct (Nat.leb_spec (4 * s) t); [|reflexivity].
  destruct (Nat.ltb_spec n (4 * s)); [lia|]. cbn [andb]. apply Nat.eqb_neq.
  pose proof (Nat.div_mod n s ltac:(lia)) as Hd. pose proof (Nat.mod_upper_bound n s ltac:(lia)).
  pose proof (Nat.div_mod t s ltac:(lia)) as Hd'. intros E. rewrite E in Hd'.
  set (q := n / s) in *. set (q' := t / s) in *. assert (q' < q + 1) by nia. assert (q < q') by nia. lia.
Qed.
Lemma short_is_end s t : 1 <= s -> is_short_end s t = true -> is_end s t = true.
Proof.
  intros Hs. unfold is_short_end, is_end. rewrite !andb_true_iff, !Nat.leb_le, !Nat.eqb_eq. intros (H1 & H2).
  split; [lia|]. pose proof (Nat.div_mod (t - 30 * s) (10 * s) ltac:(lia)) as Hd. rewrite H2 in Hd.
  assert (t = (30 + 10 * ((t - 30 * s) / (10 * s))) * s) as -> by nia. apply Nat.mod_mul. lia.
Qed.
Lemma next_is_end s n : 1 <= s -> is_end s (next_block s n) = true.
Proof.
  intros Hs. destruct (next_block_multiple s n Hs) as (q & -> & Hq & _). unfold is_end.
  rewrite andb_true_iff, Nat.leb_le, Nat.eqb_eq. split; [nia|]. apply Nat.mod_mul. lia.
Qed.
Lemma counted_block s n : 1 <= s ->
  (counted s n + (next_block s n - n) =? 30 * s) = is_short_end s (next_block s n) /\
  counted s (next_block s n) =
    if is_short_end s (next_block s n) then 20 * s else counted s n + (next_block s n - n).
Proof.
  intros Hs. pose proof (next_block_gt s n Hs) as Hgt.
  destruct (Nat.ltb_spec n (30 * s)) as [H|H].
  - assert (next_block s n <= 30 * s) as Hle.
    { unfold next_block. destruct (Nat.ltb_spec n (4 * s)); [lia|].
      apply Nat.mul_le_mono_r. assert (n / s < 30) by (apply Nat.div_lt_upper_bound; lia). lia. }
    assert (counted s n = n) as Hc by (unfold counted; destruct (Nat.ltb_spec n (30 * s)); lia).
    rewrite Hc. replace (n + (next_block s n - n)) with (next_block s n) by lia.
    unfold is_short_end, counted. set (b := next_block s n) in *.
    destruct (Nat.eqb_spec b (30 * s)) as [->|Hne].
    + rewrite Nat.leb_refl, Nat.sub_diag, Nat.mod_0_l, Nat.ltb_irrefl by lia. cbn. split; [reflexivity|lia].
    + destruct (Nat.leb_spec (30 * s) b); [lia|]. destruct (Nat.ltb_spec b (30 * s)); [|lia]. auto.
  - assert (next_block s n = (n / s + 1) * s) as Hb.
    { unfold next_block. destruct (Nat.ltb_spec n (4 * s)); [lia|reflexivity]. }
    pose proof (Nat.div_mod n s ltac:(lia)) as Hd. pose proof (Nat.mod_upper_bound n s ltac:(lia)) as Hr.
    assert (30 <= n / s) as Hq by (apply Nat.div_le_lower_bound; lia).
    set (q := n / s) in *. set (r := n mod s) in *.
    pose proof (Nat.div_mod (q - 30) 10 ltac:(lia)) as Hd2. pose proof (Nat.mod_upper_bound (q - 30) 10 ltac:(lia)) as Hr2.
    set (u := (q - 30) / 10) in *. set (v := (q - 30) mod 10) in *. clearbody q r u v.
    assert ((n - 30 * s) mod (10 * s) = v * s + r) as Hm.
    { symmetry. apply Nat.mod_unique with (q := u); nia. }
    assert (counted s n = 20 * s + (v * s + r)) as Hc.
    { unfold counted. destruct (Nat.ltb_spec n (30 * s)); [lia|]. now rewrite Hm. }
    rewrite Hc, Hb. replace ((q + 1) * s - n) with (s - r) by nia.
    assert (is_short_end s ((q + 1) * s) = (v =? 9)) as Hse.
    { unfold is_short_end. destruct (Nat.leb_spec (30 * s) ((q + 1) * s)); [|nia]. cbn [andb].
      destruct (Nat.eqb_spec v 9) as [->|Hv].
      - apply Nat.eqb_eq. symmetry. apply Nat.mod_unique with (q := u + 1); nia.
      - apply Nat.eqb_neq. intros E.
        assert (((q + 1) * s - 30 * s) mod (10 * s) = (v + 1) * s); [|nia].
        symmetry. apply Nat.mod_unique with (q := u); nia. }
    rewrite Hse. split.
    + destruct (Nat.eqb_spec v 9) as [->|Hv]; [apply Nat.eqb_eq; nia|apply Nat.eqb_neq; nia].
    + unfold counted. destruct (Nat.ltb_spec ((q + 1) * s) (30 * s)); [nia|].
      destruct (Nat.eqb_spec v 9) as [->|Hv].
      * assert (((q + 1) * s - 30 * s) mod (10 * s) = 0); [|lia].
        symmetry. apply Nat.mod_unique with (q := u + 1); nia.
      * assert (((q + 1) * s - 30 * s) mod (10 * s) = (v + 1) * s); [|nia].
        symmetry. apply Nat.mod_unique with (q := u); nia.
Qed.
Lemma counted_tail s n k : 1 <= s -> k < next_block s n - n -> counted s (n + k) = counted s n + k.
Proof.
  intros Hs Hk. pose proof (next_block_gt s n Hs) as Hgt.
  destruct (Nat.ltb_spec n (30 * s)) as [H|H].
  - assert (next_block s n <= 30 * s) as Hle.
    { unfold next_block. destruct (Nat.ltb_spec n (4 * s)); [lia|].
      apply Nat.mul_le_mono_r. assert (n / s < 30) by (apply Nat.div_lt_upper_bound; lia). lia. }
    unfold counted. destruct (Nat.ltb_spec (n + k) (30 * s)); [|lia].
    destruct (Nat.ltb_spec n (30 * s)); lia.
  - assert (next_block s n = (n / s + 1) * s) as Hb.
    { unfold next_block. destruct (Nat.ltb_spec n (4 * s)); [lia|reflexivity]. }
    pose proof (Nat.div_mod n s ltac:(lia)) as Hd. pose proof (Nat.mod_upper_bound n s ltac:(lia)) as Hr.
    assert (30 <= n / s) as Hq by (apply Nat.div_le_lower_bound; lia).
    set (q := n / s) in *. set (r := n mod s) in *.
    pose proof (Nat.div_mod (q - 30) 10 ltac:(lia)) as Hd2. pose proof (Nat.mod_upper_bound (q - 30) 10 ltac:(lia)) as Hr2.
    set (u := (q - 30) / 10) in *. set (v := (q - 30) mod 10) in *. clearbody q r u v.
    unfold counted. destruct (Nat.ltb_spec (n + k) (30 * s)); [lia|]. destruct (Nat.ltb_spec n (30 * s)); [lia|].
    assert ((n - 30 * s) mod (10 * s) = v * s + r) as ->.
    { symmetry. apply Nat.mod_unique with (q := u); nia. }
    assert ((n + k - 30 * s) mod (10 * s) = v * s + r + k) as ->; [|lia].
    symmetry. apply Nat.mod_unique with (q := u); nia.
Qed.

Lemma filter_none {A} (f : A -> bool) l : (forall x, In x l -> f x = false) -> List.filter f l = [].
Proof. induction l; simpl; intros H; auto. rewrite H by auto. auto. Qed.
Lemma ends_split (f : nat -> bool) n k m : 1 <= k -> k <= m ->
  (forall t, n < t < n + k -> f t = false) ->
  List.filter f (seq (S n) m) = (if f (n + k) then [n + k] else []) ++ List.filter f (seq (S (n + k)) (m - k)).
Proof.
  intros Hk Hm Hf. replace m with ((k - 1) + (1 + (m - k))) at 1 by lia.
  rewrite seq_app, filter_app, (filter_none f (seq (S n) (k - 1))).
  2:{ intros x Hx. apply in_seq in Hx. apply Hf. lia. }
  rewrite seq_app, filter_app. cbn [app seq List.filter]. replace (S n + (k - 1)) with (n + k) by lia.
  replace (n + k + 1) with (S (n + k)) by lia. now destruct (f (n + k)).
Qed.
Lemma ends_none (f : nat -> bool) n m : (forall t, n < t < n + m + 1 -> f t = false) -> List.filter f (seq (S n) m) = [].
Proof. intros H. apply filter_none. intros x Hx. apply in_seq in Hx. apply H. lia. Qed.

(** * The analyzer and its tape *)
Record synced (e : ebur128) (g : ghost) (L : nat) (t : list track) (n : nat) : Prop := {
  y_len : length t = e_channels e;
  y_state : map fst t = f_state (e_filter e);
  y_sig : Forall (fun tr => length (snd tr) = n) t;
  y_planes : g_planes g = map (fun tr => ringed L (e_index e) (recent L (snd tr))) t;
  y_index : n mod L = e_index e mod L;
}.
Definition scheduled (e : ebur128) (n : nat) : Prop :=
  e_needed e = next_block (e_s100 e) n - n /\
  (contains (e_mode e) MODE_LRA = true -> e_counter e = counted (e_s100 e) n).

Lemma unused_eqb ch : unused ch = channel_eqb ch Unused.
Proof. destruct ch; reflexivity. Qed.
Lemma capacity_L P E e g L : inv P E e g L -> capacity e = L.
Proof.
  intros H. unfold capacity. change (buffer_size (e_rate e) (e_window e)) with (buffer_frames (e_rate e) (e_window e)).
  rewrite <- (i_L _ _ _ _ _ H). lia.
Qed.
Lemma hop_s P E e g L : inv P E e g L -> hop e = e_s100 e.
Proof. intros H. unfold hop. now rewrite (i_s _ _ _ _ _ H). Qed.

Lemma per_channel_cons {A B C D} (f : A -> B -> C -> D) a l b m c n :
  per_channel f (a :: l) (b :: m) (c :: n) = f a b c :: per_channel f l m n.
Proof. reflexivity. Qed.
Lemma per_channel_length {A B C D} (f : A -> B -> C -> D) l m n :
  length l = length m -> length m = length n -> length (per_channel f l m n) = length m.
Proof.
  revert m n; induction l; destruct m, n; simpl; intros; try discriminate; auto.
  f_equal. apply IHl; lia.
Qed.
Lemma weigh_reading P E e b a memory xs : (b, a) = filter_coefficients E (f64_of_N (e_rate e)) ->
  weigh P E (e_rate e) memory xs =
    (flush_state P (fst (filter_run (ar64_ftz P) b a memory (map (s_f64 smp_reading) xs))),
     chan_ys P smp_reading b a memory xs).
Proof.
  intros Hc. unfold weigh, chan_ys. rewrite <- Hc. cbn [s_f64 smp_reading].
  now destruct (filter_run (ar64_ftz P) b a memory (map r_64 xs)).
Qed.

Lemma track_state P E e b a ch tr xs : (b, a) = filter_coefficients E (f64_of_N (e_rate e)) ->
  fst (track_after P E e ch tr xs) = chan_state P smp_reading b a ch (fst tr) xs.
Proof.
  intros Hc. unfold track_after, chan_state. rewrite (weigh_reading P E e b a) by auto. rewrite unused_eqb.
  destruct (channel_eqb ch Unused); reflexivity.
Qed.
Lemma track_plane P E e b a L i ch tr xs : (b, a) = filter_coefficients E (f64_of_N (e_rate e)) ->
  capacity e = L -> i + length xs <= L ->
  chan_plane P smp_reading b a i ch (fst tr) (ringed L i (recent L (snd tr))) xs =
  ringed L (i + length xs) (recent L (snd (track_after P E e ch tr xs))).
Proof.
  intros Hc HL Hi. unfold track_after, chan_plane. rewrite (weigh_reading P E e b a) by auto. rewrite unused_eqb.
  destruct (channel_eqb ch Unused); cbn [fst snd].
  - rewrite HL. now apply hold_ringed.
  - rewrite splice_ringed; rewrite ?recent_length, ?chan_ys_length; auto.
    rewrite recent_app, chan_ys_length. reflexivity.
Qed.
Lemma track_app P E e ch tr xs : exists out, snd (track_after P E e ch tr xs) = snd tr ++ out /\ length out = length xs.
Proof.
  unfold track_after. rewrite unused_eqb. destruct (channel_eqb ch Unused); cbn [snd].
  - apply hold_app.
  - destruct (filter_coefficients E (f64_of_N (e_rate e))) as (b, a) eqn:Hc.
    rewrite (weigh_reading P E e b a) by auto. cbn [snd]. eexists; split; [reflexivity|]. apply chan_ys_length.
Qed.

(** one piece *)
Lemma fed_synced P E e g L t n m cols :
  inv P E e g L -> synced e g L t n -> length cols = e_channels e -> Forall (fun c => length c = m) cols ->
  e_index e + m <= L ->
  synced (fst (fed P E smp_reading e g m cols)) (snd (fed P E smp_reading e g m cols)) L
    (per_channel (track_after P E e) (e_cmap e) t cols) (n + m).
Proof.
  intros H [Y1 Y2 Y3 Y4 Y5] Hc Hm Hi. pose proof (i_cmap _ _ _ _ _ H) as Hcm.
  pose proof (capacity_L _ _ _ _ _ H) as HL. pose proof (fo_coeff _ _ _ _ _ _ _ _ _ (i_filter _ _ _ _ _ H)) as Hco.
  pose proof (inv_L_pos _ _ _ _ _ H) as HLp.
  split; unfold fed; inv_fields.
  - rewrite per_channel_length; lia.
  - cbn [filter_after f_state]. rewrite <- Y2. clear Y2 Y3 Y4 Y5 Hi Hm.
    generalize dependent (e_channels e). intros C Y1 Hc Hcm. generalize dependent (e_cmap e).
    revert cols C Y1 Hc. induction t as [|tr t IH]; intros [|c cols] C Y1 Hc [|ch cm] Hcm; cbn in *; try congruence; auto.
    subst C. rewrite <- (IH cols (length t)) by lia. f_equal. now apply track_state.
  - clear Y2 Y4 Y5 Hi Hco. generalize dependent (e_channels e). intros C Y1 Hc Hcm. generalize dependent (e_cmap e).
    revert cols C Y1 Hc Hm. induction Y3 as [|tr t Ht Y3 IH]; intros [|c cols] C Y1 Hc Hm [|ch cm] Hcm; cbn in *; try congruence; auto.
    inversion Hm; subst. constructor; [|eapply IH; eauto; lia].
    destruct (track_app P E e ch tr c) as (out & -> & Ho). rewrite app_length. lia.
  - rewrite Y4. clear Y4 Y5. rewrite <- Y2. clear Y2 Y3. generalize dependent (e_channels e). intros C Y1 Hc Hcm.
    generalize dependent (e_cmap e).
    revert cols C Y1 Hc Hm. induction t as [|tr t IH]; intros [|c cols] C Y1 Hc Hm [|ch cm] Hcm; cbn in *; try congruence; auto.
    inversion Hm; subst. f_equal; [now apply track_plane|]. apply (IH cols (length t)); auto; lia.
  - rewrite Nat.add_mod, Y5, <- Nat.add_mod by lia. reflexivity.
Qed.

(** energies *)
Lemma ring_order_mod L i n w ys : 0 < L -> i <= L -> n mod L = i mod L -> w <= L ->
  ring_order i (recent w ys) = ring_order (n mod L) (recent w ys).
Proof.
  intros HL Hi Hn Hw. destruct (Nat.eq_dec i L) as [->|Hne].
  - rewrite Hn, Nat.mod_same by lia. unfold ring_order. rewrite recent_length.
    destruct (Nat.ltb_spec L w); [lia|]. destruct (Nat.ltb_spec 0 w); [|reflexivity].
    rewrite Nat.sub_0_r. rewrite skipn_all2, firstn_all2 by (rewrite recent_length; lia). reflexivity.
  - now rewrite Hn, Nat.mod_small by lia.
Qed.
Lemma apply_weight_gain ch x : apply_weight ch x = gain ch x.
Proof. destruct ch; reflexivity. Qed.
Lemma energy_synced P E e g L t n w : inv P E e g L -> synced e g L t n -> w <= L ->
  energy_now e g w = energy L w (e_cmap e) (signals t).
Proof.
  intros H [Y1 Y2 Y3 Y4 Y5] Hw. pose proof (i_index _ _ _ _ _ H) as Hi. pose proof (inv_L_pos _ _ _ _ _ H) as HLp.
  unfold energy_now, block_energy, energy, weighted_sum. f_equal. rewrite Y4.
  match goal with |- fold_left ?f ?l _ = fold_left ?f' ?l' _ => cut (forall acc, fold_left f l acc = fold_left f' l' acc); [auto|] end.
  generalize (e_cmap e) as cm.
  clear Y4 Y1 Y2. induction Y3 as [|tr t Ht Y3 IH]; intros [|ch cm] acc; cbn; auto.
  rewrite IH. f_equal. rewrite unused_eqb. destruct (channel_eqb ch Unused); auto.
  rewrite window_ringed by lia. rewrite Ht.
  rewrite (ring_order_mod L (e_index e) n w (snd tr)) by auto. now rewrite apply_weight_gain.
Qed.

(** earlier frames stay *)
Lemma per_channel_prefix P E e n m : forall cmap t cols,
  length cmap = length t -> length cols = length t -> Forall (fun tr => length (snd tr) = n) t ->
  Forall (fun c => length c = m) cols ->
  map (firstn n) (signals (per_channel (track_after P E e) cmap t cols)) = signals t.
Proof.
  intros cmap t cols H1 H2 Ht. revert cmap cols H1 H2.
  induction Ht as [|tr t Hn Ht IH]; intros [|ch cmap] [|c cols] H1 H2 Hm; cbn in *; try congruence; auto.
  inversion Hm; subst. f_equal; [|apply IH; auto].
  destruct (track_app P E e ch tr c) as (out & -> & _). rewrite firstn_app_le by lia. apply firstn_all.
Qed.
Lemma firstn_map_trans (ss : list (list f64)) n m : n <= m ->
  map (firstn n) (map (firstn m) ss) = map (firstn n) ss.
Proof. intros. rewrite map_map. apply map_ext. intros a. rewrite firstn_firstn. f_equal. lia. Qed.

Lemma track_config P E e e1 : e_rate e1 = e_rate e -> e_window e1 = e_window e ->
  track_after P E e1 = track_after P E e.
Proof. intros H1 H2. unfold track_after, capacity. now rewrite H1, H2. Qed.
Lemma tape_config P E e e1 : e_rate e1 = e_rate e -> e_window e1 = e_window e -> e_cmap e1 = e_cmap e ->
  forall ks t cols, tape_pieces P E e1 ks t cols = tape_pieces P E e ks t cols.
Proof.
  intros H1 H2 H3. induction ks; intros t cols; cbn [tape_pieces]; auto.
  rewrite IHks, H3. now rewrite (track_config P E e e1) by auto.
Qed.

(** ends, in the words of the specification *)
Lemma block_ends_eq s n m : block_ends s n (n + m) = List.filter (is_end s) (seq (S n) m).
Proof. unfold block_ends. replace (n + m - n) with m by lia. reflexivity. Qed.
Lemma short_ends_eq s n m : short_ends s n (n + m) = List.filter (is_short_end s) (seq (S n) m).
Proof. unfold short_ends. replace (n + m - n) with m by lia. reflexivity. Qed.
Lemma not_short s t : 1 <= s -> is_end s t = false -> is_short_end s t = false.
Proof. intros Hs H. destruct (is_short_end s t) eqn:E; auto. apply short_is_end in E; congruence. Qed.

Definition recorded_in (flag : bool) (L w : nat) (cmap : list Filter.channel) (ss : list (list f64)) (ends : list nat)
    (h : history) : history :=
  if flag then fold_left hist_add (map (energy_at L w cmap ss) ends) h else h.
Lemma recorded_in_nil flag L w cmap ss h : recorded_in flag L w cmap ss [] h = h.
Proof. unfold recorded_in. now destruct flag. Qed.

Lemma block_done_fields P E e g L : inv P E e g L ->
  let e' := block_done e g in
  e_mode e' = e_mode e /\ e_rate e' = e_rate e /\ e_channels e' = e_channels e /\ e_cmap e' = e_cmap e /\
  e_window e' = e_window e /\ e_s100 e' = e_s100 e /\ e_filter e' = e_filter e /\
  e_index e' = (if e_index e =? L then 0 else e_index e) /\ e_needed e' = e_s100 e /\
  e_block e' = (if contains (e_mode e) MODE_I then hist_add (e_block e) (energy_now e g (e_s100 e * 4)) else e_block e) /\
  e_short e' = (if contains (e_mode e) MODE_LRA && (e_counter e + e_needed e =? e_s100 e * 30)
                then hist_add (e_short e) (energy_now e g (e_s100 e * 30)) else e_short e) /\
  (contains (e_mode e) MODE_LRA = true ->
   e_counter e' = if e_counter e + e_needed e =? e_s100 e * 30 then e_s100 e * 20 else e_counter e + e_needed e).
Proof.
  intros H. pose proof (inv_stride _ _ _ _ _ H) as HS.
  assert (e_audio (shorted (gated e g) g) = e_audio e /\ e_channels (shorted (gated e g) g) = e_channels e) as (A1 & A2).
  { unfold shorted, gated. destruct (contains (e_mode e) MODE_I); inv_fields;
      destruct (contains (e_mode e) MODE_LRA); inv_fields; auto;
      destruct (e_counter e + e_needed e =? e_s100 e * 30); auto. }
  cbv zeta. unfold block_done, advance_block. rewrite A1, A2, HS. clear A1 A2. unfold shorted, gated.
  destruct (contains (e_mode e) MODE_I) eqn:EI; inv_fields;
  destruct (contains (e_mode e) MODE_LRA) eqn:EL; inv_fields; cbn [andb];
  try destruct (e_counter e + e_needed e =? e_s100 e * 30); inv_fields; repeat split; auto; discriminate.
Qed.

Lemma synced_same e g L t n e' g' : synced e g L t n ->
  e_channels e' = e_channels e -> f_state (e_filter e') = f_state (e_filter e) -> g_planes g' = g_planes g ->
  e_index e' = (if e_index e =? L then 0 else e_index e) -> 0 < L -> synced e' g' L t n.
Proof.
  intros [Y1 Y2 Y3 Y4 Y5] H1 H2 H3 H4 HL. split; auto; try congruence.
  - rewrite H3, Y4, H4. destruct (Nat.eqb_spec (e_index e) L) as [->|]; auto.
    apply map_ext. intros tr. apply ringed_wrap. apply recent_length.
  - rewrite Y5, H4. destruct (Nat.eqb_spec (e_index e) L) as [->|]; auto.
    rewrite Nat.mod_same, Nat.mod_0_l; lia.
Qed.

Lemma feed_synced P E L : forall fuel e g n m t cols,
  inv P E e g L -> timing e L -> synced e g L t n -> scheduled e n ->
  length cols = e_channels e -> Forall (fun c => length c = m) cols -> m <= fuel ->
  let r := feed P E smp_reading fuel e g m cols in
  let t' := tape_pieces P E e (pieces fuel (e_s100 e) n m) t cols in
  synced (fst r) (snd r) L t' (n + m) /\ scheduled (fst r) (n + m) /\
  map (firstn n) (signals t') = signals t /\
  e_block (fst r) = recorded_in (contains (e_mode e) MODE_I) L (4 * e_s100 e) (e_cmap e) (signals t')
                      (block_ends (e_s100 e) n (n + m)) (e_block e) /\
  e_short (fst r) = recorded_in (contains (e_mode e) MODE_LRA) L (30 * e_s100 e) (e_cmap e) (signals t')
                      (short_ends (e_s100 e) n (n + m)) (e_short e).
Proof.
  induction fuel as [|fuel IH]; intros e g n m t cols H Ht Y Sc Hc Hm Hf; cbv zeta; cbn [feed pieces].
  all: assert (HN: map (firstn n) (signals t) = signals t) by
   (destruct Y as [_ _ Y3 _ _]; unfold signals; rewrite map_map; apply map_ext_in; intros tr Htr;
    rewrite Forall_forall in Y3; rewrite <- (Y3 tr Htr); apply firstn_all).
  - assert (m = 0) by lia. subst m. cbn [fst snd tape_pieces]. rewrite block_ends_eq, short_ends_eq, Nat.add_0_r.
    cbn [seq List.filter]. rewrite !recorded_in_nil. spl; auto.
  - destruct (Nat.eqb_spec m 0) as [->|Hm0].
    { cbn [fst snd tape_pieces]. rewrite block_ends_eq, short_ends_eq, Nat.add_0_r.
      cbn [seq List.filter]. rewrite !recorded_in_nil. spl; auto. }
    pose proof (inv_s_pos _ _ _ _ _ H) as Hs. pose proof (inv_L_pos _ _ _ _ _ H) as HLp.
    destruct Sc as (Sn & Scnt). pose proof (t_needed _ _ Ht) as Hneed.
    destruct (t_step _ _ Ht) as (q & Hq & HqL). pose proof (t_4 _ _ Ht) as H4.
    pose proof (next_block_gt (e_s100 e) n ltac:(lia)) as Hgt.
    set (s := e_s100 e) in *. rewrite <- Sn. set (k := e_needed e) in *.
    assert (next_block s n = n + k) as Hnb by lia.
    destruct (Nat.leb_spec k m) as [Hle|Hlt].
    + pose proof (fed_synced P E e g L t n k (map (firstn k) cols) H Y) as FY.
      pose proof (process_into_ring_ok P E smp_reading e g L (Planar (map (firstn k) cols) 0 k) k (map (firstn k) cols) H) as PR.
      pose proof (fed_fields P E smp_reading e g k (map (firstn k) cols)) as F. cbv zeta in F.
      assert (length (map (firstn k) cols) = e_channels e) as Hck by now rewrite map_length.
      assert (Forall (fun c => length c = k) (map (firstn k) cols)) as Hmk by (eapply firstn_lengths; eauto).
      pose proof (i_C _ _ _ _ _ H) as HC.
      destruct PR as (_ & H1); auto; try lia.
      { apply planar_view; auto. destruct (map (firstn k) cols); cbn in *; [lia|discriminate]. }
      specialize (FY Hck Hmk ltac:(lia)).
      set (t1 := per_channel (track_after P E e) (e_cmap e) t (map (firstn k) cols)) in *.
      destruct (fed P E smp_reading e g k (map (firstn k) cols)) as (e1, g1). cbn [fst snd] in *.
      destruct F as (F1 & F2 & F3 & F4 & F5 & F6 & F7 & F8 & F9 & F10 & F11 & _).
      fold s in F2. fold k in F4.
      destruct (block_done_ok P E e1 g1 L H1) as (_ & H2 & T2).
      { rewrite F2; lia. } { rewrite F1, F2. apply Ht. } { exists q. rewrite F2, F3. lia. }
      pose proof (block_done_fields P E e1 g1 L H1) as B. cbv zeta in B.
      destruct B as (B1 & B2 & B3 & B4 & B5 & B6 & B7 & B8 & B9 & B10 & B11 & B12).
      assert (synced (block_done e1 g1) g1 L t1 (n + k)) as Y1.
      { eapply synced_same; eauto. now rewrite B7. }
      destruct (counted_block s n ltac:(lia)) as (C1 & C2). rewrite Hnb in C1, C2.
      replace (n + k - n) with k in C1, C2 by lia.
      assert (scheduled (block_done e1 g1) (n + k)) as Sc1.
      { split.
        - rewrite B9, B6, F2, <- Hnb, next_block_next by lia. lia.
        - rewrite B1, B6, F1, F2. intros EL. rewrite B12, F9, F4, F2 by congruence.
          rewrite (Scnt EL). rewrite C2, <- C1. rewrite (Nat.mul_comm s 30), (Nat.mul_comm s 20). reflexivity. }
      assert (length (map (skipn k) cols) = e_channels (block_done e1 g1)) as Hc2 by (rewrite map_length; congruence).
      assert (Forall (fun c => length c = m - k) (map (skipn k) cols)) as Hm2 by (eapply skipn_lengths; eauto).
      specialize (IH (block_done e1 g1) g1 (n + k) (m - k) t1 (map (skipn k) cols) H2 T2 Y1 Sc1 Hc2 Hm2 ltac:(lia)).
      cbv zeta in IH. rewrite B6, F2 in IH.
      rewrite (tape_config P E e (block_done e1 g1)) in IH by congruence.
      cbn [tape_pieces]. fold t1. set (t2 := tape_pieces P E e (pieces fuel s (n + k) (m - k)) t1 (map (skipn k) cols)) in *.
      destruct (feed P E smp_reading fuel (block_done e1 g1) g1 (m - k) (map (skipn k) cols)) as (e2, g2).
      cbn [fst snd] in *. destruct IH as (I1 & I2 & I3 & I4 & I5).
      replace (n + k + (m - k)) with (n + m) in * by lia.
      assert (forall w, energy_at L w (e_cmap e) (signals t2) (n + k) = energy L w (e_cmap e) (signals t1)) as EA
        by (intros; unfold energy_at; now rewrite I3).
      spl; auto.
      * rewrite <- (firstn_map_trans (signals t2) n (n + k)) by lia. rewrite I3. unfold t1.
        apply per_channel_prefix with (m := k); auto.
        -- rewrite (i_cmap _ _ _ _ _ H). symmetry. apply Y.
        -- rewrite Hck. symmetry. apply Y.
        -- apply Y.
      * rewrite I4, B10, B1, B4, F1, F6, F10, F2.
        unfold block_ends. replace (n + m - n) with m by lia. replace (n + m - (n + k)) with (m - k) by lia.
        change (fun t3 : nat => (4 * s <=? t3) && (t3 mod s =? 0)) with (is_end s).
        rewrite (ends_split (is_end s) n k m) by (try lia; intros t3 Ht3; apply (between_not_end s n); lia).
        rewrite <- Hnb, next_is_end, Hnb by lia.
        rewrite (energy_synced P E e1 g1 L t1 (n + k)) by (auto; lia). rewrite F6.
        unfold recorded_in. destruct (contains (e_mode e) MODE_I); [|reflexivity].
        cbn [map app fold_left]. rewrite EA. now rewrite (Nat.mul_comm s 4).
      * rewrite I5, B11, B1, B4, F1, F6, F11, F2, F9, F4.
        unfold short_ends. replace (n + m - n) with m by lia. replace (n + m - (n + k)) with (m - k) by lia.
        change (fun t3 : nat => (30 * s <=? t3) && ((t3 - 30 * s) mod (10 * s) =? 0)) with (is_short_end s).
        rewrite (ends_split (is_short_end s) n k m)
          by (try lia; intros t3 Ht3; apply not_short; try lia; apply (between_not_end s n); lia).
        unfold recorded_in. destruct (contains (e_mode e) MODE_LRA) eqn:EL; cbn [andb]; [|reflexivity].
        rewrite (Scnt eq_refl), (Nat.mul_comm s 30), C1. destruct (is_short_end s (n + k)); [|reflexivity].
        rewrite (energy_synced P E e1 g1 L t1 (n + k)) by (auto; pose proof (t_30 _ _ Ht EL); lia). rewrite F6.
        cbn [map app fold_left]. rewrite EA. reflexivity.
    + pose proof (fed_synced P E e g L t n m cols H Y Hc Hm ltac:(lia)) as FY.
      pose proof (fed_fields P E smp_reading e g m cols) as F. cbv zeta in F.
      cbn [tape_pieces]. rewrite (map_firstn_all m cols Hm).
      set (t1 := per_channel (track_after P E e) (e_cmap e) t cols) in *.
      destruct (fed P E smp_reading e g m cols) as (e1, g1). cbn [fst snd] in *.
      destruct F as (F1 & F2 & F3 & F4 & F5 & F6 & F7 & F8 & F9 & F10 & F11 & _).
      fold s in F2. fold k in F4.
      assert (e_block (tail_done e1 m) = e_block e /\ e_short (tail_done e1 m) = e_short e) as (-> & ->).
      { unfold tail_done. destruct (contains (e_mode e1) MODE_LRA); inv_fields; auto. }
      spl.
      * destruct FY as [Y1 Y2 Y3 Y4 Y5]. unfold tail_done.
        destruct (contains (e_mode e1) MODE_LRA); split; inv_fields; auto.
      * assert (next_block s (n + m) = next_block s n) as Hb by (apply next_block_same; lia).
        assert (e_mode (tail_done e1 m) = e_mode e /\ e_s100 (tail_done e1 m) = s /\ e_needed (tail_done e1 m) = k - m) as (D1 & D2 & D3).
        { unfold tail_done. destruct (contains (e_mode e1) MODE_LRA); inv_fields; rewrite ?F4; auto. }
        split; [rewrite D2, D3, Hb; lia|]. rewrite D1, D2. intros EL.
        unfold tail_done. rewrite F1, EL. inv_fields. rewrite F9, (Scnt EL). symmetry. apply counted_tail; lia.
      * unfold t1. apply per_channel_prefix with (m := m); auto.
        -- rewrite (i_cmap _ _ _ _ _ H). symmetry. apply Y.
        -- rewrite Hc. symmetry. apply Y.
        -- apply Y.
      * rewrite block_ends_eq, ends_none by (intros t3 Ht3; apply (between_not_end s n); lia).
        now rewrite recorded_in_nil.
      * rewrite short_ends_eq, ends_none by (intros t3 Ht3; apply not_short; try lia; apply (between_not_end s n); lia).
        now rewrite recorded_in_nil.
Qed.

(** * Whole calls *)
Definition on_tape (e : ebur128) (g : ghost) (L : nat) (t : list track) : Prop :=
  synced e g L t (frames_of (signals t)) /\ scheduled e (frames_of (signals t)).
Lemma synced_frames e g L t n : synced e g L t n -> 1 <= e_channels e -> frames_of (signals t) = n.
Proof.
  intros [Y1 _ Y3 _ _] HC. destruct t as [|tr t]; [cbn in Y1; lia|]. inversion Y3; subst. reflexivity.
Qed.

Lemma added_taped P E e g L t cols : good P E e g L -> on_tape e g L t -> columns (e_channels e) cols ->
  let r := added P E smp_reading e g (frame_count cols) cols in
  let t' := tape_add P E e t cols in
  let n := frames_of (signals t) in let n' := n + frames_of cols in
  on_tape (fst r) (snd r) L t' /\ frames_of (signals t') = n' /\ length t' = length t /\
  map (firstn n) (signals t') = signals t /\
  e_block (fst r) = recorded_in (contains (e_mode e) MODE_I) L (4 * hop e) (e_cmap e) (signals t')
                      (block_ends (hop e) n n') (e_block e) /\
  e_short (fst r) = recorded_in (contains (e_mode e) MODE_LRA) L (30 * hop e) (e_cmap e) (signals t')
                      (short_ends (hop e) n n') (e_short e).
Proof.
  intros (H & Ht & Hg) (Y & Sc) (Hc & HF). cbv zeta. set (n := frames_of (signals t)) in *.
  rewrite (hop_s _ _ _ _ _ H). unfold tape_add. change (frames_of cols) with (frame_count cols).
  fold n. rewrite (hop_s _ _ _ _ _ H). unfold added. pose proof (i_C _ _ _ _ _ H) as HC.
  pose proof (cleared_ok _ _ _ _ _ H) as H1.
  assert (timing (fst (cleared e g)) L) as T1 by (destruct Ht; split; auto).
  assert (synced (fst (cleared e g)) (snd (cleared e g)) L t n) as Y1 by (destruct Y; split; auto).
  assert (scheduled (fst (cleared e g)) n) as S1 by exact Sc.
  pose proof (feed_synced P E L (frame_count cols) (fst (cleared e g)) (snd (cleared e g)) n (frame_count cols) t cols
    H1 T1 Y1 S1 Hc HF (le_n _)) as X. cbv zeta in X.
  pose proof (feed_config P E smp_reading (frame_count cols) (fst (cleared e g)) (snd (cleared e g)) (frame_count cols) cols) as FC.
  assert (same_config e (fst (cleared e g))) as SC0 by (repeat split).
  pose proof (same_config_trans _ _ _ SC0 FC) as (SM & SR & SCh & SCm & SW & _). clear SC0 FC.
  change (e_s100 (fst (cleared e g))) with (e_s100 e) in X.
  rewrite (tape_config P E e (fst (cleared e g))) in X by reflexivity.
  set (t' := tape_pieces P E e (pieces (frame_count cols) (e_s100 e) n (frame_count cols)) t cols) in *.
  change (e_cmap (fst (cleared e g))) with (e_cmap e) in X. change (e_mode (fst (cleared e g))) with (e_mode e) in X.
  change (e_block (fst (cleared e g))) with (e_block e) in X. change (e_short (fst (cleared e g))) with (e_short e) in X.
  destruct (Nat.eqb_spec (frame_count cols) 0) as [E0|E0].
  - subst t'. rewrite E0 in *. cbn [pieces tape_pieces feed fst snd] in *. unfold on_tape.
    destruct X as (X1 & X2 & X3 & X4 & X5). fold n. rewrite Nat.add_0_r in *. cbn [fst snd]. spl; auto.
  - destruct (cleared e g) as (e1, g1). cbn [fst snd] in *.
    destruct (feed P E smp_reading (frame_count cols) e1 g1 (frame_count cols) cols) as (e2, g2). cbn [fst snd] in *.
    destruct X as (X1 & X2 & X3 & X4 & X5).
    assert (frames_of (signals t') = n + frame_count cols) as Hn by (eapply synced_frames; eauto; lia).
    unfold on_tape. rewrite Hn. spl; auto.
    + destruct X1; split; auto.
    + rewrite (y_len _ _ _ _ _ X1), (y_len _ _ _ _ _ Y). exact SCh.
Qed.

Lemma map_rep {A B} (f : A -> B) a n : map f (repeat a n) = repeat (f a) n.
Proof. induction n; simpl; congruence. Qed.
Lemma blank_synced e g L C : e_channels e = C -> f_state (e_filter e) = repeat zero5 C -> e_index e = 0 ->
  g_planes g = repeat (repeat f64_zero L) C -> 0 < L -> synced e g L (blank C) 0.
Proof.
  intros H1 H2 H3 H4 HL. unfold blank. split.
  - rewrite repeat_length. auto.
  - rewrite H2. clear. induction C; simpl; congruence.
  - apply Forall_repeat'. reflexivity.
  - rewrite H4, H3. rewrite map_rep. cbn [snd]. f_equal. unfold ringed. rewrite Nat.sub_0_r, recent_nil.
    rewrite skipn_all2, firstn_all2 by (rewrite repeat_length; lia). reflexivity.
  - rewrite H3. reflexivity.
Qed.
Lemma blank_frames C : frames_of (signals (blank C)) = 0.
Proof. destruct C; reflexivity. Qed.
Lemma scheduled_0 e : 1 <= e_s100 e -> e_needed e = e_s100 e * 4 -> e_counter e = 0 -> scheduled e 0.
Proof.
  intros Hs H1 H2. unfold scheduled, next_block, counted.
  destruct (Nat.ltb_spec 0 (4 * e_s100 e)); [|lia]. destruct (Nat.ltb_spec 0 (30 * e_s100 e)); [|lia]. split; lia.
Qed.
Lemma granted_clamp m w : window_of_mode m <> None -> granted m w = clamp_ms m w.
Proof.
  intros H. apply window_mode in H. unfold granted, clamp_ms.
  assert (contains m MODE_S = N.testbit m 1) as ->.
  { apply eq_true_iff_eq. rewrite contains_S. unfold has_S, has_M in *. intuition. }
  apply contains_M in H. rewrite H. now destruct (N.testbit m 1).
Qed.

Lemma per_channel_seed P E e b a : (b, a) = filter_coefficients E (f64_of_N (e_rate e)) ->
  forall cmap t cols, length cmap = length t -> length cols = length t ->
  map fst (per_channel (seed_track P E e) cmap t cols) = map3 (chan_state P smp_reading b a) cmap (map fst t) cols /\
  signals (per_channel (seed_track P E e) cmap t cols) = signals t.
Proof.
  intros Hc. induction cmap as [|ch cmap IH]; intros [|tr t] [|c cols] H1 H2; cbn in *; try congruence; auto.
  destruct (IH t cols) as (I1 & I2); try lia. split; f_equal; auto.
  - unfold seed_track, chan_state. rewrite unused_eqb, (weigh_reading P E e b a) by auto.
    destruct (channel_eqb ch Unused); reflexivity.
  - unfold seed_track. destruct (unused ch); reflexivity.
Qed.
Lemma synced_signals e g g' L t n e' t' : synced e g L t n -> g_planes g' = g_planes g -> signals t' = signals t ->
  map fst t' = f_state (e_filter e') -> e_channels e' = e_channels e -> e_index e' = e_index e -> synced e' g' L t' n.
Proof.
  intros [Y1 Y2 Y3 Y4 Y5] H0 H1 H2 H3 H4. split; auto; try congruence.
  - rewrite H3, <- Y1. apply (f_equal (@length _)) in H1. unfold signals in H1. now rewrite !map_length in H1.
  - apply Forall_map with (f := snd) (P := fun l => length l = n) in Y3. fold (signals t) in Y3. rewrite <- H1 in Y3.
    unfold signals in Y3. now rewrite Forall_map in Y3.
  - rewrite H0, Y4, H4. rewrite <- (map_map snd (fun l => ringed L (e_index e) (recent L l))).
    rewrite <- (map_map snd (fun l => ringed L (e_index e) (recent L l)) t'). unfold signals in H1. now rewrite H1.
Qed.

Lemma moved_tape P E e g L o e' g' L' t : good P E e g L -> good P E e' g' L' -> moved P E e g L o e' g' L' ->
  on_tape e g L t -> on_tape e' g' L' (tape_after P E e o t).
Proof.
  intros HG HG' HM HT. pose proof HT as (Y & Sc).
  assert (0 < L') as HLp by (destruct HG' as (H' & _); eapply inv_L_pos; eauto).
  assert (1 <= e_s100 e') as Hs by (destruct HG' as (H' & _); pose proof (inv_s_pos _ _ _ _ _ H'); lia).
  destruct o as [number v|m|c rt|w|h| |a|a]; cbn [moved tape_after] in *.
  - destruct HM as ((m & ->) & -> & ->). split; [destruct Y; split; auto|exact Sc].
  - destruct HM as ((m' & ->) & -> & ->). split; [destruct Y; split; auto|exact Sc].
  - unfold changed in HM. rewrite accepted_ok. destruct (params_ok c rt); cbn [negb andb orb] in *.
    2:{ destruct HM as (-> & -> & ->). auto. }
    destruct ((e_rate e =? rt)%N && (N.of_nat (e_channels e) =? c)%N) eqn:Es; cbn [negb] in *.
    { destruct HM as (-> & -> & ->). auto. }
    destruct HM as (_ & -> & f & _ & Hst & Hsp & ->). unfold on_tape. rewrite blank_frames. inv_fields.
    split; [apply blank_synced; auto|apply scheduled_0; auto].
  - unfold rewindowed in HM. cbv zeta in HM.
    assert (granted (e_mode e) w = clamp_ms (e_mode e) w) as -> by (apply granted_clamp; apply HG).
    destruct (_ =? _)%N.
    + destruct HM as (-> & -> & ->). auto.
    + destruct HM as (_ & -> & ->). unfold on_tape.
      match goal with |- context [frames_of ?x] => assert (frames_of x = 0) as -> by (destruct t; reflexivity) end.
      split; [|apply scheduled_0; auto]. destruct Y as [Y1 Y2 Y3 Y4 Y5]. split; inv_fields.
      * now rewrite map_length.
      * rewrite map_map. exact Y2.
      * rewrite Forall_map. clear. induction t; auto.
      * rewrite map_map. cbn [snd]. rewrite <- Y1. clear - HLp. induction t; cbn [map length repeat]; f_equal; auto.
        unfold ringed. rewrite Nat.sub_0_r, recent_nil, skipn_all2, firstn_all2 by (rewrite repeat_length; lia). reflexivity.
      * reflexivity.
  - destruct HM as (-> & -> & ->). unfold set_max_history. destruct (_ =? _)%N; auto.
    cbn [snd]. split; [destruct Y; split; auto|exact Sc].
  - destruct HM as ((f & _ & Hst & Hsp & ->) & -> & ->). unfold on_tape. rewrite blank_frames.
    split; [apply blank_synced; auto|apply scheduled_0; auto].
  - destruct HM as (-> & Hi & Heq). destruct (input P (e_channels e) a) as [cols|].
    2:{ injection Heq as -> ->. auto. }
    destruct Hi as (Hc & _). pose proof (added_taped P E e g L t cols HG HT Hc) as X. cbv zeta in X.
    rewrite <- Heq in X. apply X.
  - destruct HM as (-> & Hi & Heq). destruct (input P (e_channels e) a) as [cols|].
    2:{ injection Heq as -> ->. auto. }
    destruct Hi as ((Hc & _) & _). destruct HG as (H & _ & _).
    destruct (filter_coefficients E (f64_of_N (e_rate e))) as (b0, a0) eqn:Hco.
    destruct (per_channel_seed P E e b0 a0 (eq_sym Hco) (e_cmap e) t cols) as (S1 & S2).
    { rewrite (i_cmap _ _ _ _ _ H). symmetry. apply Y. } { rewrite Hc. symmetry. apply Y. }
    unfold on_tape. rewrite S2. unfold seeded in Heq. apply pair_equal_spec in Heq. destruct Heq as (-> & ->).
    split; [|exact Sc].
    apply (synced_signals e g _ L t); auto. inv_fields. cbn [filter_seeded f_state]. rewrite S1, (y_state _ _ _ _ _ Y).
    pose proof (fo_coeff _ _ _ _ _ _ _ _ _ (i_filter _ _ _ _ _ H)) as Hfc. rewrite Hco in Hfc.
    apply pair_equal_spec in Hfc. destruct Hfc as (-> & ->). reflexivity.
Qed.

Lemma taped_ok P E e t : is_64bit P -> taped P E e t -> exists g L, good P E e g L /\ on_tape e g L t.
Proof.
  intros HP. induction 1 as [channels rate m e Hn Hs|e o r e' t Hl IH Ha Hst].
  - destruct (new_good P E channels rate m e HP Hn Hs) as (g & L & HG & HB). exists g, L. split; auto.
    destruct HB as [Q1 Q2 Q3 Q4 Q5 Q6 Q7 Q8 Q9 Q10 Q11 Q12 Q13 Q14 Q15]. pose proof HG as (H & _).
    pose proof (inv_s_pos _ _ _ _ _ H). unfold on_tape. rewrite blank_frames. split.
    + apply blank_synced; auto. { now rewrite <- Q3. } { now rewrite Q5. } eapply inv_L_pos; eauto.
    + apply scheduled_0; auto. lia.
  - destruct IH as (g & L & HG & HL). destruct (step_moves P E e g L o r e' HP HG Ha Hst) as (g' & L' & HG' & HM).
    exists g', L'. split; auto. eapply moved_tape; eauto.
Qed.
Lemma reachable_taped P E e : reachable P E e -> exists t, taped P E e t.
Proof.
  induction 1 as [channels rate m e Hn Hs|e o r e' Hr IH Ha Hst].
  - eexists. eapply taped_new; eauto.
  - destruct IH as (lg & IH). eexists. eapply taped_step; eauto.
Qed.
Lemma taped_reachable P E e t : taped P E e t -> reachable P E e.
Proof.
  induction 1 as [channels rate m e Hn Hs|e o r e' lg Hl IH Ha Hst].
  - eapply reach_new; eauto.
  - eapply reach_step; eauto.
Qed.
