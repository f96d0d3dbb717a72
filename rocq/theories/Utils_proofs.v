(** Samples containers: what the loops over them see. *)
From Coq Require Import List Arith NArith ZArith Lia Bool.
From Verif Require Import Prelude Prelude_proofs Float Env Utils.
Import ListNotations.

(** Column [c] of a list of frames (no default element needed). *)
Definition col {T} (c : nat) (fs : list (list T)) : list T :=
  concat (map (fun f => firstn 1 (skipn c f)) fs).

(** All columns. *)
Definition cols_of {T} (C : nat) (fs : list (list T)) : list (list T) :=
  map (fun c => col c fs) (seq 0 C).

(** Rows of a list of columns of length [n]. *)
Fixpoint transpose {T} (n : nat) (cols : list (list T)) : list (list T) :=
  match n with
  | O => []
  | S n => concat (map (firstn 1) cols) :: transpose n (map (@tl T) cols)
  end.

(** [view s n cols]: the container [s] holds [n] frames whose channels are [cols]. *)
Definition view {T} (s : samples T) (n : nat) (cols : list (list T)) : Prop :=
  match s with
  | Interleaved d c =>
      c = length cols /\ 0 < c /\
      exists fs, d = concat fs /\ length fs = n /\ Forall (fun f => length f = c) fs /\
                 cols = cols_of c fs
  | Planar data st en =>
      data <> [] /\ st + n = en /\ Forall (fun d => en <= length d) data /\
      cols = map (fun d => firstn n (skipn st d)) data
  end.

Lemma col_cons {T} c (f : list T) fs : col c (f :: fs) = firstn 1 (skipn c f) ++ col c fs.
Proof. reflexivity. Qed.

Lemma nth_error_Some_lt {A} (l : list A) i a : nth_error l i = Some a -> i < length l.
Proof. intros. apply nth_error_Some. congruence. Qed.

Lemma Some_inj {A} (a b : A) : Some a = Some b -> a = b.
Proof. congruence. Qed.

Lemma col_nth_error {T} c (fs : list (list T)) C :
  c < C -> Forall (fun f => length f = C) fs ->
  forall i f, nth_error fs i = Some f -> nth_error (col c fs) i = nth_error f c.
Proof.
  intros Hc Hf. induction Hf as [|g fs Hg Hfs IH]; intros i f Hi.
  - destruct i; discriminate.
  - rewrite col_cons.
    assert (Hl : length (firstn 1 (skipn c g)) = 1) by (rewrite firstn_length, skipn_length; lia).
    destruct i; simpl in Hi.
    + inversion Hi; subst. rewrite nth_error_app1 by lia.
      rewrite nth_error_firstn, nth_error_skipn, Nat.add_0_r. reflexivity.
    + rewrite nth_error_app2 by lia. rewrite Hl. replace (S i - 1) with i by lia. auto.
Qed.

Lemma col_length {T} c (fs : list (list T)) C :
  c < C -> Forall (fun f => length f = C) fs -> length (col c fs) = length fs.
Proof.
  intros Hc. induction 1; auto. rewrite col_cons.
  rewrite app_length, firstn_length, skipn_length, IHForall. simpl length. lia.
Qed.


Lemma col_app {T} c (fs gs : list (list T)) : col c (fs ++ gs) = col c fs ++ col c gs.
Proof. unfold col. rewrite map_app, concat_app. reflexivity. Qed.

Lemma cols_of_length {T} C (fs : list (list T)) : length (cols_of C fs) = C.
Proof. unfold cols_of. now rewrite map_length, seq_length. Qed.

Lemma nth_error_cols_of {T} C (fs : list (list T)) c :
  c < C -> nth_error (cols_of C fs) c = Some (col c fs).
Proof.
  intros. unfold cols_of. erewrite map_nth_error; [reflexivity|].
  rewrite (nth_error_nth' _ _ 0) by (rewrite seq_length; lia). rewrite seq_nth by lia. reflexivity.
Qed.

Lemma cols_of_lengths {T} C (fs : list (list T)) :
  Forall (fun f => length f = C) fs ->
  Forall (fun c => length c = length fs) (cols_of C fs).
Proof.
  intros. unfold cols_of. apply Forall_forall. intros x Hx. apply in_map_iff in Hx.
  destruct Hx as (c & <- & Hc). apply in_seq in Hc. apply col_length with C; auto; lia.
Qed.

Lemma firstn1_cols {T} (f : list T) fs k :
  k <= length f ->
  concat (map (firstn 1) (map (fun c => col c (f :: fs)) (seq k (length f - k)))) = skipn k f.
Proof.
  intros Hk. remember (length f - k) as m eqn:Hm. revert k Hk Hm.
  induction m; intros; simpl.
  - symmetry. apply skipn_all2. lia.
  - assert (exists a, nth_error f k = Some a) as [a Ha].
    { destruct (nth_error f k) eqn:E; eauto. apply nth_error_None in E; lia. }
    assert (Hs : skipn k f = a :: skipn (S k) f).
    { clear -Ha. revert f Ha; induction k; intros f Ha; destruct f; simpl in *; try discriminate.
      - congruence. - rewrite IHk; auto. }
    rewrite IHm by lia. rewrite col_cons, Hs. simpl. reflexivity.
Qed.

Lemma tl_cols {T} C (f : list T) fs :
  length f = C -> map (@tl T) (cols_of C (f :: fs)) = cols_of C fs.
Proof.
  intros. unfold cols_of. rewrite map_map. apply map_ext_in. intros c Hc. apply in_seq in Hc.
  rewrite col_cons. assert (length (firstn 1 (skipn c f)) = 1).
  { rewrite firstn_length, skipn_length; lia. }
  destruct (firstn 1 (skipn c f)) as [|x [|]]; simpl in *; try lia. reflexivity.
Qed.

Lemma transpose_cols_of {T} C (fs : list (list T)) :
  Forall (fun f => length f = C) fs -> transpose (length fs) (cols_of C fs) = fs.
Proof.
  induction 1 as [|f fs Hf Hfs IH]; auto. cbn [length transpose]. f_equal.
  - unfold cols_of. subst C.
    replace (length f) with (length f - 0) by lia.
    rewrite firstn1_cols by lia. reflexivity.
  - rewrite tl_cols; auto.
Qed.

Lemma firstn1_as_nth {T} (d : T) (l : list T) : 0 < length l -> firstn 1 l = [nth 0 l d].
Proof. destruct l; simpl; intros; [lia|reflexivity]. Qed.

(** rows by index *)
Lemma transpose_nth_error {T} n (cols : list (list T)) k :
  k < n -> nth_error (transpose n cols) k = Some (concat (map (fun c => firstn 1 (skipn k c)) cols)).
Proof.
  revert cols k. induction n; intros; [lia|]. destruct k; simpl.
  - reflexivity.
  - rewrite IHn by lia. rewrite map_map. do 2 f_equal. apply map_ext. intros c.
    destruct c; simpl; [now rewrite skipn_nil | reflexivity].
Qed.

Lemma transpose_length {T} n (cols : list (list T)) : length (transpose n cols) = n.
Proof. revert cols; induction n; simpl; auto. Qed.

Lemma concat_single_length {T} (cols : list (list T)) k :
  Forall (fun c => k < length c) cols ->
  length (concat (map (fun c => firstn 1 (skipn k c)) cols)) = length cols.
Proof.
  induction 1; auto. cbn [map concat length]. rewrite app_length, firstn_length, skipn_length, IHForall. lia.
Qed.

Lemma transpose_rows_length {T} n (cols : list (list T)) :
  Forall (fun c => length c = n) cols -> Forall (fun f => length f = length cols) (transpose n cols).
Proof.
  intros H. apply Forall_nth_error. intros k f Hk.
  assert (k < n). { apply nth_error_Some_lt in Hk. now rewrite transpose_length in Hk. }
  rewrite transpose_nth_error in Hk by auto. inversion Hk; subst.
  apply concat_single_length. eapply Forall_impl; [|exact H]. simpl; intros; lia.
Qed.

Lemma nth_error_concat_single {T} (cols : list (list T)) k c d :
  Forall (fun c => k < length c) cols -> nth_error cols c = Some d ->
  nth_error (concat (map (fun c => firstn 1 (skipn k c)) cols)) c = nth_error d k.
Proof.
  intros H. revert c. induction H as [|x cols Hx Hc IH]; intros c Hd; [destruct c; discriminate|].
  assert (Hl : length (firstn 1 (skipn k x)) = 1) by (rewrite firstn_length, skipn_length; lia).
  cbn [map concat]. destruct c; simpl in Hd.
  - inversion Hd; subst. rewrite nth_error_app1 by lia.
    rewrite nth_error_firstn, nth_error_skipn. simpl. f_equal; lia.
  - rewrite nth_error_app2 by lia. rewrite Hl. replace (S c - 1) with c by lia. auto.
Qed.

Lemma cols_of_transpose {T} n (cols : list (list T)) :
  Forall (fun c => length c = n) cols -> cols_of (length cols) (transpose n cols) = cols.
Proof.
  intros H. apply nth_error_ext. intros c.
  destruct (le_lt_dec (length cols) c) as [Hc|Hc].
  - transitivity (@None (list T)); [|symmetry]; apply nth_error_None; auto. now rewrite cols_of_length.
  - rewrite nth_error_cols_of by auto.
    destruct (nth_error cols c) as [d|] eqn:Hd; [|apply nth_error_None in Hd; lia].
    f_equal. apply nth_error_ext. intros k.
    assert (Hdn : length d = n) by (apply Forall_nth_error with (1:=H) (2:=Hd)).
    pose proof (transpose_rows_length n cols H) as Hr.
    destruct (le_lt_dec n k) as [Hk|Hk].
    + transitivity (@None T); [|symmetry]; apply nth_error_None; [|lia].
      rewrite col_length with (C := length cols) by auto. now rewrite transpose_length.
    + rewrite (col_nth_error c _ (length cols) Hc Hr k _ (transpose_nth_error n cols k Hk)).
      apply nth_error_concat_single; auto.
      eapply Forall_impl; [|exact H]. simpl; intros; lia.
Qed.

Section View.
  Context {T : Type}.
  Implicit Types (s : samples T) (cols : list (list T)).

  Lemma view_channels s n cols : view s n cols -> s_channels s = length cols.
  Proof.
    destruct s; simpl; intros H.
    - tauto. - destruct H as (_ & _ & _ & ->). now rewrite map_length.
  Qed.

  Lemma view_channels_pos s n cols : view s n cols -> 0 < length cols.
  Proof.
    destruct s; simpl; intros H.
    - lia. - destruct H as (H & _ & _ & ->). rewrite map_length. destruct data; [congruence|simpl; lia].
  Qed.

  Lemma view_frames s n cols : view s n cols -> s_frames s = n.
  Proof.
    destruct s; simpl; intros H.
    - destruct H as (-> & Hp & fs & -> & <- & Hf & ?).
      rewrite (concat_length_const (length cols)) by auto. apply Nat.div_mul. lia.
    - lia.
  Qed.

  Lemma view_lengths s n cols : view s n cols -> Forall (fun c => length c = n) cols.
  Proof.
    destruct s; simpl; intros H.
    - destruct H as (Hc & Hp & fs & -> & <- & Hf & ->). apply cols_of_lengths. auto.
    - destruct H as (_ & H1 & H2 & ->). apply Forall_forall. intros x Hx. apply in_map_iff in Hx.
      destruct Hx as (d & <- & Hd). rewrite Forall_forall in H2. specialize (H2 d Hd).
      rewrite firstn_length, skipn_length. lia.
  Qed.

  Lemma view_foreach_sample s n cols c xs :
    view s n cols -> nth_error cols c = Some xs -> s_foreach_sample s c = Ret xs.
  Proof.
    intros H Hx. assert (Hc : c < length cols) by (apply nth_error_Some; congruence).
    destruct s; simpl in *.
    - destruct H as (-> & Hp & fs & -> & <- & Hf & Hcols).
      unfold assert_. destruct (Nat.ltb_spec c (length cols)); [|lia].
      unfold chunks_exact. destruct (Nat.eqb_spec (length cols) 0); [lia|]. simpl.
      rewrite chunks_concat by auto.
      rewrite Hcols, nth_error_cols_of in Hx by auto. inversion Hx; subst xs. clear Hx Hcols.
      apply omap_Forall2. apply Forall2_nth_error. { erewrite col_length; eauto. }
      intros i f x Hfi Hxi. erewrite col_nth_error in Hxi; eauto. apply idx_Ret; auto.
    - destruct H as (H0 & H1 & H2 & ->). rewrite map_length in Hc.
      unfold assert_. destruct (Nat.ltb_spec c (length data)); [|lia].
      destruct (idx_lt data c Hc) as (d & -> & Hd). simpl.
      assert (Hl : stop <= length d) by (apply Forall_nth_error with (1:=H2) (2:=Hd)).
      rewrite slice_Ret by lia.
      rewrite (map_nth_error _ _ _ Hd) in Hx. inversion Hx; subst. do 2 f_equal. lia.
  Qed.

  Lemma view_foreach_frame s n cols :
    view s n cols -> s_foreach_frame s (length cols) = Ret (transpose n cols).
  Proof.
    destruct s; simpl; intros H.
    - destruct H as (-> & Hp & fs & -> & <- & Hf & Hcols).
      unfold assert_. rewrite Nat.eqb_refl.
      unfold chunks_exact. destruct (Nat.eqb_spec (length cols) 0); [lia|].
      rewrite chunks_concat by auto. rewrite Hcols, transpose_cols_of by auto. reflexivity.
    - destruct H as (H0 & H1 & H2 & ->). rewrite map_length.
      unfold assert_. rewrite Nat.eqb_refl. replace (stop - start) with n by lia.
      apply omap_Forall2. apply Forall2_nth_error.
      { now rewrite seq_length, transpose_length. }
      intros i f x Hi Hx.
      assert (Hin : i < n). { assert (nth_error (seq start n) i <> None) by congruence.
        apply nth_error_Some in H. now rewrite seq_length in H. }
      rewrite (nth_error_nth' _ _ 0) in Hi by (rewrite seq_length; lia).
      rewrite seq_nth in Hi by lia. inversion Hi; subst f. clear Hi.
      rewrite transpose_nth_error in Hx by auto. apply Some_inj in Hx. subst x.
      apply omap_Forall2. apply Forall2_nth_error.
      { rewrite seq_length, concat_single_length, map_length; auto.
        apply Forall_forall. intros x Hx. apply in_map_iff in Hx. destruct Hx as (d & <- & Hd).
        rewrite Forall_forall in H2. specialize (H2 d Hd). rewrite firstn_length, skipn_length. lia. }
      intros c c' y Hc Hx.
      assert (Hcl : c < length data). { assert (nth_error (seq 0 (length data)) c <> None) by congruence.
        apply nth_error_Some in H. now rewrite seq_length in H. }
      rewrite (nth_error_nth' _ _ 0) in Hc by (rewrite seq_length; lia).
      rewrite seq_nth in Hc by lia. inversion Hc; subst c'. clear Hc.
      destruct (idx_lt data c Hcl) as (d & He & Hd). simpl. rewrite He. simpl. clear He.
      erewrite nth_error_concat_single in Hx.
      3: { apply map_nth_error. exact Hd. }
      2: { apply Forall_forall. intros z Hz. apply in_map_iff in Hz. destruct Hz as (d' & <- & Hd').
           rewrite Forall_forall in H2. specialize (H2 d' Hd'). rewrite firstn_length, skipn_length. lia. }
      rewrite nth_error_firstn, nth_error_skipn in Hx.
      destruct (Nat.ltb_spec i n); [|lia]. apply idx_Ret; auto.
  Qed.

  Lemma view_split_at s n cols k :
    view s n cols -> k <= n ->
    exists s1 s2, s_split_at s k = Ret (s1, s2) /\
      view s1 k (map (firstn k) cols) /\ view s2 (n - k) (map (skipn k) cols).
  Proof.
    intros H Hk. destruct s; simpl in *.
    - destruct H as (-> & Hp & fs & -> & <- & Hf & Hcols).
      rewrite (concat_length_const (length cols)) by auto.
      unfold assert_. destruct (Nat.leb_spec (k * length cols) (length fs * length cols)); [|nia].
      set (C := length cols) in *.
      do 2 eexists. split; [reflexivity|].
      assert (Hsplit : forall k, k <= length fs ->
                firstn (k * C) (concat fs) = concat (firstn k fs) /\
                skipn (k * C) (concat fs) = concat (skipn k fs)).
      { clear -Hf Hp. induction Hf as [|f fs Hf Hfs IH]; intros k Hk.
        - rewrite firstn_nil, skipn_nil. simpl. rewrite firstn_nil, skipn_nil. auto.
        - destruct k; [auto|]. simpl in *. destruct (IH k) as [IH1 IH2]; [lia|].
          rewrite firstn_app, skipn_app, Hf. split.
          + rewrite firstn_all2 by lia. f_equal. rewrite <- IH1. f_equal. lia.
          + rewrite skipn_all2 by lia. simpl. rewrite <- IH2. f_equal. lia. }
      destruct (Hsplit k Hk) as [E1 E2]. rewrite E1, E2.
      assert (Hf1 : Forall (fun f => length f = C) (firstn k fs)).
      { apply Forall_forall. intros x Hx. rewrite Forall_forall in Hf. apply Hf. rewrite <- (firstn_skipn k fs). apply in_or_app; auto. }
      assert (Hf2 : Forall (fun f => length f = C) (skipn k fs)).
      { apply Forall_forall. intros x Hx.
        rewrite Forall_forall in Hf. apply Hf. rewrite <- (firstn_skipn k fs). apply in_or_app; auto. }
      assert (Hcf : forall c, c < C -> col c fs = col c (firstn k fs) ++ col c (skipn k fs)).
      { intros. rewrite <- col_app, firstn_skipn. reflexivity. }
      assert (Hl1 : length (firstn k fs) = k) by (rewrite firstn_length; lia).
      assert (Hlc : forall c, c < C -> length (col c (firstn k fs)) = k).
      { intros. rewrite (col_length c _ C) by auto. auto. }
      split.
      + split; [now rewrite map_length|]. split; [lia|].
        exists (firstn k fs). repeat split; auto.
        rewrite Hcols. unfold cols_of. rewrite map_map. apply map_ext_in. intros c Hc.
        apply in_seq in Hc. rewrite Hcf by lia.
        rewrite firstn_app, firstn_all2 by (rewrite Hlc; lia).
        rewrite Hlc by lia. rewrite Nat.sub_diag, firstn_O, app_nil_r. reflexivity.
      + split; [now rewrite map_length|]. split; [lia|].
        exists (skipn k fs). repeat split; auto. { rewrite skipn_length; auto. }
        rewrite Hcols. unfold cols_of. rewrite map_map. apply map_ext_in. intros c Hc.
        apply in_seq in Hc. rewrite Hcf by lia.
        rewrite skipn_app, skipn_all2 by (rewrite Hlc; lia).
        rewrite Hlc by lia. rewrite Nat.sub_diag, skipn_O. reflexivity.
    - destruct H as (H0 & H1 & H2 & ->).
      unfold assert_. destruct (Nat.leb_spec (start + k) stop); [|lia].
      do 2 eexists. split; [reflexivity|]. split; repeat split; auto; try lia.
      + eapply Forall_impl; [|exact H2]. simpl; intros; lia.
      + rewrite map_map. apply map_ext. intros d. rewrite firstn_firstn. f_equal. lia.
      + rewrite map_map. apply map_ext. intros d. rewrite skipn_firstn_comm, skipn_skipn'. reflexivity.
  Qed.

  Lemma interleaved_new_view (data : list T) C s :
    interleaved_new data C = Ok s ->
    view s (length data / C) (cols_of C (chunks C data)) /\ s_channels s = C.
  Proof.
    unfold interleaved_new. intros H.
    destruct (Nat.eqb_spec C 0); [discriminate|].
    destruct (Nat.eqb_spec (length data mod C) 0); [|discriminate].
    inversion H; subst; clear H. simpl.
    destruct (chunks_split C data (length data / C)) as (H1 & H2 & H3); [lia| |].
    { rewrite Nat.mul_comm. apply Nat.div_exact; auto. }
    split; auto. split; [now rewrite cols_of_length|]. split; [lia|].
    exists (chunks C data). auto.
  Qed.

  Lemma planar_new_view (data : list (list T)) s :
    planar_new data = Ok s ->
    view s (length (hd [] data)) data /\ s_channels s = length data.
  Proof.
    unfold planar_new. intros H. destruct data as [|d0 rest]; [discriminate|].
    destruct (existsb _ _) eqn:E; [discriminate|]. inversion H; subst; clear H.
    set (data := d0 :: rest) in *.
    assert (Hl : forall d, In d data -> length d = length d0).
    { intros d Hd. destruct (Nat.eqb_spec (length d0) (length d)) as [|Hn]; auto.
      assert (existsb (fun d => negb (length d0 =? length d)) data = true); [|congruence].
      apply existsb_exists. exists d. split; auto. apply Nat.eqb_neq in Hn. now rewrite Hn. }
    simpl. split; [|reflexivity]. split; [discriminate|]. split; [lia|]. split.
    - apply Forall_forall. intros d Hd. rewrite (Hl d Hd); auto.
    - change (data = map (fun d => firstn (length d0) d) data).
      rewrite <- (map_id data) at 1. apply map_ext_in. intros d Hd.
      rewrite firstn_all2; auto. rewrite (Hl d Hd); auto.
  Qed.
End View.
