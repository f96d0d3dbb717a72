(** The rolling buffer and the interpolator against their reference. *)
From Coq Require Import List Arith NArith ZArith Lia Bool.
From Verif Require Import Prelude Prelude_proofs Float Env Utils Utils_proofs Interp Filter Ref.
Import ListNotations.

(** [rb_ok N r h]: [h] are the last [N] values pushed (newest first). *)
Definition rb_ok {T} (N : nat) (r : rolling T) (h : list T) : Prop :=
  0 < N /\ N * 2 <= 48 /\ length (rb_buf r) = 48 /\ rb_position r <= N /\ length h = N /\
  (forall i, i < N -> nth_error (rb_buf r) (rb_position r + i) = nth_error h i) /\
  (forall j, j < N -> nth_error (rb_buf r) (j + N) = nth_error (rb_buf r) j).

Lemma nth_error_repeat' {A} (a : A) n i : i < n -> nth_error (repeat a n) i = Some a.
Proof. revert i; induction n; intros; [lia|]. destruct i; simpl; auto. apply IHn; lia. Qed.

Lemma rolling_new_ok {T} N (d : T) :
  0 < N -> N * 2 <= 48 -> exists r, rolling_new N d = Ret r /\ rb_ok N r (repeat d N).
Proof.
  intros H0 H1. unfold rolling_new, TAPS. unfold assert_.
  destruct (Nat.leb_spec (N * 2) 48); [|lia].
  eexists; split; [reflexivity|]. unfold rb_ok. cbn [rb_buf rb_position].
  rewrite !repeat_length. repeat split; try lia.
  - intros. rewrite !nth_error_repeat' by lia. reflexivity.
  - intros. rewrite !nth_error_repeat' by lia. reflexivity.
Qed.

Lemma push_front_ok {T} N (r : rolling T) h v :
  rb_ok N r h -> exists r', push_front N r v = Ret r' /\ rb_ok N r' (push N h v).
Proof.
  intros (HN & H2 & Hl & Hp & Hh & Hv & Hd). unfold push_front.
  set (p := if rb_position r =? 0 then N - 1 else rb_position r - 1).
  assert (Hsub : (if rb_position r =? 0 then sub_usize N 1 else sub_usize (rb_position r) 1) = Ret p).
  { unfold p. destruct (Nat.eqb_spec (rb_position r) 0); apply sub_usize_Ret; lia. }
  rewrite Hsub. simpl obind. clear Hsub.
  assert (HpN : p < N). { unfold p. destruct (Nat.eqb_spec (rb_position r) 0); lia. }
  rewrite set_unchecked_Ret by lia. simpl obind.
  rewrite set_unchecked_Ret by (rewrite upd_length; lia). simpl obind.
  eexists; split; [reflexivity|]. unfold rb_ok. cbn [rb_buf rb_position].
  rewrite !upd_length.
  assert (Hpush : length (push N h v) = N).
  { unfold push. rewrite firstn_length. simpl. lia. }
  repeat split; try lia.
  - intros i Hi.
    destruct (Nat.eq_dec i 0) as [->|Hi0].
    + rewrite Nat.add_0_r. rewrite nth_error_upd_neq by lia.
      rewrite nth_error_upd_eq by lia. unfold push. destruct N; [lia|]. reflexivity.
    + rewrite nth_error_upd_neq by lia. rewrite nth_error_upd_neq by lia.
      unfold push. rewrite nth_error_firstn. destruct (Nat.ltb_spec i N); [|lia].
      destruct i; [lia|]. simpl nth_error at 2.
      rewrite <- Hv by lia. unfold p in *. destruct (Nat.eqb_spec (rb_position r) 0) as [E|E].
      * rewrite E. simpl. replace (N - 1 + S i) with (i + N) by lia. apply Hd. lia.
      * f_equal. lia.
  - intros j Hj. destruct (Nat.eq_dec j p) as [->|Hjp].
    + rewrite nth_error_upd_eq by (rewrite upd_length; lia).
      rewrite nth_error_upd_neq by lia. rewrite nth_error_upd_eq by lia. reflexivity.
    + rewrite !nth_error_upd_neq by lia. auto.
Qed.

Lemma rolling_view_ok {T} N (r : rolling T) h : rb_ok N r h -> rolling_view N r = Ret h.
Proof.
  intros (HN & H2 & Hl & Hp & Hh & Hv & Hd). unfold rolling_view. rewrite Hl.
  destruct (Nat.ltb_spec (rb_position r) 48); [|lia].
  destruct (Nat.leb_spec (rb_position r + N) 48); [|lia]. simpl. f_equal.
  apply nth_error_ext. intros i. rewrite nth_error_firstn, nth_error_skipn.
  destruct (Nat.ltb_spec i N); auto. symmetry. apply nth_error_None. lia.
Qed.

(** [interp_ok i taps factor C filt h]: interpolator for [C]-channel frames with
    coefficient rows [filt] that has seen [h] (newest first). *)
Definition interp_ok (i : interpf) (taps factor C : nat) (filt : list (list f32))
    (h : list (list f32)) : Prop :=
  in_taps i = taps /\ in_factor i = factor /\ in_channels i = C /\ in_filter i = filt /\
  length filt = taps /\ Forall (fun row => length row = factor) filt /\
  rb_ok taps (in_buffer i) h /\ Forall (fun f => length f = C) h.

(** The coefficient rows of a new interpolator. *)
Definition interp_filter (E : ext) (taps factor : nat) : list (list f32) :=
  map (fun k => map (fun f => interp_coeff E factor (k * factor + f)) (seq 0 factor)) (seq 0 taps).

Lemma interpf_new_ok E taps factor C :
  0 < taps -> taps * factor = 48 -> taps * 2 <= 48 ->
  exists i, interpf_new E taps factor C = Ret i /\
    interp_ok i taps factor C (interp_filter E taps factor) (repeat (zero_frame C) taps).
Proof.
  intros H0 H1 H2. unfold interpf_new, TAPS. rewrite H1. unfold assert_. rewrite Nat.eqb_refl.
  destruct (rolling_new_ok taps (zero_frame C) H0 H2) as (r & Hr & Hok). rewrite Hr. simpl obind.
  eexists; split; [reflexivity|]. unfold interp_ok. cbn [in_taps in_factor in_channels in_filter in_buffer].
  repeat split; auto; try apply Hok.
  - unfold interp_filter. now rewrite map_length, seq_length.
  - apply Forall_forall. intros row Hr'. apply in_map_iff in Hr'. destruct Hr' as (k & <- & _).
    now rewrite map_length, seq_length.
  - apply Forall_forall. intros f Hf. apply repeat_spec in Hf. subst. apply repeat_length.
Qed.

Lemma interpf_reset_ok i taps factor C filt h :
  interp_ok i taps factor C filt h ->
  exists i', interpf_reset i = Ret i' /\ interp_ok i' taps factor C filt (repeat (zero_frame C) taps).
Proof.
  intros (<- & <- & <- & <- & Hf & Hr & Hok & Hh). unfold interpf_reset.
  destruct (rolling_new_ok (in_taps i) (zero_frame (in_channels i))) as (r & Hr' & Hok'); try apply Hok.
  rewrite Hr'. simpl obind. eexists; split; [reflexivity|].
  unfold interp_ok. cbn [in_taps in_factor in_channels in_filter in_buffer].
  repeat split; auto; try apply Hok'.
  apply Forall_forall. intros f Hf'. apply repeat_spec in Hf'. subst. apply repeat_length.
Qed.

(** what interpolate outputs when the inputs (newest first) are [h] *)
Definition interp_out (P : platform) (factor C : nat) (filt h : list (list f32)) : list (list f32) :=
  fold_left (accumulate P) (combine filt h) (repeat (zero_frame C) factor).

Lemma interpolate_ok P i taps factor C filt h frame :
  interp_ok i taps factor C filt h -> length frame = C ->
  exists i', interpolate P i frame = Ret (i', interp_out P factor C filt (push taps h frame)) /\
    interp_ok i' taps factor C filt (push taps h frame).
Proof.
  intros (<- & <- & <- & <- & Hf & Hr & Hok & Hh) Hl. unfold interpolate.
  destruct (push_front_ok (in_taps i) (in_buffer i) h frame Hok) as (r & Hr' & Hok').
  rewrite Hr'. simpl obind. rewrite (rolling_view_ok _ _ _ Hok'). simpl obind.
  eexists; split; [reflexivity|].
  unfold interp_ok. cbn [in_taps in_factor in_channels in_filter in_buffer].
  repeat split; auto; try apply Hok'.
  unfold push. apply Forall_forall. intros f Hf'.
  assert (Hin : In f (frame :: h)).
  { rewrite <- (firstn_skipn (in_taps i) (frame :: h)). apply in_or_app; auto. }
  destruct Hin as [<-|Hin]; auto. rewrite Forall_forall in Hh. auto.
Qed.

(** ** One channel of the interpolator's output is the FIR of that channel *)
Lemma accumulate_nth P out coeffs frame f o cf :
  nth_error out f = Some o -> nth_error coeffs f = Some cf ->
  nth_error (accumulate P out (coeffs, frame)) f = Some (frame_scale_add P o frame cf).
Proof. intros. simpl. rewrite nth_error_map2, H, H0. reflexivity. Qed.

Lemma interp_out_nth P factor C : forall filt h f c,
  Forall (fun row => length row = factor) filt -> Forall (fun fr => length fr = C) h ->
  f < factor -> c < C ->
  forall out o a, length out = factor -> nth_error out f = Some o -> length o = C ->
  nth_error o c = Some a ->
  exists o', nth_error (fold_left (accumulate P) (combine filt h) out) f = Some o' /\ length o' = C /\
    nth_error o' c = Some (fold_left (fun acc '(cf, x) => f32_scale_add P acc x cf)
       (combine (map (fun row => nth f row f32_zero) filt) (col c h)) a).
Proof.
  intros filt h. revert h. induction filt as [|row filt IH]; intros h f c Hf Hh Hff Hc out o a Ho Hof Hol Hoc.
  - simpl. eauto.
  - destruct h as [|fr h].
    + simpl. exists o. repeat split; auto.
    + inversion Hf as [|? ? Hrow Hf']; subst. inversion Hh as [|? ? Hfr Hh']; subst.
      assert (exists x, nth_error fr c = Some x) as [x Hx].
      { destruct (nth_error fr c) eqn:E; eauto. apply nth_error_None in E; lia. }
      assert (Hcol : col c (fr :: h) = x :: col c h).
      { rewrite col_cons. replace (firstn 1 (skipn c fr)) with [x]; auto.
        apply nth_error_ext. intros i. rewrite nth_error_firstn, nth_error_skipn.
        destruct i; simpl; [rewrite Nat.add_0_r; auto | destruct i; auto]. }
      rewrite Hcol. simpl combine. cbn [fold_left map].
      assert (Hcf : nth_error row f = Some (nth f row f32_zero)) by (apply nth_error_nth'; lia).
      pose proof (accumulate_nth P out row fr f o _ Hof Hcf) as Hacc.
      apply (IH h f c) with (out := accumulate P out (row, fr)) (o := frame_scale_add P o fr (nth f row f32_zero)); auto.
      * simpl. rewrite map2_length. lia.
      * unfold frame_scale_add. rewrite map2_length. lia.
      * unfold frame_scale_add. rewrite nth_error_map2, Hoc, Hx. reflexivity.
Qed.

Lemma interp_out_length P filt : forall h out factor,
  Forall (fun row => length row = factor) filt -> length out = factor ->
  length (fold_left (accumulate P) (combine filt h) out) = factor.
Proof.
  induction filt as [|row filt IH]; intros; simpl; auto.
  destruct h as [|fr h]; simpl; auto. inversion H; subst. apply IH; auto.
  rewrite map2_length. lia.
Qed.

Lemma interp_out_col P factor C filt h c :
  Forall (fun row => length row = factor) filt -> Forall (fun fr => length fr = C) h -> c < C ->
  col c (interp_out P factor C filt h) = fir P factor filt (col c h) /\
  Forall (fun fr => length fr = C) (interp_out P factor C filt h) /\
  length (interp_out P factor C filt h) = factor.
Proof.
  intros Hf Hh Hc.
  assert (Hlen : length (interp_out P factor C filt h) = factor).
  { apply interp_out_length; auto. apply repeat_length. }
  assert (Hnth : forall f, f < factor -> exists o', nth_error (interp_out P factor C filt h) f = Some o' /\
     length o' = C /\ nth_error o' c = Some (fir_phase P (map (fun row => nth f row f32_zero) filt) (col c h))).
  { intros f Hff. unfold interp_out, fir_phase. eapply interp_out_nth; eauto.
    - apply repeat_length.
    - apply nth_error_repeat'; auto.
    - apply repeat_length.
    - apply nth_error_repeat'; auto. }
  assert (Hall : Forall (fun fr => length fr = C) (interp_out P factor C filt h)).
  { apply Forall_nth_error. intros f o Ho. pose proof (nth_error_Some_lt _ _ _ Ho) as Hlt.
    rewrite Hlen in Hlt. destruct (Hnth f Hlt) as (o' & Ho' & Hl & _). congruence. }
  split; [|split; auto].
  apply nth_error_ext. intros f. destruct (le_lt_dec factor f) as [Hff|Hff].
  - transitivity (@None f32); [|symmetry]; apply nth_error_None.
    + rewrite (col_length c _ C) by auto. lia.
    + unfold fir. rewrite map_length, seq_length. auto.
  - destruct (Hnth f Hff) as (o' & Ho' & Hl & Hx).
    rewrite (col_nth_error c _ C Hc Hall f o' Ho'). rewrite Hx. symmetry.
    unfold fir. erewrite map_nth_error; [reflexivity|].
    rewrite (nth_error_nth' _ _ 0) by (rewrite seq_length; lia). rewrite seq_nth by lia. reflexivity.
Qed.

Lemma col_push {T} n c C (h : list (list T)) f x :
  c < C -> Forall (fun f => length f = C) h -> length f = C -> nth_error f c = Some x ->
  col c (push n h f) = push n (col c h) x.
Proof.
  intros Hc Hh Hf Hx. unfold push. destruct n; [reflexivity|]. simpl firstn. rewrite col_cons.
  replace (firstn 1 (skipn c f)) with [x].
  2: { apply nth_error_ext. intros i. rewrite nth_error_firstn, nth_error_skipn.
       destruct i; simpl; [rewrite Nat.add_0_r; auto | destruct i; auto]. }
  simpl. f_equal. clear x Hx f Hf. revert h Hh. induction n; intros; [reflexivity|].
  destruct h as [|g h]; [reflexivity|]. inversion Hh; subst. simpl firstn at 1. rewrite !col_cons.
  assert (exists y, nth_error g c = Some y) as [y Hy].
  { destruct (nth_error g c) eqn:E; eauto. apply nth_error_None in E; lia. }
  replace (firstn 1 (skipn c g)) with [y].
  2: { apply nth_error_ext. intros i. rewrite nth_error_firstn, nth_error_skipn.
       destruct i; simpl; [rewrite Nat.add_0_r; auto | destruct i; auto]. }
  simpl. f_equal. apply IHn. auto.
Qed.
