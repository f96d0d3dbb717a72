(** The true-peak scanner computes, channel by channel, the reference [tp_run]. *)
From Coq Require Import List Arith NArith ZArith Bool Lia.
From Verif Require Import Prelude Float Env Utils Interp TruePeak Filter Ref
  Prelude_proofs Utils_proofs Interp_proofs Float_proofs.
Import ListNotations.

Lemma nth_error_map3 {A B C D} (f : A -> B -> C -> D) l m n i :
  nth_error (map3 f l m n) i =
  match nth_error l i, nth_error m i, nth_error n i with
  | Some a, Some b, Some c => Some (f a b c) | _, _, _ => None end.
Proof.
  revert m n i; induction l; destruct m, n, i; simpl; auto.
  all: repeat match goal with |- context [match nth_error ?l ?i with _ => _ end] =>
         destruct (nth_error l i); auto end.
Qed.

Lemma map3_length {A B C D} (f : A -> B -> C -> D) l m n :
  length l = length m -> length l = length n -> length (map3 f l m n) = length l.
Proof. revert m n; induction l; destruct m, n; simpl; intros; try discriminate; auto. Qed.

Lemma Forall2_length' {A B} (R : A -> B -> Prop) l m : Forall2 R l m -> length l = length m.
Proof. induction 1; simpl; auto. Qed.

Lemma In_firstn {A} (x : A) n l : In x (firstn n l) -> In x l.
Proof. intros H. rewrite <- (firstn_skipn n l). apply in_or_app. auto. Qed.

(** The interpolator after one more frame. *)
Definition interp_push (i : interpf) (frame : list f32) : interpf :=
  match push_front (in_taps i) (in_buffer i) frame with
  | Ret b => {| in_taps := in_taps i; in_factor := in_factor i; in_channels := in_channels i;
                in_filter := in_filter i; in_buffer := b |}
  | _ => i
  end.

Lemma interpolate_push P i taps factor C filt h frame :
  interp_ok i taps factor C filt h -> length frame = C ->
  interpolate P i frame = Ret (interp_push i frame, interp_out P factor C filt (push taps h frame)) /\
  interp_ok (interp_push i frame) taps factor C filt (push taps h frame).
Proof.
  intros Hi Hl. destruct (interpolate_ok P i taps factor C filt h frame Hi Hl) as (i' & E & Hok).
  enough (i' = interp_push i frame) by (subst; auto).
  unfold interpolate in E. unfold interp_push.
  destruct (push_front (in_taps i) (in_buffer i) frame); simpl in E; try discriminate.
  destruct (rolling_view (in_taps i) a); simpl in E; try discriminate. congruence.
Qed.

Lemma retain_fold_nth : forall outs pks c C pk,
  Forall (fun f => length f = C) outs -> length pks = C -> c < C -> nth_error pks c = Some pk ->
  nth_error (fold_left (fun pk nf => frame_retain_max pk (map f32_abs nf)) outs pks) c =
    Some (fold_left max32 (map f32_abs (col c outs)) pk) /\
  length (fold_left (fun pk nf => frame_retain_max pk (map f32_abs nf)) outs pks) = C.
Proof.
  intros outs pks c C pk H. revert pks pk. induction H as [|o outs Ho Hos IH]; intros pks pk Hl Hc Hp.
  - simpl. auto.
  - cbn [fold_left]. rewrite col_cons.
    destruct (nth_error o c) as [v|] eqn:Ev.
    2:{ apply nth_error_None in Ev. lia. }
    assert (firstn 1 (skipn c o) = [v]) as ->.
    { pose proof (nth_error_skipn o c 0) as Hs. rewrite Nat.add_0_r, Ev in Hs.
      destruct (skipn c o); [discriminate|]. simpl in Hs. inversion Hs; reflexivity. }
    cbn [app map fold_left]. apply IH.
    + unfold frame_retain_max. rewrite map2_length, map_length. lia.
    + exact Hc.
    + unfold frame_retain_max. rewrite nth_error_map2, Hp, (map_nth_error _ _ _ Ev). reflexivity.
Qed.

Lemma tp_run_fst P taps factor filt : forall xs h pk,
  fst (tp_run P taps factor filt h pk xs) = fold_left (push taps) xs h.
Proof. induction xs; intros; simpl; auto. Qed.

Lemma tp_run_app P taps factor filt : forall xs ys h pk,
  tp_run P taps factor filt h pk (xs ++ ys) =
  let '(h', pk') := tp_run P taps factor filt h pk xs in tp_run P taps factor filt h' pk' ys.
Proof. induction xs; intros; simpl; auto. Qed.

Lemma col_fold_push taps c C : forall (frames h : list (list f32)),
  c < C -> Forall (fun f => length f = C) h -> Forall (fun f => length f = C) frames ->
  col c (fold_left (push taps) frames h) = fold_left (push taps) (col c frames) (col c h).
Proof.
  intros frames h Hc Hh Hf. revert h Hh. induction Hf as [|f fs Hf Hfs IH]; intros h Hh; [reflexivity|].
  cbn [fold_left]. rewrite col_cons.
  destruct (nth_error f c) as [v|] eqn:Ev.
  2:{ apply nth_error_None in Ev. lia. }
  assert (firstn 1 (skipn c f) = [v]) as ->.
  { pose proof (nth_error_skipn f c 0) as Hs. rewrite Nat.add_0_r, Ev in Hs.
    destruct (skipn c f); [discriminate|]. simpl in Hs. inversion Hs; reflexivity. }
  cbn [app fold_left]. rewrite IH.
  - rewrite (col_push taps c C h f v); auto.
  - unfold push. apply Forall_forall. intros x Hx. apply (Forall_forall (fun f => length f = C) (f :: h)).
    + constructor; auto.
    + eapply In_firstn; eauto.
Qed.

Lemma spec_fold P taps factor C filt : forall frames i h pks,
  interp_ok i taps factor C filt h -> Forall (fun f => length f = C) frames -> length pks = C ->
  exists pks', ofold (spec_step P) (i, pks) frames = Ret (fold_left interp_push frames i, pks') /\
    length pks' = C /\
    (forall c pk, nth_error pks c = Some pk ->
       nth_error pks' c = Some (snd (tp_run P taps factor filt (col c h) pk (col c frames)))) /\
    interp_ok (fold_left interp_push frames i) taps factor C filt (fold_left (push taps) frames h).
Proof.
  intros frames i h pks Hi Hf. revert i h pks Hi. induction Hf as [|f fs Hf Hfs IH]; intros i h pks Hi Hl.
  - exists pks. simpl. auto.
  - destruct (interpolate_push P i taps factor C filt h f Hi Hf) as (E & Hi').
    cbn [ofold]. unfold spec_step at 1. rewrite E. cbn [obind].
    set (h' := push taps h f) in *.
    assert (Forall (fun fr => length fr = C) h') as Hh' by apply Hi'.
    assert (Forall (fun row => length row = factor) filt) as Hrow by apply Hi'.
    set (pks1 := fold_left _ (interp_out P factor C filt h') pks).
    assert (forall c pk, nth_error pks c = Some pk ->
      nth_error pks1 c = Some (fold_left max32 (map f32_abs (fir P factor filt (col c h'))) pk) /\ length pks1 = C) as H1.
    { intros c pk Hp. assert (c < C) by (apply nth_error_Some_lt in Hp; lia).
      destruct (interp_out_col P factor C filt h' c Hrow Hh' H) as (Hcol & Hall & _).
      rewrite <- Hcol. apply retain_fold_nth; auto. }
    assert (length pks1 = C) as Hl1.
    { destruct C as [|C'].
      - subst pks1. destruct pks; [|discriminate]. clear.
        induction (interp_out P factor 0 filt h'); auto.
      - destruct (nth_error pks 0) as [pk|] eqn:E0; [|apply nth_error_None in E0; lia].
        apply (H1 0 pk E0). }
    destruct (IH (interp_push i f) h' pks1 Hi' Hl1) as (pks' & E' & Hl' & Hn & Hok).
    exists pks'. cbn [fold_left]. repeat split; auto; try apply Hok.
    intros c pk Hp. rewrite col_cons. assert (c < C) as Hc by (apply nth_error_Some_lt in Hp; lia).
    destruct (nth_error f c) as [v|] eqn:Ev; [|apply nth_error_None in Ev; lia].
    assert (firstn 1 (skipn c f) = [v]) as ->.
    { pose proof (nth_error_skipn f c 0) as Hs. rewrite Nat.add_0_r, Ev in Hs.
      destruct (skipn c f); [discriminate|]. simpl in Hs. inversion Hs; reflexivity. }
    cbn [app tp_run]. destruct (H1 c pk Hp) as (Hp1 & _). rewrite (Hn c _ Hp1).
    unfold h'. rewrite (col_push taps c C h f v); auto. apply Hi.
Qed.

(** one-channel histories as frames *)
Definition frames1 (h : list f32) : list (list f32) := map (fun x => [x]) h.
Lemma col_frames1 h : col 0 (frames1 h) = h.
Proof. induction h; auto. unfold frames1. cbn [map]. rewrite col_cons. simpl. f_equal. apply IHh. Qed.
Lemma push_frames1 n h x : push n (frames1 h) [x] = frames1 (push n h x).
Proof.
  unfold push, frames1. change ([x] :: map (fun x => [x]) h) with (map (fun x => [x]) (x :: h)).
  apply firstn_map.
Qed.
Lemma fold_push_frames1 n xs : forall h,
  fold_left (push n) (frames1 xs) (frames1 h) = frames1 (fold_left (push n) xs h).
Proof. induction xs; intros; auto. cbn [frames1 map fold_left]. rewrite push_frames1. apply IHxs. Qed.

Lemma fir_stable P factor filt h : Forall (stable32 P) (fir P factor filt h).
Proof.
  unfold fir. apply Forall_map, Forall_forall. intros f _. unfold fir_phase.
  generalize (map (fun row => nth f row f32_zero) filt) as cs. intros cs.
  assert (forall cs h a, stable32 P a ->
    stable32 P (fold_left (fun acc '(c, x) => f32_scale_add P acc x c) (combine cs h) a)) as H.
  { clear. induction cs; intros; simpl; auto. destruct h; simpl; auto. apply IHcs.
    unfold f32_scale_add. destruct (p_fma P); apply stable32_ftz. }
  apply H, stable32_zero.
Qed.

Lemma fold_max_stable P l : forall pk, stable32 P pk -> Forall (stable32 P) l ->
  stable32 P (fold_left max32 l pk).
Proof. induction l; intros; simpl; auto. inversion H0; subst. apply IHl; auto using stable32_max. Qed.

Lemma tp_run_stable P taps factor filt : forall xs h pk,
  stable32 P pk -> stable32 P (snd (tp_run P taps factor filt h pk xs)).
Proof.
  induction xs; intros; simpl; auto. apply IHxs. apply fold_max_stable; auto.
  apply Forall_map. eapply Forall_impl; [|apply fir_stable]. intros. now apply stable32_abs.
Qed.

Lemma gen_fold P taps factor filt : forall xs i h pk,
  interp_ok i taps factor 1 filt (frames1 h) ->
  ofold (gen_step P) (i, f64_of_f32 pk) xs =
    Ret (fold_left interp_push (frames1 xs) i, f64_of_f32 (snd (tp_run P taps factor filt h pk xs))) /\
  interp_ok (fold_left interp_push (frames1 xs) i) taps factor 1 filt (frames1 (fold_left (push taps) xs h)).
Proof.
  induction xs as [|x xs IH]; intros i h pk Hi; [simpl; auto|].
  destruct (interpolate_push P i taps factor 1 filt (frames1 h) [x] Hi eq_refl) as (E & Hi').
  rewrite push_frames1 in E, Hi'.
  cbn [ofold frames1 map fold_left]. unfold gen_step at 1. rewrite E. cbn [obind].
  assert (Forall (fun row => length row = factor) filt) as Hrow by apply Hi.
  destruct (interp_out_col P factor 1 filt (frames1 (push taps h x)) 0) as (Hcol & Hall & _); auto.
  { apply Hi'. }
  rewrite col_frames1 in Hcol. cbn [tp_run]. rewrite <- Hcol.
  assert (forall outs pk, Forall (fun f => length f = 1) outs ->
    fold_left (fun pk nf => match nf with
                           | v :: _ => let n := f64_of_f32 (f32_abs v) in
                                       if f64_gt n pk then n else pk
                           | [] => pk end) outs (f64_of_f32 pk) =
    f64_of_f32 (fold_left max32 (map f32_abs (col 0 outs)) pk)) as Hfold.
  { clear. intros outs pk H. revert pk. induction H as [|o outs Ho Hos IH]; intros; auto.
    destruct o as [|v [|? ?]]; try discriminate. rewrite col_cons.
    change (firstn 1 (skipn 0 [v])) with [v]. cbn [app map fold_left].
    rewrite <- IH. f_equal. rewrite f64_of_f32_max. reflexivity. }
  rewrite Hfold by auto. apply IH. auto.
Qed.

(** Abstraction of the scanner: one history per channel. *)
Definition scanner_ok (sc : scanner) (taps factor C : nat) (filt : list (list f32))
    (hs : list (list f32)) : Prop :=
  match sc with
  | Specialised ch i => ch = C /\ exists h, interp_ok i taps factor C filt h /\ hs = cols_of C h
  | Generic is => length is = C /\
      Forall2 (fun i h => interp_ok i taps factor 1 filt (frames1 h)) is hs
  end.

(** The scanner after more frames, as columns. *)
Definition scanner_push (sc : scanner) (n : nat) (cols : list (list f32)) : scanner :=
  match sc with
  | Specialised ch i => Specialised ch (fold_left interp_push (transpose n cols) i)
  | Generic is => Generic (map2 (fun i col => fold_left interp_push (frames1 col) i) is cols)
  end.

Definition push_hists (taps : nat) (hs cols : list (list f32)) : list (list f32) :=
  map2 (fun h xs => fold_left (push taps) xs h) hs cols.
Definition tp_peaks (P : platform) (taps factor : nat) (filt : list (list f32))
    (hs : list (list f32)) (pks : list f32) (cols : list (list f32)) : list f32 :=
  map3 (fun h pk xs => snd (tp_run P taps factor filt h pk xs)) hs pks cols.

Lemma transpose_map {A B} (f : A -> B) n : forall cols,
  map (map f) (transpose n cols) = transpose n (map (map f) cols).
Proof.
  induction n; intros; simpl; auto. f_equal.
  - rewrite concat_map, !map_map. f_equal. apply map_ext. intros. now destruct a.
  - rewrite IHn, !map_map. f_equal. apply map_ext. intros. now destruct a.
Qed.

Lemma scanner_ok_hists sc taps factor C filt hs :
  scanner_ok sc taps factor C filt hs -> length hs = C.
Proof.
  destruct sc; simpl.
  - intros (-> & h & _ & ->). apply cols_of_length.
  - intros (<- & H). symmetry. eapply Forall2_length'; eauto.
Qed.

Lemma generic_loop_ok {T} P (S : sample T) src n cols taps factor filt :
  view src n cols ->
  forall is hs pks c cs,
  Forall2 (fun i h => interp_ok i taps factor 1 filt (frames1 h)) is hs ->
  length pks = length is -> cs = skipn c cols -> length cs = length is ->
  generic_loop P S src c is (map f64_of_f32 pks) =
    Ret (map2 (fun i col => fold_left interp_push (frames1 col) i) is (map (map (s_f32 S P)) cs),
         map f64_of_f32 (tp_peaks P taps factor filt hs pks (map (map (s_f32 S P)) cs))) /\
  Forall2 (fun i h => interp_ok i taps factor 1 filt (frames1 h))
    (map2 (fun i col => fold_left interp_push (frames1 col) i) is (map (map (s_f32 S P)) cs))
    (push_hists taps hs (map (map (s_f32 S P)) cs)).
Proof.
  intros Hv is hs pks c cs H. revert pks c cs.
  induction H as [|i h is hs Hi His IH]; intros pks c cs Hl Hcs Hlc.
  - destruct pks; [|discriminate]. destruct cs; [|discriminate]. split; [reflexivity|constructor].
  - destruct pks as [|pk pks]; [discriminate|]. destruct cs as [|x cs]; [discriminate|].
    cbn [generic_loop map].
    assert (nth_error cols c = Some x) as Hx.
    { pose proof (nth_error_skipn cols c 0) as E. rewrite <- Hcs, Nat.add_0_r in E. auto. }
    rewrite (view_foreach_sample _ _ _ _ _ Hv Hx). cbn [obind].
    destruct (gen_fold P taps factor filt (map (s_f32 S P) x) i h pk Hi) as (E & Hok).
    rewrite E. cbn [obind].
    destruct (IH pks (c + 1) cs) as (E2 & Hok2).
    + simpl in Hl. lia.
    + rewrite <- skipn_skipn', <- Hcs. reflexivity.
    + simpl in Hlc. lia.
    + rewrite E2. cbn [obind]. split; [reflexivity|]. constructor; auto.
Qed.

Lemma check_true_peak_ok {T} P (S : sample T) sc taps factor C filt hs src n cols pks :
  scanner_ok sc taps factor C filt hs -> view src n cols -> length cols = C ->
  length pks = C -> Forall (stable32 P) pks ->
  check_true_peak P S sc src (map f64_of_f32 pks) =
    Ret (scanner_push sc n (map (map (s_f32 S P)) cols),
         map f64_of_f32 (tp_peaks P taps factor filt hs pks (map (map (s_f32 S P)) cols))) /\
  scanner_ok (scanner_push sc n (map (map (s_f32 S P)) cols)) taps factor C filt
    (push_hists taps hs (map (map (s_f32 S P)) cols)).
Proof.
  intros Hsc Hv HC Hpk Hst. pose proof (view_lengths _ _ _ Hv) as Hlen.
  set (cols' := map (map (s_f32 S P)) cols).
  assert (length cols' = C) as HC' by (unfold cols'; now rewrite map_length).
  assert (Forall (fun c => length c = n) cols') as Hlen'.
  { unfold cols'. apply Forall_map. eapply Forall_impl; [|apply Hlen]. intros a Ha. simpl. now rewrite map_length. }
  destruct sc as [ch i|is]; simpl in Hsc.
  - destruct Hsc as (-> & h & Hi & ->). cbn [check_true_peak scanner_push].
    unfold check_specialised. rewrite (view_channels _ _ _ Hv), HC, map_length, Hpk, !Nat.eqb_refl. cbn [andb assert_].
    rewrite <- HC, (view_foreach_frame _ _ _ Hv). cbn [obind]. rewrite transpose_map. fold cols'.
    rewrite map_map.
    replace (map (fun x => ftz32 P (f32_of_f64 (f64_of_f32 x))) pks) with pks.
    2:{ rewrite <- (map_id pks) at 1. apply map_ext_in. intros a Ha. rewrite f32_of_f64_of_f32.
        symmetry. rewrite Forall_forall in Hst. apply Hst. auto. }
    assert (Forall (fun f => length f = C) (transpose n cols')) as Htr.
    { rewrite <- HC'. apply transpose_rows_length. auto. }
    destruct (spec_fold P taps factor C filt (transpose n cols') i h pks Hi Htr Hpk) as (pks' & E & Hl & Hn & Hok).
    rewrite E. cbn [obind]. rewrite HC. split.
    + do 2 f_equal. f_equal. apply nth_error_ext. intros c. unfold tp_peaks. rewrite nth_error_map3.
      destruct (nth_error pks c) as [pk|] eqn:Ep.
      * rewrite (Hn c pk Ep). assert (c < C) as Hc by (apply nth_error_Some_lt in Ep; lia).
        rewrite nth_error_cols_of by auto.
        destruct (nth_error cols' c) as [x|] eqn:Ex; [|apply nth_error_None in Ex; lia].
        do 3 f_equal. apply Some_inj. rewrite <- Ex.
        rewrite <- (cols_of_transpose n cols' Hlen') at 2. rewrite HC'. now rewrite nth_error_cols_of.
      * destruct (nth_error (cols_of C h) c); apply nth_error_None; apply nth_error_None in Ep; lia.
    + simpl. split; auto. eexists. split; [exact Hok|].
      apply nth_error_ext. intros c. unfold push_hists. rewrite nth_error_map2.
      destruct (le_lt_dec C c) as [Hc|Hc].
      * rewrite (proj2 (nth_error_None (cols_of C h) c)) by (rewrite cols_of_length; lia).
        symmetry. apply nth_error_None. rewrite cols_of_length. lia.
      * rewrite !nth_error_cols_of by auto.
        destruct (nth_error cols' c) as [x|] eqn:Ex; [|apply nth_error_None in Ex; lia].
        f_equal. rewrite (col_fold_push taps c C); auto; [|apply Hi].
        f_equal. apply Some_inj. rewrite <- Ex.
        rewrite <- (cols_of_transpose n cols' Hlen') at 1. rewrite HC'. now rewrite nth_error_cols_of.
  - destruct Hsc as (<- & His). cbn [check_true_peak scanner_push]. unfold check_generic.
    rewrite (view_channels _ _ _ Hv), HC, map_length, Hpk, !Nat.eqb_refl. cbn [andb assert_].
    destruct (generic_loop_ok P S src n cols taps factor filt Hv is hs pks 0 cols) as (E & Hok); auto.
    rewrite E. cbn [obind]. split; [reflexivity|]. simpl. split.
    + rewrite map2_length. fold cols'. lia.
    + exact Hok.
Qed.

(** * Construction, reset, splitting *)

(** Oversampling parameters for a rate: (taps per phase, factor). *)
Definition tp_params (rate : N) : option (nat * nat) :=
  if (rate <? 96000)%N then Some (12, 4)
  else if (rate <? 192000)%N then Some (24, 2)
  else None.

Definition kind_ok (sc : scanner) (C : nat) : Prop :=
  match sc with
  | Specialised _ _ => specialised_channels C = true
  | Generic _ => specialised_channels C = false
  end.

(** invariant of the optional scanner of a filter *)
Definition tp_ok (E : ext) (rate : N) (C : nat) (calc : bool) (tp : option scanner)
    (hs : list (list f32)) : Prop :=
  match (if calc then tp_params rate else None), tp with
  | Some (taps, factor), Some sc =>
      scanner_ok sc taps factor C (interp_filter E taps factor) hs /\ kind_ok sc C
  | None, None => hs = []
  | _, _ => False
  end.

(** histories of a new scanner *)
Definition tp_hists0 (rate : N) (C : nat) (calc : bool) : list (list f32) :=
  match (if calc then tp_params rate else None) with
  | Some (taps, _) => repeat (repeat f32_zero taps) C
  | None => []
  end.

Lemma cols_of_zero_frames C taps :
  cols_of C (repeat (zero_frame C) taps) = repeat (repeat f32_zero taps) C.
Proof.
  unfold cols_of, zero_frame.
  transitivity (map (fun _ => repeat f32_zero taps) (seq 0 C));
    [|rewrite map_const_repeat; now rewrite seq_length].
  apply map_ext_in. intros c Hc. apply in_seq in Hc. induction taps; auto.
  cbn [repeat]. rewrite col_cons, IHtaps.
  assert (skipn c (repeat f32_zero C) = repeat f32_zero (C - c)) as ->.
  { replace C with (c + (C - c)) at 1 by lia. rewrite repeat_app, skipn_app, repeat_length.
    rewrite skipn_all2 by (rewrite repeat_length; lia). now rewrite Nat.sub_diag. }
  destruct (C - c) eqn:E; [lia|]. reflexivity.
Qed.

Lemma frames1_zero taps : frames1 (repeat f32_zero taps) = repeat (zero_frame 1) taps.
Proof. unfold frames1. induction taps; auto. cbn [repeat map]. rewrite IHtaps. reflexivity. Qed.

Lemma Forall2_repeat {A B} (R : A -> B -> Prop) a b n : R a b -> Forall2 R (repeat a n) (repeat b n).
Proof. induction n; simpl; auto. Qed.

Lemma scanner_go_ok E taps factor C :
  0 < taps -> taps * factor = 48 -> taps * 2 <= 48 ->
  exists sc,
    (if specialised_channels C then
      i <- interpf_new E taps factor C ;; Ret (Some (Specialised C i))
    else
      i <- interpf_new E taps factor 1 ;; Ret (Some (Generic (repeat i C)))) = Ret (Some sc) /\
    scanner_ok sc taps factor C (interp_filter E taps factor) (repeat (repeat f32_zero taps) C) /\
    kind_ok sc C.
Proof.
  intros H1 H2 H3. destruct (specialised_channels C) eqn:Es.
  - destruct (interpf_new_ok E taps factor C H1 H2 H3) as (i & -> & Hi). cbn [obind].
    eexists. split; [reflexivity|]. split; [|exact Es]. split; auto.
    eexists. split; [exact Hi|]. now rewrite cols_of_zero_frames.
  - destruct (interpf_new_ok E taps factor 1 H1 H2 H3) as (i & -> & Hi). cbn [obind].
    eexists. split; [reflexivity|]. split; [|exact Es]. split; [apply repeat_length|].
    apply Forall2_repeat. now rewrite frames1_zero.
Qed.

Lemma scanner_new_ok E rate C (calc : bool) :
  exists tp, (if calc then scanner_new E rate C else Ret None) = Ret tp /\
    tp_ok E rate C calc tp (tp_hists0 rate C calc).
Proof.
  destruct calc; [|exists (@None scanner); split; reflexivity].
  unfold scanner_new, tp_ok, tp_hists0, tp_params.
  destruct (rate <? 96000)%N; [|destruct (rate <? 192000)%N].
  - destruct (scanner_go_ok E 12 4 C) as (sc & -> & H); try lia. eauto.
  - destruct (scanner_go_ok E 24 2 C) as (sc & -> & H); try lia. eauto.
  - exists (@None scanner). auto.
Qed.

Lemma interpf_reset_new E i taps factor C h :
  interp_ok i taps factor C (interp_filter E taps factor) h -> taps * factor = 48 ->
  interpf_reset i = interpf_new E taps factor C.
Proof.
  intros (<- & <- & <- & Hf & _) H. unfold interpf_reset, interpf_new, assert_.
  rewrite H, Nat.eqb_refl, Hf. reflexivity.
Qed.

(** Resetting gives literally the scanner that construction gives. *)
Lemma scanner_reset_new E rate C tp hs :
  tp_ok E rate C true tp hs ->
  match tp with
  | Some sc => sc' <- scanner_reset sc ;; Ret (Some sc')
  | None => Ret None
  end = scanner_new E rate C.
Proof.
  unfold tp_ok, scanner_new, tp_params. intros H.
  assert (forall taps factor sc, taps * factor = 48 -> taps * 2 <= 48 -> 0 < taps ->
    scanner_ok sc taps factor C (interp_filter E taps factor) hs /\ kind_ok sc C ->
    (sc' <- scanner_reset sc ;; Ret (Some sc')) =
    if specialised_channels C then
      i <- interpf_new E taps factor C ;; Ret (Some (Specialised C i))
    else
      i <- interpf_new E taps factor 1 ;; Ret (Some (Generic (repeat i C)))) as Hgo.
  { clear H. intros taps factor sc H48 H2 H0 (Hok & Hk). destruct sc as [ch i|is]; simpl in Hok, Hk; rewrite Hk.
    - destruct Hok as (-> & h & Hi & _). cbn [scanner_reset].
      rewrite (interpf_reset_new E i taps factor C h) by auto.
      destruct (interpf_new_ok E taps factor C H0 H48 H2) as (i' & -> & _). reflexivity.
    - destruct Hok as (<- & His). cbn [scanner_reset].
      destruct (interpf_new_ok E taps factor 1 H0 H48 H2) as (i' & En & _). rewrite En. cbn [obind].
      rewrite (omap_Ret _ (fun _ => i')).
      + cbn [obind]. now rewrite map_const_repeat.
      + intros a Ha. destruct (In_nth_error _ _ Ha) as (k & Hk').
        assert (exists h, interp_ok a taps factor 1 (interp_filter E taps factor) (frames1 h)) as (h & Hh).
        { clear -His Hk'. revert k Hk'. induction His; intros k Hk; destruct k; try discriminate; simpl in Hk.
          - inversion Hk; subst. eauto.
          - eauto. }
        rewrite (interpf_reset_new E a taps factor 1 _ Hh) by auto. exact En. }
  destruct (rate <? 96000)%N; [|destruct (rate <? 192000)%N]; destruct tp as [sc|];
    try contradiction; try reflexivity.
  - apply (Hgo 12 4); auto; lia.
  - apply (Hgo 24 2); auto; lia.
Qed.

Lemma transpose_app {T} n m : forall (c1 c2 : list (list T)),
  length c1 = length c2 -> Forall (fun c => length c = n) c1 ->
  transpose (n + m) (map2 (@app T) c1 c2) = transpose n c1 ++ transpose m c2.
Proof.
  induction n as [|n IH]; intros c1 c2 Hl Hf; simpl.
  - f_equal. revert c2 Hl. induction Hf; destruct c2; simpl; intros; try discriminate; auto.
    destruct x; [|discriminate]. simpl. f_equal. auto.
  - f_equal.
    + f_equal. revert c2 Hl. clear IH. induction Hf; destruct c2; simpl; intros; try discriminate; auto.
      destruct x; [discriminate|]. simpl. f_equal. auto.
    + rewrite <- IH.
      * f_equal. revert c2 Hl. clear IH. induction Hf; destruct c2; simpl; intros; try discriminate; auto.
        destruct x; [discriminate|]. simpl. f_equal. auto.
      * now rewrite map_length.
      * apply Forall_map. eapply Forall_impl; [|exact Hf]. intros a Ha. destruct a; simpl in *; lia.
Qed.

(** Feeding two pieces is feeding their concatenation. *)
Lemma scanner_push_app sc n m c1 c2 :
  length c1 = length c2 -> Forall (fun c => length c = n) c1 ->
  scanner_push sc (n + m) (map2 (@app f32) c1 c2) = scanner_push (scanner_push sc n c1) m c2.
Proof.
  intros Hl Hf. destruct sc as [ch i|is]; simpl.
  - rewrite transpose_app by auto. now rewrite fold_left_app.
  - f_equal. revert c1 c2 Hl Hf. induction is as [|i is IH]; intros; auto.
    destruct c1, c2; try discriminate; auto. simpl. inversion Hf; subst. f_equal; auto.
    unfold frames1. rewrite map_app, fold_left_app. reflexivity.
Qed.

Lemma kind_push sc n cols C : kind_ok sc C -> kind_ok (scanner_push sc n cols) C.
Proof. destruct sc; auto. Qed.

Lemma scanner_seed_ok {T} P (S : sample T) sc taps factor C filt hs src n cols :
  scanner_ok sc taps factor C filt hs -> view src n cols -> length cols = C ->
  scanner_seed P S sc src = Ret (scanner_push sc n (map (map (s_f32 S P)) cols)) /\
  scanner_ok (scanner_push sc n (map (map (s_f32 S P)) cols)) taps factor C filt
    (push_hists taps hs (map (map (s_f32 S P)) cols)).
Proof.
  intros Hsc Hv HC. unfold scanner_seed. rewrite (view_channels _ _ _ Hv), HC.
  destruct (check_true_peak_ok P S sc taps factor C filt hs src n cols (repeat f32_zero C)) as (E & Hok);
    auto using repeat_length.
  { apply Forall_forall. intros x Hx. apply repeat_spec in Hx. subst. apply stable32_zero. }
  replace (repeat f64_zero C) with (map f64_of_f32 (repeat f32_zero C)).
  - rewrite E. cbn [obind]. auto.
  - clear. induction C; simpl; f_equal; auto.
Qed.
