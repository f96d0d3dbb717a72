(** Filter::process / seed / calc_gating_block as functions on channels. *)
From Coq Require Import List Arith NArith ZArith Bool Lia.
From Verif Require Import Prelude Float Env Utils Interp TruePeak Filter Ref
  Prelude_proofs Utils_proofs Interp_proofs Float_proofs TruePeak_proofs.
Import ListNotations.

Lemma map4_length {A B C D F} (f : A -> B -> C -> D -> F) l m n o :
  length m = length l -> length n = length l -> length o = length l ->
  length (map4 f l m n o) = length l.
Proof. revert m n o; induction l; destruct m, n, o; simpl; intros; try discriminate; auto. Qed.

Lemma nth_error_map4 {A B C D F} (f : A -> B -> C -> D -> F) l m n o i :
  nth_error (map4 f l m n o) i =
  match nth_error l i, nth_error m i, nth_error n i, nth_error o i with
  | Some a, Some b, Some c, Some d => Some (f a b c d) | _, _, _, _ => None end.
Proof.
  revert m n o i; induction l; destruct m, n, o, i; simpl; auto.
  all: repeat match goal with |- context [match nth_error ?l ?i with _ => _ end] =>
         destruct (nth_error l i); auto end.
Qed.

Lemma skipn_cons_next {A} (l : list A) c x cs : x :: cs = skipn c l ->
  nth_error l c = Some x /\ cs = skipn (c + 1) l.
Proof.
  intros H. split.
  - pose proof (nth_error_skipn l c 0) as E. rewrite <- H, Nat.add_0_r in E. auto.
  - rewrite <- skipn_skipn', <- H. reflexivity.
Qed.

Lemma sample_peak_loop_ok {T} P (S : sample T) src n cols :
  view src n cols ->
  forall pks c cs, cs = skipn c cols -> length cs = length pks ->
  sample_peak_loop P S src c pks = Ret (map2 (chan_peak P S) pks cs).
Proof.
  intros Hv. induction pks as [|pk pks IH]; intros c cs Hcs Hl.
  - destruct cs; [|discriminate]. reflexivity.
  - destruct cs as [|x cs]; [discriminate|]. destruct (skipn_cons_next _ _ _ _ Hcs) as (Hx & Hcs').
    cbn [sample_peak_loop]. rewrite (view_channels _ _ _ Hv).
    pose proof (nth_error_Some_lt _ _ _ Hx). unfold assert_. destruct (Nat.ltb_spec c (length cols)); [|lia].
    rewrite (view_foreach_sample _ _ _ _ _ Hv Hx). cbn [obind].
    rewrite (IH (c + 1) cs Hcs') by (simpl in Hl; lia). reflexivity.
Qed.

Lemma overwrite_app {A} : forall (l ys : list A), length ys <= length l ->
  overwrite l ys = ys ++ skipn (length ys) l.
Proof.
  induction l; destruct ys; simpl; intros; auto; try lia. f_equal. apply IHl. lia.
Qed.

Lemma filter_run_length {T} (A : arith T) b a : forall xs st, length (snd (filter_run A b a st xs)) = length xs.
Proof.
  induction xs; intros; auto. cbn [filter_run]. destruct (filter_step A b a st a0) as (st', y).
  specialize (IHxs st'). destruct (filter_run A b a st' xs). simpl in *. auto.
Qed.

Lemma filter_run_app {T} (A : arith T) b a : forall xs ys st,
  filter_run A b a st (xs ++ ys) =
  let '(st1, o1) := filter_run A b a st xs in
  let '(st2, o2) := filter_run A b a st1 ys in (st2, o1 ++ o2).
Proof.
  induction xs as [|x xs IH]; intros; cbn [app filter_run].
  - destruct (filter_run A b a st ys); reflexivity.
  - destruct (filter_step A b a st x) as (st', y). rewrite IH.
    destruct (filter_run A b a st' xs) as (s1, o1). destruct (filter_run A b a s1 ys) as (s2, o2). reflexivity.
Qed.

Lemma chan_ys_length {T} P (S : sample T) b a st xs : length (chan_ys P S b a st xs) = length xs.
Proof. unfold chan_ys. now rewrite filter_run_length, map_length. Qed.

Lemma combine_fst {A B} : forall (l : list A) (m : list B), length l <= length m -> map fst (combine l m) = l.
Proof. induction l; destruct m; simpl; intros; auto; try lia. f_equal. apply IHl. lia. Qed.

Lemma process_loop_ok {T} P (S : sample T) b a src n cols i L :
  view src n cols -> i + n <= L ->
  forall cmap planes todo done c cs,
  cs = skipn c cols -> length done = c -> length planes = length cmap -> length todo = length cmap ->
  length cs = length cmap -> Forall (fun p => length p = L) planes ->
  process_loop P S b a src i c cmap planes (done ++ todo) =
    Ret (map4 (chan_plane P S b a i) cmap todo planes cs,
         done ++ map3 (chan_state P S b a) cmap todo cs).
Proof.
  intros Hv Hi. induction cmap as [|ch cmap IH]; intros planes todo done c cs Hcs Hd Hp Ht Hc HL.
  - destruct planes, todo, cs; try discriminate. reflexivity.
  - destruct planes as [|plane planes]; [discriminate|]. destruct todo as [|st todo]; [discriminate|].
    destruct cs as [|x cs]; [discriminate|]. destruct (skipn_cons_next _ _ _ _ Hcs) as (Hx & Hcs').
    assert (length plane = L) as HpL by (inversion HL; auto).
    assert (Forall (fun p => length p = L) planes) as HL' by (inversion HL; auto).
    clear HL. subst c.
    cbn [process_loop map4 map3]. unfold chan_plane at 1, chan_state at 1.
    destruct (channel_eqb ch Unused).
    + replace (done ++ st :: todo) with ((done ++ [st]) ++ todo) by now rewrite <- app_assoc.
      rewrite (IH planes todo (done ++ [st]) (length done + 1) cs); auto.
      all: try (simpl in *; lia).
      2:{ rewrite app_length. reflexivity. }
      cbn [obind]. rewrite <- app_assoc. reflexivity.
    + rewrite (view_channels _ _ _ Hv). pose proof (nth_error_Some_lt _ _ _ Hx).
      unfold assert_. destruct (Nat.ltb_spec (length done) (length cols)); [|lia].
      rewrite (idx_Ret _ _ st) by (rewrite nth_error_app2, Nat.sub_diag by lia; reflexivity).
      cbn [obind]. rewrite slice_from_Ret by lia. cbn [obind].
      unfold s_foreach_sample_zipped. rewrite (view_foreach_sample _ _ _ _ _ Hv Hx). cbn [obind].
      assert (length x = n) as Hxn.
      { pose proof (view_lengths _ _ _ Hv) as Hall. rewrite Forall_forall in Hall. apply Hall.
        eapply nth_error_In; eauto. }
      assert (map (fun x0 => s_f64 S (fst x0)) (combine x (skipn i plane)) = map (s_f64 S) x) as ->.
      { rewrite <- (combine_fst x (skipn i plane)) at 2 by (rewrite skipn_length; lia). now rewrite map_map. }
      pose proof (chan_ys_length P S b a st x) as Hys.
      unfold chan_ys in *.
      destruct (filter_run (ar64_ftz P) b a st (map (s_f64 S) x)) as (st', ys). cbn [fst snd] in *.
      rewrite upd_app_mid.
      replace (done ++ flush_state P st' :: todo) with ((done ++ [flush_state P st']) ++ todo)
        by now rewrite <- app_assoc.
      rewrite (IH planes todo (done ++ [flush_state P st']) (length done + 1) cs); auto.
      all: try (simpl in *; lia).
      2:{ rewrite app_length. reflexivity. }
      cbn [obind]. rewrite <- app_assoc. cbn [app]. do 3 f_equal.
      rewrite overwrite_app by (rewrite skipn_length; lia).
      unfold splice. now rewrite skipn_skipn'.
Qed.

(** * The filter as a whole *)

(** Shape of a filter for [C] channels at [rate]; [hs] are the per-channel
    interpolator inputs and [pk32] the per-call true peaks as f32. *)
Record filter_ok (E : ext) (P : platform) (rate : N) (C : nat) (sp tp : bool) (f : filter)
    (hs : list (list f32)) (pk32 : list f32) : Prop := {
  fo_channels : f_channels f = C;
  fo_pos : 0 < C;
  fo_coeff : (f_b f, f_a f) = filter_coefficients E (f64_of_N rate);
  fo_state : length (f_state f) = C;
  fo_calc : f_calc_sample_peak f = sp;
  fo_sp : length (f_sample_peak f) = C;
  fo_tp : tp_ok E rate C tp (f_tp f) hs;
  fo_tpk : f_true_peak f = map f64_of_f32 pk32;
  fo_pk : length pk32 = C;
  fo_stable : Forall (stable32 P) pk32;
}.

(** The true-peak part of [filter_process] / [filter_seed]. *)
Definition tp_pushed (tp : option scanner) (n : nat) (cols : list (list f32)) : option scanner :=
  option_map (fun sc => scanner_push sc n cols) tp.
Definition tp_hists (rate : N) (calc : bool) (hs cols : list (list f32)) : list (list f32) :=
  match (if calc then tp_params rate else None) with
  | Some (taps, _) => push_hists taps hs cols
  | None => hs
  end.
Definition tp_pk32 (P : platform) (E : ext) (rate : N) (calc : bool) (hs : list (list f32))
    (pks : list f32) (cols : list (list f32)) : list f32 :=
  match (if calc then tp_params rate else None) with
  | Some (taps, factor) => tp_peaks P taps factor (interp_filter E taps factor) hs pks cols
  | None => pks
  end.

(** [filter_process] on columns *)
Definition filter_after {T} (P : platform) (E : ext) (rate : N) (tp : bool) (S : sample T) (f : filter)
    (hs : list (list f32)) (pk32 : list f32) (cmap : list channel) (n : nat) (cols : list (list T)) : filter :=
  let cols32 := map (map (s_f32 S P)) cols in
  {| f_channels := f_channels f; f_b := f_b f; f_a := f_a f;
     f_state := map3 (chan_state P S (f_b f) (f_a f)) cmap (f_state f) cols;
     f_calc_sample_peak := f_calc_sample_peak f;
     f_sample_peak := if f_calc_sample_peak f then map2 (chan_peak P S) (f_sample_peak f) cols
                      else f_sample_peak f;
     f_tp := tp_pushed (f_tp f) n cols32;
     f_true_peak := map f64_of_f32 (tp_pk32 P E rate tp hs pk32 cols32) |}.

Lemma tp_peaks_stable P taps factor filt : forall hs pks cols,
  Forall (stable32 P) pks -> Forall (stable32 P) (tp_peaks P taps factor filt hs pks cols).
Proof.
  unfold tp_peaks. induction hs; destruct pks, cols; simpl; intros H; auto.
  inversion H; subst. constructor; auto using tp_run_stable.
Qed.

Lemma filter_process_ok {T} E P rate C sp tp f hs pk32 (S : sample T) src n cols planes L i cmap :
  filter_ok E P rate C sp tp f hs pk32 ->
  view src n cols -> length cols = C -> length cmap = C -> length planes = C ->
  Forall (fun p => length p = L) planes -> 0 < L -> i + n <= L ->
  filter_process P S f src (concat planes) i cmap =
    Ret (filter_after P E rate tp S f hs pk32 cmap n cols,
         concat (map4 (chan_plane P S (f_b f) (f_a f) i) cmap (f_state f) planes cols)) /\
  filter_ok E P rate C sp tp (filter_after P E rate tp S f hs pk32 cmap n cols)
    (tp_hists rate tp hs (map (map (s_f32 S P)) cols))
    (tp_pk32 P E rate tp hs pk32 (map (map (s_f32 S P)) cols)).
Proof.
  intros [Hch Hpos Hco Hst Hcalc Hsp Htp Htpk Hpk Hstab] Hv HC Hcm Hpl HL HLp Hi.
  assert (length (concat planes) = C * L) as Hcl by (rewrite (concat_length_const L); auto; lia).
  set (cols32 := map (map (s_f32 S P)) cols).
  assert (Htpok :
    exists pk32',
      (match f_tp f with
       | Some sc =>
           assert! (length (f_true_peak f) =? f_channels f) ;;
           '(sc', pk) <- check_true_peak P S sc src (f_true_peak f) ;;
           Ret (Some sc', pk)
       | None => Ret (None, f_true_peak f)
       end) = Ret (tp_pushed (f_tp f) n cols32, map f64_of_f32 pk32') /\
     pk32' = tp_pk32 P E rate tp hs pk32 cols32 /\
     tp_ok E rate C tp (tp_pushed (f_tp f) n cols32) (tp_hists rate tp hs cols32) /\
     length pk32' = C /\ Forall (stable32 P) pk32').
  { exists (tp_pk32 P E rate tp hs pk32 cols32).
    unfold tp_ok, tp_hists, tp_pk32 in *. rewrite Htpk.
    destruct (if tp then tp_params rate else None) as [[taps factor]|] eqn:Ep;
      destruct (f_tp f) as [sc|]; try contradiction.
    - destruct Htp as (Hsc & Hk). rewrite map_length, Hpk, Hch. unfold assert_. rewrite Nat.eqb_refl.
      destruct (check_true_peak_ok P S sc taps factor C (interp_filter E taps factor) hs src n cols pk32)
        as (Ec & Hok); auto.
      rewrite Ec. cbn [obind]. split; [reflexivity|]. split; [reflexivity|].
      split; [split; [exact Hok | now apply kind_push]|]. split.
      + unfold tp_peaks. rewrite map3_length; [now apply scanner_ok_hists in Hsc| |];
          apply scanner_ok_hists in Hsc; unfold cols32; rewrite ?map_length; lia.
      + now apply tp_peaks_stable.
    - cbn [obind]. repeat split; auto. }
  destruct Htpok as (pk32' & Etp & Epk & Hok' & Hl' & Hs').
  split.
  - unfold filter_process. rewrite Hch.
    assert (length (concat planes) / C = L) as Hstride by (rewrite Hcl, Nat.mul_comm; apply Nat.div_mul; lia).
    rewrite Hstride.
    assert (length (concat planes) mod C = 0) as Hmod by (rewrite Hcl, Nat.mul_comm; apply Nat.mod_mul; lia).
    rewrite Hmod. cbn [Nat.eqb assert_]. rewrite Hcm, Nat.eqb_refl. cbn [assert_].
    rewrite (view_channels _ _ _ Hv), HC, Nat.eqb_refl. cbn [assert_].
    rewrite Hst, Nat.eqb_refl. cbn [assert_].
    assert ((if f_calc_sample_peak f then
           assert! (length (f_sample_peak f) =? C) ;;
           sample_peak_loop P S src 0 (f_sample_peak f)
         else Ret (f_sample_peak f)) = Ret (if f_calc_sample_peak f then map2 (chan_peak P S) (f_sample_peak f) cols
                      else f_sample_peak f)) as Esp.
    { destruct (f_calc_sample_peak f); auto. rewrite Hsp, Nat.eqb_refl. cbn [assert_].
      apply (sample_peak_loop_ok P S src n cols Hv); auto. lia. }
    rewrite Esp. cbn [obind]. rewrite (view_frames _ _ _ Hv).
    unfold assert_ at 1. destruct (Nat.leb_spec (i + n) L); [|lia].
    unfold chunks_exact. destruct (Nat.eqb_spec L 0); [lia|]. cbn [obind].
    rewrite (chunks_concat L planes) by auto.
    pose proof (process_loop_ok P S (f_b f) (f_a f) src n cols i L Hv Hi cmap planes (f_state f) [] 0 cols) as Epl.
    cbn [app] in Epl. rewrite Epl by (auto; lia). cbn [obind].
    rewrite Hch in Etp. rewrite Etp. cbn [obind]. subst pk32'. unfold filter_after. rewrite Hch. reflexivity.
  - subst pk32'. constructor; cbn [filter_after f_channels f_b f_a f_state f_calc_sample_peak f_sample_peak f_tp f_true_peak]; auto.
    + rewrite map3_length; lia.
    + destruct (f_calc_sample_peak f); auto. rewrite map2_length. lia.
Qed.

Lemma add_squares_app acc l m : add_squares acc (l ++ m) = add_squares (add_squares acc l) m.
Proof. unfold add_squares. apply fold_left_app. Qed.

Lemma plane_sum_ok w i L plane : length plane = L -> i <= L -> w <= L ->
  plane_sum w i plane = Ret (add_squares f64_zero (ring_window w i plane)).
Proof.
  intros HL Hi Hw. unfold plane_sum, ring_window. destruct (Nat.ltb_spec i w).
  - rewrite slice_Ret by lia. cbn [obind]. rewrite sub_usize_Ret by lia. cbn [obind].
    rewrite slice_from_Ret by lia. cbn [obind]. rewrite add_squares_app, Nat.sub_0_r. reflexivity.
  - rewrite sub_usize_Ret by lia. cbn [obind]. rewrite slice_Ret by lia. cbn [obind].
    replace (i - (i - w)) with w by lia. reflexivity.
Qed.

Lemma gating_loop_ok w i L : i <= L -> w <= L -> forall cmap planes sum,
  Forall (fun p => length p = L) planes ->
  gating_loop w i cmap planes sum = Ret (weighted_sum cmap (map (ring_window w i) planes) sum).
Proof.
  intros Hi Hw. induction cmap as [|ch cmap IH]; intros planes sum H; destruct planes as [|p planes]; try reflexivity.
  inversion H; subst. cbn [gating_loop map]. unfold weighted_sum. cbn [combine fold_left].
  destruct (channel_eqb ch Unused).
  - rewrite IH by auto. reflexivity.
  - unfold assert_. destruct (Nat.leb_spec i (length p)); [|lia].
    rewrite (plane_sum_ok w i (length p)) by auto. cbn [obind]. rewrite IH by auto. reflexivity.
Qed.

Lemma calc_gating_block_ok w i L cmap planes :
  length planes = length cmap -> 0 < length cmap -> Forall (fun p => length p = L) planes -> 0 < L ->
  i <= L -> w <= L ->
  calc_gating_block w (concat planes) i cmap =
    Ret (block_energy w cmap (map (ring_window w i) planes)).
Proof.
  intros Hp Hc HL HLp Hi Hw. unfold calc_gating_block.
  assert (length (concat planes) = length cmap * L) as Hcl by (rewrite (concat_length_const L); auto; lia).
  assert (length (concat planes) / length cmap = L) as ->
    by (rewrite Hcl, Nat.mul_comm; apply Nat.div_mul; lia).
  assert (length (concat planes) mod length cmap = 0) as ->
    by (rewrite Hcl, Nat.mul_comm; apply Nat.mod_mul; lia).
  destruct (Nat.eqb_spec (length cmap) 0); [lia|]. cbn [negb assert_ Nat.eqb].
  destruct (Nat.leb_spec i L); [|lia]. cbn [assert_].
  unfold chunks_exact. destruct (Nat.eqb_spec L 0); [lia|]. cbn [obind].
  rewrite (chunks_concat L planes) by auto.
  rewrite (gating_loop_ok w i L) by auto. cbn [obind]. reflexivity.
Qed.

Lemma seed_loop_ok {T} P (S : sample T) b a src n cols :
  view src n cols ->
  forall cmap todo done c cs,
  cs = skipn c cols -> length done = c -> length todo = length cmap -> length cs = length cmap ->
  seed_loop P S b a src c cmap (done ++ todo) =
    Ret (done ++ map3 (chan_state P S b a) cmap todo cs).
Proof.
  intros Hv. induction cmap as [|ch cmap IH]; intros todo done c cs Hcs Hd Ht Hc.
  - destruct todo, cs; try discriminate. reflexivity.
  - destruct todo as [|st todo]; [discriminate|].
    destruct cs as [|x cs]; [discriminate|]. destruct (skipn_cons_next _ _ _ _ Hcs) as (Hx & Hcs').
    subst c. cbn [seed_loop map3]. unfold chan_state at 1.
    destruct (channel_eqb ch Unused).
    + replace (done ++ st :: todo) with ((done ++ [st]) ++ todo) by now rewrite <- app_assoc.
      rewrite (IH todo (done ++ [st]) (length done + 1) cs); auto.
      all: try (simpl in *; lia).
      2:{ rewrite app_length. reflexivity. }
      rewrite <- app_assoc. reflexivity.
    + rewrite (view_channels _ _ _ Hv). pose proof (nth_error_Some_lt _ _ _ Hx).
      unfold assert_. destruct (Nat.ltb_spec (length done) (length cols)); [|lia].
      rewrite (idx_Ret _ _ st) by (rewrite nth_error_app2, Nat.sub_diag by lia; reflexivity).
      cbn [obind]. rewrite (view_foreach_sample _ _ _ _ _ Hv Hx). cbn [obind].
      destruct (filter_run (ar64_ftz P) b a st (map (s_f64 S) x)) as (st', ys). cbn [fst].
      rewrite upd_app_mid.
      replace (done ++ flush_state P st' :: todo) with ((done ++ [flush_state P st']) ++ todo)
        by now rewrite <- app_assoc.
      rewrite (IH todo (done ++ [flush_state P st']) (length done + 1) cs); auto.
      all: try (simpl in *; lia).
      2:{ rewrite app_length. reflexivity. }
      rewrite <- app_assoc. reflexivity.
Qed.

(** [filter_seed] on columns *)
Definition filter_seeded {T} (P : platform) (S : sample T) (f : filter) (cmap : list channel)
    (n : nat) (cols : list (list T)) : filter :=
  {| f_channels := f_channels f; f_b := f_b f; f_a := f_a f;
     f_state := map3 (chan_state P S (f_b f) (f_a f)) cmap (f_state f) cols;
     f_calc_sample_peak := f_calc_sample_peak f;
     f_sample_peak := f_sample_peak f;
     f_tp := tp_pushed (f_tp f) n (map (map (s_f32 S P)) cols);
     f_true_peak := f_true_peak f |}.

Lemma filter_seed_ok {T} E P rate C sp tp f hs pk32 (S : sample T) src n cols cmap :
  filter_ok E P rate C sp tp f hs pk32 ->
  view src n cols -> length cols = C -> length cmap = C ->
  filter_seed P S f src cmap = Ret (filter_seeded P S f cmap n cols) /\
  filter_ok E P rate C sp tp (filter_seeded P S f cmap n cols)
    (tp_hists rate tp hs (map (map (s_f32 S P)) cols)) pk32.
Proof.
  intros [Hch Hpos Hco Hst Hcalc Hsp Htp Htpk Hpk Hstab] Hv HC Hcm.
  set (cols32 := map (map (s_f32 S P)) cols).
  assert (Htpok :
      (match f_tp f with
          | Some sc =>
              assert! (length (f_true_peak f) =? C) ;;
              sc' <- scanner_seed P S sc src ;; Ret (Some sc')
          | None => Ret None
          end) = Ret (tp_pushed (f_tp f) n cols32) /\
     tp_ok E rate C tp (tp_pushed (f_tp f) n cols32) (tp_hists rate tp hs cols32)).
  { unfold tp_ok, tp_hists in *. rewrite Htpk.
    destruct (if tp then tp_params rate else None) as [[taps factor]|] eqn:Ep;
      destruct (f_tp f) as [sc|]; try contradiction.
    - destruct Htp as (Hsc & Hk). rewrite map_length, Hpk. unfold assert_. rewrite Nat.eqb_refl.
      destruct (scanner_seed_ok P S sc taps factor C (interp_filter E taps factor) hs src n cols)
        as (Ec & Hok); auto.
      rewrite Ec. cbn [obind]. split; [reflexivity|].
      split; [exact Hok | now apply kind_push].
    - auto. }
  destruct Htpok as (Etp & Hok').
  split.
  - unfold filter_seed. rewrite Hch, Hcm, Nat.eqb_refl. cbn [assert_].
    rewrite (view_channels _ _ _ Hv), HC, Nat.eqb_refl. cbn [assert_].
    rewrite Hst, Nat.eqb_refl. cbn [assert_].
    pose proof (seed_loop_ok P S (f_b f) (f_a f) src n cols Hv cmap (f_state f) [] 0 cols) as Es.
    cbn [app] in Es. rewrite Es by (auto; lia). cbn [obind]. rewrite Etp. cbn [obind].
    unfold filter_seeded. rewrite Hch. reflexivity.
  - constructor; cbn [filter_seeded f_channels f_b f_a f_state f_calc_sample_peak f_sample_peak f_tp f_true_peak]; auto.
    rewrite map3_length; lia.
Qed.

(** Construction and reset *)
Lemma map_zero32 C : map f64_of_f32 (repeat f32_zero C) = repeat f64_zero C.
Proof. induction C; simpl; f_equal; auto. Qed.

Lemma filter_new_ok E P rate C sp tp :
  (0 < rate)%N -> 0 < C ->
  exists f, filter_new E rate C sp tp = Ret f /\
    filter_ok E P rate C sp tp f (tp_hists0 rate C tp) (repeat f32_zero C) /\
    f_state f = repeat zero5 C /\ f_sample_peak f = repeat f64_zero C.
Proof.
  intros Hr HC. unfold filter_new.
  destruct (N.ltb_spec 0 rate); [|lia]. destruct (Nat.ltb_spec 0 C); [|lia]. cbn [assert_].
  destruct (filter_coefficients E (f64_of_N rate)) as (b, a) eqn:Eb.
  destruct (scanner_new_ok E rate C tp) as (t & -> & Ht). cbn [obind].
  eexists. split; [reflexivity|]. split; [|split; reflexivity].
  constructor; cbn [f_channels f_b f_a f_state f_calc_sample_peak f_sample_peak f_tp f_true_peak];
    auto using repeat_length.
  - now rewrite map_zero32.
  - apply Forall_forall. intros x Hx. apply repeat_spec in Hx. subst. apply stable32_zero.
Qed.

Lemma filter_reset_peaks_ok E P rate C sp tp f hs pk32 :
  filter_ok E P rate C sp tp f hs pk32 ->
  filter_ok E P rate C sp tp (filter_reset_peaks f) hs (repeat f32_zero C).
Proof.
  intros [Hch Hpos Hco Hst Hcalc Hsp Htp Htpk Hpk Hstab].
  constructor; cbn [filter_reset_peaks f_channels f_b f_a f_state f_calc_sample_peak f_sample_peak f_tp f_true_peak];
    auto using repeat_length.
  - now rewrite map_length.
  - rewrite map_const_repeat, map_zero32, Htpk, map_length, Hpk. reflexivity.
  - apply Forall_forall. intros x Hx. apply repeat_spec in Hx. subst. apply stable32_zero.
Qed.

(** reset gives literally the newly constructed filter *)
Lemma filter_reset_new E P rate C sp tp f hs pk32 :
  filter_ok E P rate C sp tp f hs pk32 -> (0 < rate)%N ->
  filter_reset f = filter_new E rate C sp tp.
Proof.
  intros [Hch Hpos Hco Hst Hcalc Hsp Htp Htpk Hpk Hstab] Hr.
  unfold filter_reset, filter_new.
  destruct (N.ltb_spec 0 rate); [|lia]. destruct (Nat.ltb_spec 0 C); [|lia]. cbn [assert_].
  destruct (filter_coefficients E (f64_of_N rate)) as (b, a) eqn:Eb.
  inversion Hco; subst b a.
  cbn [filter_reset_peaks f_channels f_b f_a f_state f_calc_sample_peak f_sample_peak f_tp f_true_peak].
  rewrite !map_const_repeat, Hst, Hsp, Htpk, map_length, Hpk, Hcalc, Hch.
  destruct tp.
  - rewrite (scanner_reset_new E rate C (f_tp f) hs Htp).
    destruct (scanner_new E rate C); reflexivity.
  - unfold tp_ok in Htp. destruct (f_tp f); [contradiction|]. reflexivity.
Qed.
