(** The C interpolator and true peak. *)
From Coq Require Import List Arith NArith ZArith Bool Lia Reals Lra Psatz.
From Flocq Require Import Core IEEE754.BinarySingleNaN.
From Verif Require Import Prelude Float Env Utils Interp Cref Cref_filter Cref_interp Spec Spec_real Spec_interp Spec_cref_interp
  Prelude_proofs Oversample_proofs Cref_taps_proofs.
Import ListNotations.
Local Open Scope nat_scope.

(** * The delay line *)
Definition slot (delay zi k : nat) : nat := if k <=? zi then zi - k else zi + delay - k.
Definition line_ok (delay zi : nat) (z : list f32) (xs : list f32) : Prop :=
  length z = delay /\ zi < delay /\ forall k, 1 <= k < delay -> nth_error z (slot delay zi k) = Some (sample_before xs (length xs) k).
Lemma convolve_ok P delay zi z (x : nat -> f32) : zi < delay -> (forall k, k < delay -> nth_error z (slot delay zi k) = Some (x k)) ->
  forall filter, Forall (fun '(k, _) => k < delay) filter ->
  convolve_c P delay zi filter z = Ret (ftz32 P (f32_of_f64 (fold_left (fun acc '(k, c) => mac P acc (x k) c) filter f64_zero))).
Proof.
  intros Hzi Hx filter HF. unfold convolve_c.
  assert (forall acc, ofold (fun acc '(index, c) =>
           let i := (Z.of_nat zi - Z.of_nat index)%Z in
           let i := if (i <? 0)%Z then (i + Z.of_nat delay)%Z else i in
           x <- (if (i <? 0)%Z then UB else cidx z (Z.to_nat i)) ;;
           Ret (ftz64 P (f64_add acc (ftz64 P (f64_mul (f64_of_f32 x) c))))) acc filter = Ret (fold_left (fun acc '(k, c) => mac P acc (x k) c) filter acc)) as H.
  { induction HF as [|(k, c) filter Hk HF IH]; intros acc; [reflexivity|]. cbn [ofold fold_left]. cbv zeta.
    assert ((if (if (Z.of_nat zi - Z.of_nat k <? 0)%Z then (Z.of_nat zi - Z.of_nat k + Z.of_nat delay)%Z else (Z.of_nat zi - Z.of_nat k)%Z) <? 0 then UB
             else cidx z (Z.to_nat (if (Z.of_nat zi - Z.of_nat k <? 0)%Z then (Z.of_nat zi - Z.of_nat k + Z.of_nat delay)%Z else (Z.of_nat zi - Z.of_nat k)%Z)))%Z = Ret (x k)) as ->.
    { specialize (Hx k Hk). unfold slot in Hx. unfold cidx. destruct (Z.ltb_spec (Z.of_nat zi - Z.of_nat k) 0).
      - destruct (Z.ltb_spec (Z.of_nat zi - Z.of_nat k + Z.of_nat delay) 0); [lia|]. destruct (Nat.leb_spec k zi); [lia|].
        replace (Z.to_nat (Z.of_nat zi - Z.of_nat k + Z.of_nat delay)) with (zi + delay - k) by lia. now rewrite Hx.
      - destruct (Z.ltb_spec (Z.of_nat zi - Z.of_nat k) 0); [lia|]. destruct (Nat.leb_spec k zi); [|lia].
        replace (Z.to_nat (Z.of_nat zi - Z.of_nat k)) with (zi - k) by lia. now rewrite Hx. }
    cbn [obind]. apply IH. }
  rewrite H. reflexivity.
Qed.
Lemma sample_before_new xs x k : sample_before (xs ++ [x]) (length xs) k = if k =? 0 then x else sample_before xs (length xs) k.
Proof.
  unfold sample_before. destruct (Nat.eqb_spec k 0) as [->|N].
  - cbn [Nat.leb]. rewrite Nat.sub_0_r, app_nth2, Nat.sub_diag by lia. reflexivity.
  - destruct (Nat.leb_spec k (length xs)); auto. now rewrite app_nth1 by lia.
Qed.
Lemma sample_before_prefix xs ys n k : n < length xs -> sample_before (xs ++ ys) n k = sample_before xs n k.
Proof. intros H. unfold sample_before. destruct (k <=? n); auto. now rewrite app_nth1 by lia. Qed.
Lemma nth_error_upd_all {A} (l : list A) i x k : i < length l -> nth_error (upd l i x) k = if k =? i then Some x else nth_error l k.
Proof.
  revert i k. induction l as [|a l IH]; intros i k Hi; [cbn in Hi; lia|]. destruct i as [|i], k as [|k]; cbn; auto. apply IH. cbn in Hi. lia.
Qed.
Lemma line_write delay zi z xs x : line_ok delay zi z xs -> cset z zi x = Ret (upd z zi x) /\
  (forall k, k < delay -> nth_error (upd z zi x) (slot delay zi k) = Some (sample_before (xs ++ [x]) (length xs) k)) /\
  line_ok delay (if zi + 1 =? delay then 0 else zi + 1) (upd z zi x) (xs ++ [x]).
Proof.
  intros (HL & Hz & H). unfold cset. rewrite HL. destruct (Nat.ltb_spec zi delay); [|lia]. split; auto.
  assert (forall k, k < delay -> nth_error (upd z zi x) (slot delay zi k) = Some (sample_before (xs ++ [x]) (length xs) k)) as W.
  { intros k Hk. rewrite sample_before_new, nth_error_upd_all by lia. destruct (Nat.eqb_spec k 0) as [->|N].
    - unfold slot. cbn [Nat.leb]. now rewrite Nat.sub_0_r, Nat.eqb_refl.
    - rewrite <- H by lia. destruct (Nat.eqb_spec (slot delay zi k) zi) as [E|]; auto. exfalso. unfold slot in E. destruct (Nat.leb_spec k zi); lia. }
  split; auto. split; [now rewrite upd_length|]. split; [destruct (Nat.eqb_spec (zi + 1) delay); lia|].
  intros k Hk. specialize (W (k - 1) ltac:(lia)).
  replace (slot delay (if zi + 1 =? delay then 0 else zi + 1) k) with (slot delay zi (k - 1)).
  - rewrite W. f_equal. rewrite app_length. cbn [length]. unfold sample_before. destruct (Nat.leb_spec (k - 1) (length xs)), (Nat.leb_spec k (length xs + 1)); try lia; auto.
    now replace (length xs + 1 - k) with (length xs - (k - 1)) by lia.
  - unfold slot. destruct (Nat.eqb_spec (zi + 1) delay); destruct (Nat.leb_spec (k - 1) zi); [destruct (Nat.leb_spec k 0)|destruct (Nat.leb_spec k 0)|destruct (Nat.leb_spec k (zi + 1))|destruct (Nat.leb_spec k (zi + 1))]; lia.
Qed.

(** * Frames *)
Section interp.
Context (L : libc) (taps factor C : nat) (HT : taps = 12 /\ factor = 4 \/ taps = 24 /\ factor = 2).
Definition delay_c : nat := (49 + factor - 1) / factor.
Record interp_c_ok (ci : cinterp) (frames : list (list f32)) : Prop := {
  io_factor : ci_factor ci = factor;
  io_channels : ci_channels ci = C;
  io_delay : ci_delay ci = delay_c;
  io_filter : ci_filter ci = map (subfilter L factor) (seq 0 factor);
  io_length : length (ci_z ci) = C;
  io_lines : forall c z, nth_error (ci_z ci) c = Some z -> line_ok delay_c (ci_zi ci) z (channel_of c frames);
}.
(** the output for frame [n] *)
Definition rows_c (P : platform) (frames : list (list f32)) (n : nat) : list (list f32) :=
  map (fun f => map (fun c => phase_c P L factor f (sample_before (channel_of c frames) n)) (seq 0 C)) (seq 0 factor).
Lemma create_ok : interp_c_ok (interp_create_c L 49 factor C) [].
Proof.
  constructor; try reflexivity; [apply created_filter; lia|apply repeat_length|].
  intros c z Hz. cbn [interp_create_c ci_z] in Hz. apply nth_error_In, repeat_spec in Hz. subst z. fold delay_c. cbn [interp_create_c ci_zi].
  split; [apply repeat_length|]. assert (0 < delay_c) as D by (unfold delay_c; destruct HT as [(_ & ->)|(_ & ->)]; cbn; lia). split; auto.
  intros k Hk. unfold sample_before. cbn [channel_of map length]. destruct (Nat.leb_spec k 0); [lia|]. apply nth_error_repeat. unfold slot. cbn [Nat.add]. destruct (Nat.leb_spec k 0); lia.
Qed.
Lemma map_range (g : nat -> f64) (p : nat -> bool) l : Forall (fun j => j < 49) l ->
  Forall (fun '(k, _) => k < delay_c) (map (fun j => (j / factor, g j)) (List.filter p l)).
Proof.
  induction 1 as [|j l Hj HF IH]; [constructor|]. cbn [List.filter]. destruct (p j); auto. cbn [map]. constructor; auto.
  clear - HT Hj. assert (factor = 4 \/ factor = 2) as Hf by lia. unfold delay_c.
  assert ((49 + factor - 1) / factor = if factor =? 4 then 13 else 25) as -> by (destruct Hf as [->| ->]; reflexivity).
  apply Nat.div_lt_upper_bound; [lia|]. destruct Hf as [->| ->]; cbn [Nat.eqb]; lia.
Qed.
Lemma seq_range (p : nat -> bool) : Forall (fun j => j < 49) (List.filter p (seq 0 49)).
Proof. apply Forall_forall. intros j Hj. apply filter_In in Hj. destruct Hj as (Hj & _). apply in_seq in Hj. lia. Qed.
Lemma subfilter_range f : Forall (fun '(k, _) => k < delay_c) (subfilter L factor f).
Proof. exact (map_range (tap_c L 49 factor) (keep L factor) (in_phase factor f) (seq_range (fun j => j mod factor =? f))). Qed.
Lemma channel_of_app c frames fr : channel_of c (frames ++ [fr]) = channel_of c frames ++ [nth c fr f32_zero].
Proof. unfold channel_of. now rewrite map_app. Qed.
Lemma channel_of_length c frames : length (channel_of c frames) = length frames. Proof. apply map_length. Qed.
Lemma omap_nth {A B} (f : A -> outcome B) (g : nat -> B) : forall l s, (forall i a, nth_error l i = Some a -> f a = Ret (g (s + i))) -> omap f l = Ret (map g (seq s (length l))).
Proof.
  induction l as [|a l IH]; intros s H; [reflexivity|]. cbn [omap length seq map]. rewrite (H 0 a eq_refl), Nat.add_0_r. cbn [obind].
  rewrite (IH (S s)); [reflexivity|]. intros i b Hb. rewrite (H (S i) b Hb). now replace (s + S i) with (S s + i) by lia.
Qed.
Lemma frame_ok P ci frames fr : interp_c_ok ci frames -> length fr = C ->
  exists ci', interp_frame_c P ci fr = Ret (ci', rows_c P (frames ++ [fr]) (length frames)) /\ interp_c_ok ci' (frames ++ [fr]).
Proof.
  intros [I1 I2 I3 I4 I5 I6] Hfr. unfold interp_frame_c.
  set (zs := map2 (fun z x => upd z (ci_zi ci) x) (ci_z ci) fr).
  assert (length zs = C) as Hzs by (unfold zs; rewrite map2_length; lia).
  assert (omap (fun '(z, x) => cset z (ci_zi ci) x) (combine (ci_z ci) fr) = Ret zs) as ->.
  { unfold zs. clear - I5 I6 Hfr. assert (Forall (fun z => ci_zi ci < length z) (ci_z ci)) as HZ.
    { apply Forall_forall. intros z Hz. apply In_nth_error in Hz. destruct Hz as (c & Hc). destruct (I6 c z Hc) as (E1 & E2 & _). lia. }
    assert (length (ci_z ci) = length fr) as Hl by lia. clear - HZ Hl. revert fr Hl. induction HZ as [|z l Hz HZ IH]; intros fr Hl; [destruct fr; [reflexivity|discriminate]|].
    destruct fr as [|x fr]; [discriminate|]. cbn [combine omap map2]. unfold cset at 1. destruct (Nat.ltb_spec (ci_zi ci) (length z)); [|lia]. cbn [obind]. rewrite IH by (cbn in Hl; lia). reflexivity. }
  cbn [obind].
  assert (forall c z, nth_error zs c = Some z -> (forall k, k < delay_c -> nth_error z (slot delay_c (ci_zi ci) k) = Some (sample_before (channel_of c (frames ++ [fr])) (length frames) k)) /\
    line_ok delay_c (if ci_zi ci + 1 =? delay_c then 0 else ci_zi ci + 1) z (channel_of c (frames ++ [fr])) /\ ci_zi ci < delay_c) as HZ.
  { intros c z Hz. unfold zs in Hz. rewrite nth_error_map2 in Hz. destruct (nth_error (ci_z ci) c) as [z0|] eqn:E0; [|discriminate]. destruct (nth_error fr c) as [x|] eqn:Ex; [|discriminate]. injection Hz as <-.
    destruct (line_write delay_c (ci_zi ci) z0 (channel_of c frames) x (I6 c z0 E0)) as (_ & W1 & W2). rewrite channel_of_app, (nth_error_nth _ _ _ Ex). rewrite channel_of_length in W1. split; auto. split; auto. apply (I6 c z0 E0). }
  rewrite I3, I4.
  assert (omap (fun filter => omap (convolve_c P delay_c (ci_zi ci) filter) zs) (map (subfilter L factor) (seq 0 factor)) = Ret (rows_c P (frames ++ [fr]) (length frames))) as ->.
  { unfold rows_c. rewrite (omap_nth _ (fun f => map (fun c => phase_c P L factor f (sample_before (channel_of c (frames ++ [fr])) (length frames))) (seq 0 C)) _ 0); [now rewrite map_length, seq_length|].
    intros f flt Hf. rewrite nth_error_map in Hf. destruct (nth_error (seq 0 factor) f) as [f'|] eqn:Es; [|discriminate]. cbn [option_map] in Hf. injection Hf as <-.
    assert (f < factor) as Lf by (rewrite <- (seq_length factor 0); apply nth_error_Some; congruence). rewrite nth_error_nth' with (d := 0) in Es by (now rewrite seq_length). injection Es as <-. rewrite seq_nth by auto. cbn [Nat.add].
    rewrite <- Hzs. apply omap_nth. intros c z Hz. destruct (HZ c z Hz) as (W & _ & Hzi). apply (convolve_ok P delay_c (ci_zi ci) z _ Hzi W). apply subfilter_range. }
  cbn [obind]. eexists. split; [reflexivity|]. constructor; cbn [ci_factor ci_channels ci_delay ci_filter ci_z ci_zi]; auto. intros c z Hz. apply (HZ c z Hz).
Qed.
Lemma rows_prefix P frames more n : n < length frames -> rows_c P (frames ++ more) n = rows_c P frames n.
Proof.
  intros H. unfold rows_c. apply map_ext. intros f. apply map_ext. intros c. unfold phase_c. f_equal. f_equal. unfold channel_of. rewrite map_app.
  generalize f64_zero as acc. induction (subfilter L factor f) as [|(k, t) l IH]; intros acc; [reflexivity|]. cbn [fold_left]. rewrite sample_before_prefix by (now rewrite map_length). apply IH.
Qed.
Lemma process_ok P : forall new ci past out, interp_c_ok ci past -> Forall (fun fr => length fr = C) new ->
  exists ci', ofold (fun '(ci, out) frame => '(ci, o) <- interp_frame_c P ci frame ;; Ret (ci, out ++ o)) (ci, out) new =
    Ret (ci', out ++ concat (map (rows_c P (past ++ new)) (seq (length past) (length new)))) /\ interp_c_ok ci' (past ++ new).
Proof.
  induction new as [|fr new IH]; intros ci past out HI HN.
  { exists ci. cbn [ofold length seq map concat]. rewrite !app_nil_r. auto. }
  apply Forall_cons_iff in HN. destruct HN as (Hfr & HN). destruct (frame_ok P ci past fr HI Hfr) as (ci1 & E1 & H1). cbn [ofold]. rewrite E1. cbn [obind].
  destruct (IH ci1 (past ++ [fr]) (out ++ rows_c P (past ++ [fr]) (length past)) H1 HN) as (ci' & E2 & H2). exists ci'. rewrite E2.
  rewrite <- app_assoc in *. cbn [app] in *. split; auto. f_equal. f_equal. rewrite <- app_assoc. f_equal. cbn [length seq map concat]. rewrite app_length. cbn [length].
  rewrite <- (rows_prefix P (past ++ [fr]) new (length past)) by (rewrite app_length; cbn; lia). rewrite <- app_assoc. cbn [app]. now rewrite Nat.add_1_r.
Qed.
End interp.
