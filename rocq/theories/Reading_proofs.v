(** The mean square of an analyzer that hears a sinusoid. *)
From Coq Require Import List Arith NArith ZArith Bool Lia Reals Lra.
From Flocq Require Import Core IEEE754.BinarySingleNaN.
From Verif Require Import Prelude Float Env Utils Filter Ebur128 Spec Spec_real Spec_filter Spec_coeff Spec_response
  Filter_proofs Kweight_proofs Ebur128_proofs Stream_proofs Parallel_proofs Heard_proofs Response_proofs.
Import ListNotations.
Local Open Scope R_scope.

Lemma recent_last w ys : (w <= length ys)%nat -> recent w ys = skipn (length ys - w) ys.
Proof. intros H. unfold recent. rewrite skipn_app, repeat_length, skipn_all2 by (rewrite repeat_length; lia). reflexivity. Qed.
Lemma silent_recent w ys : Forall (fun y => real y = 0) ys -> total (map (fun y => real y * real y) (recent w ys)) = 0.
Proof.
  intros H. assert (Forall (fun y => real y = 0) (recent w ys)) as HR.
  { unfold recent. set (n := length ys). assert (Forall (fun y => real y = 0) (firstn n (repeat f64_zero w ++ ys) ++ skipn n (repeat f64_zero w ++ ys))) as HF.
    { rewrite firstn_skipn. apply Forall_app. split; auto. apply Forall_forall. intros x Hx. apply repeat_spec in Hx. subst. reflexivity. }
    apply Forall_app in HF. apply HF. }
  induction HR as [|y l Hy _ IH]; [reflexivity|]. cbn [map]. change (total (?a :: ?l)) with (a + total l). rewrite IH, Hy. ring.
Qed.
Lemma total_zero l : (forall x, In x l -> x = 0) -> total l = 0.
Proof. induction l as [|x l IH]; intros H; [reflexivity|]. change (total (x :: l)) with (x + total l). rewrite (H x) by (now left). rewrite IH by (intros; apply H; now right). ring. Qed.
Lemma total_app_list l m : total (l ++ m) = total l + total m.
Proof. induction l as [|x l IH]; cbn [app]; [change (total []) with 0; ring|]. change (total (x :: l ++ m)) with (x + total (l ++ m)). change (total (x :: l)) with (x + total l). rewrite IH. ring. Qed.
Lemma one_channel w roles ss c : length roles = length ss -> (c < length ss)%nat -> (forall j, j <> c -> Forall (fun y => real y = 0) (nth j ss [])) -> (w <= length (nth c ss []))%nat ->
  mean_square w roles ss = weight (nth c roles Unused) * mean_power w (map real (nth c ss [])).
Proof.
  intros HL Hc HO Hw. unfold mean_square, mean_power, Rdiv. rewrite <- Rmult_assoc. f_equal.
  set (g := fun '(ch, ys) => weight ch * total (map (fun y : f64 => real y * real y) (recent w ys))).
  rewrite map_length.
  assert (total (map g (combine roles ss)) = g (nth c roles Unused, nth c ss [])) as ->.
  { clear Hw. revert roles ss HL Hc HO. induction c as [|c IH]; intros [|ch roles] [|ys ss] HL Hc HO; cbn [length] in *; try lia; cbn [combine map]; change (total (?a :: ?l)) with (a + total l).
    - rewrite total_zero; [cbn [nth]; ring|]. intros x Hx. apply in_map_iff in Hx. destruct Hx as ((ch', ys') & <- & Hi). apply in_combine_r in Hi. apply In_nth with (d := []) in Hi. destruct Hi as (j & _ & <-).
      unfold g. rewrite silent_recent; [ring|]. apply (HO (S j)). discriminate.
    - rewrite IH; try lia; [|intros j Hj; apply (HO (S j)); lia]. cbn [nth]. unfold g at 1. rewrite silent_recent; [ring|]. apply (HO 0%nat). discriminate. }
  unfold g. rewrite recent_last by auto. f_equal. rewrite skipn_map, map_map. reflexivity.
Qed.
Lemma heard_sinusoid rate f : (6728 <= rate)%N -> 0 < f -> 2 * f < IZR (Z.of_N rate) -> exists G q, 0 <= G /\ 0 < q < 1 /\
  forall P E c e t xs ws W p r d w, is_64bit P -> tan_accurate E -> powf_accurate E -> heard P E c e t xs ws -> e_rate e = rate -> 0 <= W ->
  Forall (fun y => is_finite y = true) (nth c (signals t) []) -> Forall (fun x => Rabs (real x) <= W) xs -> Forall (fun w => Rabs (real w) <= W) ws ->
  (forall j, j <> c -> Forall (fun y => real y = 0) (nth j (signals t) [])) ->
  (forall n, (n < length xs)%nat -> Rabs (real (nth n xs f64_zero) - sinusoid (IZR (Z.of_N rate)) f p r n) <= d) -> (0 < w <= length xs)%nat ->
  let z := power_gain (IZR (Z.of_N rate)) f * (p ^ 2 + r ^ 2) in let dev := G * ((Rabs p + Rabs r) * q ^ (length xs - w) + d + noise P W) in
  exists m, mean_square w (e_cmap e) (signals t) = weight (nth c (e_cmap e) Unused) * m /\
    Rabs (m - z / 2) <= dev * (2 * sqrt z + dev) + z / (2 * INR w * sin (2 * PI * f / IZR (Z.of_N rate))).
Proof.
  intros Hr H0 H1. set (R0 := IZR (Z.of_N rate)) in *. assert (6728 <= R0) as HR by (unfold R0; apply IZR_le; lia).
  pose proof (response R0 f ltac:(lra) ltac:(lra) H1) as XR. pose proof (Kweight_proofs.stable_from_3364 R0 ltac:(lra)) as XS. destruct (heard_error rate Hr) as (G3 & XE). fold R0 in XE.
  destruct (coefficientsR (coeff_inputsR R0)) as (b, a) eqn:ER. destruct XR as (G1 & q & HG1 & Hq & XR). destruct XS as (G2 & XS).
  destruct (half_angle f R0 ltac:(lra) ltac:(lra) H1) as (A0 & A1). assert (0 < PI * f / R0) as A2. { apply Rmult_lt_0_compat; [pose proof PI_RGT_0; nra|apply Rinv_0_lt_compat; lra]. }
  assert (2 * PI * f / R0 = 2 * (PI * f / R0)) as Ex by (unfold Rdiv; ring).
  set (G := Rmax G1 (Rmax G2 G3)). assert (G1 <= G) as L1 by apply Rmax_l. assert (G2 <= G) as L2 by (eapply Rle_trans; [apply Rmax_l|apply Rmax_r]). assert (G3 <= G) as L3 by (eapply Rle_trans; [apply Rmax_r|apply Rmax_r]).
  exists G, q. split; [lra|]. split; auto. intros P E c e t xs ws W p r d w HP HT HW' H He HW F HX HK HO HD Hw z dev.
  specialize (XE P E c e t xs ws W HP HT HW' H He HW F HX HK).
  destruct (heard_ok P E c HP e t xs ws H) as (mem & ys & Hm & HL & _).
  assert (nth c (signals t) [] = ys) as EY. { unfold signals. apply (map_nth_error snd) in Hm. exact (nth_of_error _ _ _ [] Hm). }
  destruct (taped_sizes P E e t HP (heard_taped P E c e t xs ws HP H)) as (T1 & T2 & _).
  assert (c < length (signals t))%nat as Hc. { unfold signals. rewrite map_length. apply (nth_error_Some t c). intros Q. rewrite Q in Hm. discriminate Hm. }
  exists (mean_power w (map real ys)). split.
  { assert (length (e_cmap e) = length (signals t)) as T3 by (unfold signals; rewrite map_length; exact (eq_trans T2 (eq_sym T1))). assert (w <= length (nth c (signals t) []))%nat as T4 by (rewrite EY; lia).
    rewrite (one_channel w (e_cmap e) (signals t) c T3 Hc HO T4). now rewrite EY. }
  assert (0 <= d) as Hd. { specialize (HD 0%nat ltac:(lia)). eapply Rle_trans; [apply Rabs_pos|exact HD]. }
  destruct (XR p r) as (p' & r' & EZ & XW). set (s := sinusoid R0 f p r) in *. set (N := length xs) in *.
  (* the samples are the sinusoid and an error *)
  set (ds := map (fun n => real (nth n xs f64_zero) - s n) (seq 0 N)).
  assert (length ds = N) as LD by (unfold ds; rewrite map_length, seq_length; auto).
  assert (map real xs = map2 Rplus (first N s) ds) as EX.
  { apply nth_ext with (d := 0) (d' := 0).
    - rewrite map_length. assert (forall (l m : list R), length l = length m -> length (map2 Rplus l m) = length l) as M2 by (induction l as [|h l IH]; intros [|k m] Q; cbn in *; try lia; rewrite IH; lia). rewrite M2; rewrite first_length; auto.
    - intros n Hn. rewrite map_length in Hn. fold N in Hn. rewrite nth_map2 by (rewrite first_length; auto). rewrite first_nth by auto.
      rewrite (nth_indep (map real xs) 0 (real f64_zero)) by (rewrite map_length; auto). rewrite (map_nth real). unfold ds. set (h := fun n => real (nth n xs f64_zero) - s n).
      rewrite (nth_indep (map h (seq 0 N)) 0 (h 0%nat)) by (rewrite map_length, seq_length; auto). rewrite (map_nth h), seq_nth by auto. unfold h. cbn [Nat.add]. ring. }
  assert (forall n, (n < N)%nat -> Rabs (nth n (outputsR b a ds) 0) <= G2 * d) as BD.
  { intros n Hn. apply (XS ds d); auto; [|apply nth_In; rewrite outputs_length; lia]. intros x Hx. unfold ds in Hx. apply in_map_iff in Hx. destruct Hx as (k & <- & Hk). apply in_seq in Hk. apply HD. lia. }
  assert (0 <= noise P W) as HN by (now apply noise_nonneg).
  assert (0 < q ^ (N - w)) as Q0 by (apply pow_lt; lra). set (A := Rabs p + Rabs r) in *. assert (0 <= A) as HA by (unfold A; pose proof (Rabs_pos p); pose proof (Rabs_pos r); lra).
  assert (0 <= A * q ^ (N - w)) as HAq by (apply Rmult_le_pos; lra). assert (0 <= dev) as Hdev by (unfold dev; apply Rmult_le_pos; lra).
  rewrite mean_power_seq by (rewrite map_length; lia). rewrite map_length, HL. fold N. rewrite Ex. set (x := PI * f / R0) in *.
  pose proof (near_power x p' r' (N - w) w (fun n => nth n (map real ys) 0) dev ltac:(apply sin_gt_0; lra) ltac:(lia) Hdev) as Z. cbv beta in Z. lapply Z.
  - clear Z. intros Z. cbv zeta in Z. assert (p' * p' + r' * r' = z) as E' by (unfold z; rewrite <- EZ; ring). rewrite E' in Z. exact Z.
  - intros n Hn. assert (n < N)%nat as Hn' by lia. specialize (XE n Hn'). rewrite EY in XE. specialize (XW N n Hn'). rewrite wave_sinusoid in XW. fold x in XW. specialize (BD n Hn').
    rewrite (nth_indep (map real ys) 0 (real f64_zero)) by (rewrite map_length; lia). rewrite (map_nth real).
    rewrite EX, outputs_sum in XE by (rewrite first_length; auto). rewrite nth_map2 in XE by (rewrite !outputs_length, ?first_length; lia).
    set (y := real (nth n ys f64_zero)) in *. set (o1 := nth n (outputsR b a (first N s)) 0) in *. set (o2 := nth n (outputsR b a ds) 0) in *. set (v := wave x p' r' n) in *. clearbody y o1 o2 v.
    assert (q ^ n <= q ^ (N - w)) as Qn. { destruct (Nat.le_exists_sub (N - w) n ltac:(lia)) as (j & -> & _). rewrite pow_add. assert (q ^ j <= 1) as Qj. { rewrite <- (pow1 j). apply pow_incr. lra. } rewrite <- (Rmult_1_l (q ^ (N - w))) at 2. apply Rmult_le_compat_r; lra. }
    assert (G1 * A * q ^ n <= G * (A * q ^ (N - w))) as B1. { rewrite Rmult_assoc. apply Rmult_le_compat; auto; [apply Rmult_le_pos; auto; left; apply pow_lt; lra|]. apply Rmult_le_compat_l; auto. }
    assert (G2 * d <= G * d) as B2 by (apply Rmult_le_compat_r; auto). assert (G3 * noise P W <= G * noise P W) as B3 by (apply Rmult_le_compat_r; auto).
    replace (y - v) with ((y - (o1 + o2)) + o2 + (o1 - v)) by ring. unfold dev.
    eapply Rle_trans; [apply Rabs_triang|]. eapply Rle_trans; [apply Rplus_le_compat_r, Rabs_triang|]. lra.
Qed.
