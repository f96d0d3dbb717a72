(** Proofs: the gating block and the filter of the C reference code. *)
From Coq Require Import List Arith NArith ZArith Bool Lia.
From Verif Require Import Prelude Float Env Utils Interp TruePeak Filter Capi Ref Cref Cref_filter Spec_cref Spec_cref_filter
  Prelude_proofs Utils_proofs TruePeak_proofs Filter_proofs.
Import ListNotations.

Lemma cidx_Ret {A} (l : list A) i a : nth_error l i = Some a -> cidx l i = Ret a.
Proof. unfold cidx. now intros ->. Qed.
Lemma cset_Ret {A} (l : list A) i a : i < length l -> cset l i a = Ret (upd l i a).
Proof. unfold cset. intros H. destruct (Nat.ltb_spec i (length l)); [auto|lia]. Qed.

(** column [c] of interleaved data *)
Definition column {T} (channels : nat) (data : list T) (c : nat) (plane : list T) : Prop :=
  forall i, i < length plane -> nth_error data (i * channels + c) = nth_error plane i.
Lemma same_column {T} C n (data : list T) planes c plane : same_audio C n data planes -> nth_error planes c = Some plane -> column C data c plane /\ length plane = n.
Proof.
  intros (H1 & H2 & H3 & H4) Hc. pose proof (nth_error_Some_lt _ _ _ Hc) as Hl. rewrite Forall_forall in H3. pose proof (H3 _ (nth_error_In _ _ Hc)) as Hn. split; auto.
  intros i Hi. destruct (H4 c i) as (p & x & A1 & A2 & A3); [lia|lia|]. rewrite Hc in A1. injection A1 as <-. congruence.
Qed.

(** * The gating block *)
Lemma skipn_step {A} : forall (l : list A) i x, nth_error l i = Some x -> skipn i l = x :: skipn (S i) l.
Proof. induction l as [|a l IH]; intros [|i] x H; try discriminate; [now injection H as ->|]. cbn [nth_error] in H. cbn [skipn]. rewrite (IH i x H). reflexivity. Qed.
Lemma sum_squares_ok C data c plane : column C data c plane -> forall n lo acc, lo + n <= length plane ->
  ofold (fun s i => x <- cidx data (i * C + c) ;; y <- cidx data (i * C + c) ;; Ret (f64_add s (f64_mul x y))) acc (seq lo n) = Ret (add_squares acc (firstn n (skipn lo plane))).
Proof.
  intros Hc. induction n as [|n IH]; intros lo acc Hl; cbn [seq ofold]; [reflexivity|].
  destruct (nth_error plane lo) as [x|] eqn:Hx; [|apply nth_error_None in Hx; lia].
  rewrite (cidx_Ret _ _ x) by (rewrite Hc by lia; auto). cbn [obind]. rewrite IH by lia.
  rewrite (skipn_step _ _ _ Hx). reflexivity.
Qed.
Lemma weigh_ok ch k s : code_of ch k -> (k =? 0)%N = channel_eqb ch Unused /\ weigh_c k s = apply_weight ch s.
Proof.
  unfold code_of. intros H. assert (k < 32)%N as Hk by (pose proof (nth_error_Some_lt _ _ _ H) as Hl; cbn in Hl; lia).
  destruct (N.to_nat k) as [|n] eqn:Ek.
  - assert (k = 0)%N as -> by lia. cbn in H. injection H as <-. split; reflexivity.
  - assert (k = N.of_nat (S n)) as -> by lia. do 32 (try (destruct n as [|n]; [cbn in H; injection H as <-; split; reflexivity|])). lia.
Qed.
Lemma gating_same w data planes L cmap codes i : 0 < length cmap -> same_audio (length cmap) L data planes -> Forall2 code_of cmap codes -> 0 < L -> w <= L -> i <= L ->
  exists v, calc_gating_block w (concat planes) i cmap = Ret v /\ calc_gating_block_c w data L (i * length cmap) codes (length cmap) = Ret v.
Proof.
  intros Hc HA HF HL Hw Hi. destruct HA as (A1 & A2 & A3 & A4) eqn:EA. pose proof HA as HA'.
  exists (block_energy w cmap (map (ring_window w i) planes)). split; [now apply (calc_gating_block_ok w i L)|].
  unfold calc_gating_block_c, block_energy.
  assert (forall m p done cs, length done + length m = length cmap -> length m = length p -> Forall2 code_of m cs -> length done = length (firstn (length done) codes) ->
    skipn (length done) codes = cs -> skipn (length done) planes = p -> forall s,
    ofold (fun sum c =>
           code <- cidx codes c ;;
           if (code =? 0)%N then Ret sum
           else
             channel_sum <-
               (if i * length cmap <? w * length cmap then
                  s <- sum_squares_c data (length cmap) c 0 (i * length cmap / length cmap) f64_zero ;;
                  rest <- c_sub w (i * length cmap / length cmap) ;;
                  start <- c_sub L rest ;;
                  sum_squares_c data (length cmap) c start L s
                else
                  start <- c_sub (i * length cmap / length cmap) w ;;
                  sum_squares_c data (length cmap) c start (i * length cmap / length cmap) f64_zero) ;;
             Ret (f64_add sum (weigh_c code channel_sum)))
         s (seq (@length channel done) (length m)) = Ret (weighted_sum m (map (ring_window w i) p) s)) as H.
  { clear HF. rewrite Nat.div_mul by lia. induction m as [|ch m IH]; intros p done cs Hl Hp HF Hd Hcs Hps s.
    - destruct p; [|discriminate]. reflexivity.
    - destruct p as [|plane p]; [discriminate|]. inversion HF as [|? k ? cs' Hk HF' E1 E2]. subst cs. symmetry in E2.
      destruct (skipn_cons_next codes (length done) k cs' ltac:(congruence)) as (Hk1 & Hk2).
      destruct (skipn_cons_next planes (length done) plane p ltac:(congruence)) as (Hp1 & Hp2).
      cbn [length seq ofold]. rewrite (cidx_Ret _ _ _ Hk1). cbn [obind].
      destruct (same_column _ _ _ _ _ _ HA' Hp1) as (Hcol & Hlen).
      assert (forall s', ofold (fun sum c =>
           code <- cidx codes c ;;
           if (code =? 0)%N then Ret sum
           else
             channel_sum <-
               (if i * length cmap <? w * length cmap then
                  s <- sum_squares_c data (length cmap) c 0 i f64_zero ;;
                  rest <- c_sub w i ;;
                  start <- c_sub L rest ;;
                  sum_squares_c data (length cmap) c start L s
                else
                  start <- c_sub i w ;;
                  sum_squares_c data (length cmap) c start i f64_zero) ;;
             Ret (f64_add sum (weigh_c code channel_sum))) s' (seq (S (length done)) (length m)) = Ret (weighted_sum m (map (ring_window w i) p) s')) as IH'.
      { intros s'. specialize (IH p (done ++ [ch]) cs'). rewrite app_length in IH. cbn [length] in IH. replace (length done + 1) with (S (length done)) in IH by lia.
        apply IH; try (cbn [length] in *; lia); auto.
        - rewrite firstn_length. apply nth_error_Some_lt in Hk1. lia.
        - rewrite <- Nat.add_1_r. auto.
        - rewrite <- Nat.add_1_r. auto. }
      unfold weighted_sum. cbn [map combine fold_left]. destruct (weigh_ok ch k f64_zero Hk) as (-> & _).
      destruct (channel_eqb ch Unused); cbn [obind]; [apply IH'|].
      assert ((if i * length cmap <? w * length cmap then
                  s <- sum_squares_c data (length cmap) (length done) 0 i f64_zero ;;
                  rest <- c_sub w i ;;
                  start <- c_sub L rest ;;
                  sum_squares_c data (length cmap) (length done) start L s
                else
                  start <- c_sub i w ;;
                  sum_squares_c data (length cmap) (length done) start i f64_zero) = Ret (add_squares f64_zero (ring_window w i plane))) as ->.
      { unfold ring_window, sum_squares_c, c_sub. destruct (Nat.ltb_spec i w) as [Hiw|Hiw].
        - destruct (Nat.ltb_spec (i * length cmap) (w * length cmap)); [|nia].
          rewrite (sum_squares_ok _ _ _ plane Hcol) by lia. cbn [obind]. destruct (Nat.leb_spec i w); [|lia]. cbn [obind]. destruct (Nat.leb_spec (w - i) L); [|lia]. cbn [obind].
          rewrite (sum_squares_ok _ _ _ plane Hcol) by lia. cbn [skipn]. rewrite Nat.sub_0_r, add_squares_app. do 2 f_equal.
          rewrite firstn_all2 by (rewrite skipn_length; lia). f_equal. lia.
        - destruct (Nat.ltb_spec (i * length cmap) (w * length cmap)); [nia|].
          destruct (Nat.leb_spec w i); [|lia]. cbn [obind]. rewrite (sum_squares_ok _ _ _ plane Hcol) by lia. do 3 f_equal. lia. }
      cbn [obind]. rewrite (proj2 (weigh_ok ch k _ Hk)). apply IH'. }
  specialize (H cmap planes [] codes). cbn [length] in H. rewrite H; auto.
Qed.

(** * The sample peaks *)
Lemma c_max_abs cur m : f64_gt f64_zero m = false ->
  (if f64_gt (c_max cur (f64_neg cur)) m then c_max cur (f64_neg cur) else m) = (if f64_gt (f64_abs cur) m then f64_abs cur else m) /\
  f64_gt f64_zero (if f64_gt (f64_abs cur) m then f64_abs cur else m) = false.
Proof.
  intros H. split.
  - destruct cur as [[]|[]| |[] mx e B]; try reflexivity; destruct m as [s'|s'| |s' m' e' B']; try destruct s'; try reflexivity; try discriminate H.
  - destruct (f64_gt (f64_abs cur) m); auto. destruct cur; reflexivity.
Qed.

Lemma raw_max_ok {T} (S : sample T) (t : ctype T) C src c xs : column C src c xs -> Forall (fun x => s_raw S x = t_double t x) xs -> forall n k m, k + n <= length xs -> f64_gt f64_zero m = false ->
  ofold (fun max i => x <- cidx src (i * C + c) ;;
           Ret (if f64_gt (c_max (t_double t x) (f64_neg (t_double t x))) max then c_max (t_double t x) (f64_neg (t_double t x)) else max)) m (seq k n) =
  Ret (fold_left (fun max x => let v := f64_abs (s_raw S x) in if f64_gt v max then v else max) (firstn n (skipn k xs)) m).
Proof.
  intros Hc HS. induction n as [|n IH]; intros k m Hl Hm; cbn [seq ofold]; [reflexivity|].
  destruct (nth_error xs k) as [x|] eqn:Hx; [|apply nth_error_None in Hx; lia].
  rewrite (cidx_Ret _ _ x) by (rewrite Hc by lia; auto). cbn [obind].
  rewrite Forall_forall in HS. pose proof (HS x (nth_error_In _ _ Hx)) as Hr. rewrite (skipn_step _ _ _ Hx). cbn [firstn fold_left]. cbv zeta. rewrite Hr.
  destruct (c_max_abs (t_double t x) m Hm) as (-> & Hm'). apply IH; [lia|exact Hm'].
Qed.
Lemma peaks_ok {T} P (S : sample T) (t : ctype T) C n src cols : same_audio C n src cols -> s_max S = t_scale t -> Forall (Forall (fun x => s_raw S x = t_double t x)) cols ->
  forall pks, length pks = C -> peaks_c P t C n src pks = Ret (map2 (chan_peak P S) pks cols).
Proof.
  intros HA HM HR. unfold peaks_c.
  assert (forall todo done cs, cs = skipn (length done) cols -> length cs = length todo ->
    ofold (fun pks c => max <- ofold (fun max i => x <- cidx src (i * C + c) ;; let cur := t_double t x in
                     Ret (if f64_gt (c_max cur (f64_neg cur)) max then c_max cur (f64_neg cur) else max)) f64_zero (seq 0 n) ;;
           let max := ftz64 P (f64_div max (t_scale t)) in pk <- cidx pks c ;; if f64_gt max pk then cset pks c max else Ret pks)
      (done ++ todo) (seq (length done) (length todo)) = Ret (done ++ map2 (chan_peak P S) todo cs)) as H.
  { induction todo as [|pk todo IH]; intros done cs Hcs Hl.
    - destruct cs; [|discriminate]. reflexivity.
    - destruct cs as [|xs cs]; [discriminate|]. destruct (skipn_cons_next _ _ _ _ Hcs) as (Hx & Hcs'). cbn [length seq ofold].
      destruct (same_column _ _ _ _ _ _ HA Hx) as (Hcol & Hn). rewrite Forall_forall in HR.
      rewrite (raw_max_ok S t C src _ xs Hcol (HR _ (nth_error_In _ _ Hx)) n 0 f64_zero) by (auto; lia). cbn [obind skipn]. rewrite firstn_all2 by lia.
      rewrite (cidx_Ret _ _ pk) by (rewrite nth_error_app2, Nat.sub_diag by lia; reflexivity). cbn [obind].
      fold (raw_max S xs). rewrite <- HM.
      assert ((if f64_gt (ftz64 P (f64_div (raw_max S xs) (s_max S))) pk then cset (done ++ pk :: todo) (length done) (ftz64 P (f64_div (raw_max S xs) (s_max S))) else Ret (done ++ pk :: todo)) =
        Ret ((done ++ [chan_peak P S pk xs]) ++ todo)) as ->.
      { unfold chan_peak, max64. rewrite <- app_assoc. cbn [app]. destruct (f64_gt _ pk); [|reflexivity]. rewrite cset_Ret by (rewrite app_length; cbn; lia). now rewrite upd_app_mid. }
      cbn [obind]. specialize (IH (done ++ [chan_peak P S pk xs]) cs). rewrite app_length in IH. cbn [length] in IH. replace (length done + 1) with (Datatypes.S (length done)) in IH by lia.
      rewrite HM in *. rewrite IH; [|rewrite Hcs'; f_equal; lia|cbn [length] in Hl; lia]. rewrite <- app_assoc. reflexivity. }
  intros pks Hp. specialize (H pks [] cols eq_refl). cbn [length app] in H. pose proof (proj1 (proj2 HA)). rewrite Hp in H. apply H. lia.
Qed.

(** * The filter *)
Lemma position_inj C i c i' c' : c < C -> c' < C -> i * C + c = i' * C + c' -> i = i' /\ c = c'.
Proof. intros H1 H2 H. rewrite (Nat.mul_comm i), (Nat.mul_comm i') in H. apply Nat.div_mod_unique in H; auto. Qed.
Lemma frames_ok {T} P (S : sample T) (t : ctype T) f src off c : forall xs k st data,
  Forall (fun x => s_f64 S x = ftz64 P (f64_div (t_double t x) (t_scale t))) xs -> 0 < cf_channels f ->
  (forall j, j < length xs -> nth_error src ((k + j) * cf_channels f + c) = nth_error xs j) ->
  (forall j, j < length xs -> off + (k + j) * cf_channels f + c < length data) ->
  exists data', ofold (frame_c P t f src off c) (st, data) (seq k (length xs)) = Ret (fst (filter_run (ar64_ftz P) (cf_b f) (cf_a f) st (map (s_f64 S) xs)), data') /\
    length data' = length data /\
    (forall p, (forall j, j < length xs -> p <> off + (k + j) * cf_channels f + c) -> nth_error data' p = nth_error data p) /\
    (forall j, j < length xs -> nth_error data' (off + (k + j) * cf_channels f + c) = nth_error (snd (filter_run (ar64_ftz P) (cf_b f) (cf_a f) st (map (s_f64 S) xs))) j).
Proof.
  induction xs as [|x xs IH]; intros k st data HS HC Hs Hd.
  - exists data. cbn [length seq ofold]. split; [reflexivity|]. split; auto. split; auto. cbn [length]. intros j Hj. lia.
  - cbn [length seq ofold map filter_run]. unfold frame_c at 1.
    rewrite (cidx_Ret _ _ x) by (specialize (Hs 0); cbn [length nth_error] in Hs; rewrite Nat.add_0_r in Hs; apply Hs; lia). cbn [obind].
    pose proof (Hd 0 ltac:(cbn; lia)) as Hd0. rewrite Nat.add_0_r in Hd0. rewrite cset_Ret by exact Hd0. cbn [obind].
    rewrite <- (Forall_inv HS). destruct (filter_step (ar64_ftz P) (cf_b f) (cf_a f) st (s_f64 S x)) as (st1, y) eqn:Ey.
    unfold filter_step in Ey. cbn [ar64_ftz ar_add ar_sub ar_mul] in Ey. apply pair_equal_spec in Ey. destruct Ey as (E1 & E2). rewrite E1, E2.
    destruct (IH (Datatypes.S k) st1 (upd data (off + k * cf_channels f + c) y) (Forall_inv_tail HS) HC) as (data' & R1 & R2 & R3 & R4).
    + intros j Hj. specialize (Hs (Datatypes.S j)). cbn [length nth_error] in Hs. replace (Datatypes.S k + j) with (k + Datatypes.S j) by lia. apply Hs. lia.
    + intros j Hj. rewrite upd_length. specialize (Hd (Datatypes.S j)). cbn [length] in Hd. replace (Datatypes.S k + j) with (k + Datatypes.S j) by lia. apply Hd. lia.
    + destruct (filter_run (ar64_ftz P) (cf_b f) (cf_a f) st1 (map (s_f64 S) xs)) as (st2, ys). cbn [fst snd] in *.
      exists data'. split; [exact R1|]. split; [now rewrite R2, upd_length|]. split.
      * intros p Hp. rewrite R3. 2:{ intros j Hj. replace (Datatypes.S k + j) with (k + Datatypes.S j) by lia. apply Hp. lia. }
        apply nth_error_upd_neq. specialize (Hp 0). rewrite Nat.add_0_r in Hp. intros X. apply Hp; [lia|auto].
      * intros [|j] Hj; cbn [nth_error].
        -- rewrite Nat.add_0_r. rewrite R3; [now apply nth_error_upd_eq|]. intros j Hj' X. nia.
        -- replace (k + Datatypes.S j) with (Datatypes.S k + j) by lia. apply R4. lia.
Qed.
Definition channel_c {T} (P : platform) (t : ctype T) (f : cfilter) (frames : nat) (src : list T) (offset : nat) (channel_map : list N)
  : list (arr5 f64) * list f64 -> nat -> outcome (list (arr5 f64) * list f64) := fun '(vs, audio_data) c =>
      code <- cidx channel_map c ;;
      if (code =? 0)%N then Ret (vs, audio_data)
      else
        v <- cidx vs c ;;
        '(v, audio_data) <- ofold (frame_c P t f src offset c) (v, audio_data) (seq 0 frames) ;;
        vs <- cset vs c (flush_manually P v) ;;
        Ret (vs, audio_data).
Lemma channels_ok {T} P (S : sample T) (t : ctype T) f src n cols codes off : p_ftz P = true -> 0 < cf_channels f -> same_audio (cf_channels f) n src cols ->
  Forall (Forall (fun x => s_f64 S x = ftz64 P (f64_div (t_double t x) (t_scale t)))) cols ->
  forall m ks cs todo done data, Forall2 code_of m ks -> ks = skipn (length done) codes -> cs = skipn (length done) cols -> length m = length cs -> length m = length todo ->
  length done + length m = cf_channels f -> off + n * cf_channels f <= length data ->
  exists data', ofold (channel_c P t f n src off codes) (done ++ todo, data) (seq (length done) (length m)) =
      Ret (done ++ map3 (chan_state P S (cf_b f) (cf_a f)) m todo cs, data') /\ length data' = length data /\
    (forall p, (forall i j, i < n -> j < length m -> p <> off + i * cf_channels f + (length done + j)) -> nth_error data' p = nth_error data p) /\
    (forall i j ch st xs, i < n -> nth_error m j = Some ch -> nth_error todo j = Some st -> nth_error cs j = Some xs ->
       nth_error data' (off + i * cf_channels f + (length done + j)) =
       if channel_eqb ch Unused then nth_error data (off + i * cf_channels f + (length done + j)) else nth_error (chan_ys P S (cf_b f) (cf_a f) st xs) i).
Proof.
  intros HP HC HA HR. induction m as [|ch m IH]; intros ks cs todo done data HF Hk Hcs Hlc Hlt Hl Hd.
  - exists data. destruct cs; [|discriminate]. destruct todo; [|discriminate]. cbn [length seq ofold map3]. split; [reflexivity|]. split; auto. split; auto. intros i [|j]; discriminate.
  - destruct cs as [|xs cs]; [discriminate|]. destruct todo as [|st todo]; [discriminate|]. inversion HF as [|? k ? ks' Hcode HF' E1 E2].
    destruct (skipn_cons_next codes (length done) k ks' ltac:(congruence)) as (Hk1 & Hk2). destruct (skipn_cons_next _ _ _ _ Hcs) as (Hx & Hcs').
    destruct (same_column _ _ _ _ _ _ HA Hx) as (Hcol & Hn). cbn [length] in Hl, Hlc, Hlt.
    assert (exists data1, channel_c P t f n src off codes (done ++ st :: todo, data) (length done) = Ret ((done ++ [chan_state P S (cf_b f) (cf_a f) ch st xs]) ++ todo, data1) /\ length data1 = length data /\
      (forall p, (forall i, i < n -> p <> off + i * cf_channels f + length done) -> nth_error data1 p = nth_error data p) /\
      (forall i, i < n -> nth_error data1 (off + i * cf_channels f + length done) =
         if channel_eqb ch Unused then nth_error data (off + i * cf_channels f + length done) else nth_error (chan_ys P S (cf_b f) (cf_a f) st xs) i)) as (data1 & D1 & D2 & D3 & D4).
    { unfold channel_c. rewrite (cidx_Ret _ _ _ Hk1). cbn [obind]. rewrite (proj1 (weigh_ok ch k f64_zero Hcode)). unfold chan_state. rewrite <- app_assoc. cbn [app].
      destruct (channel_eqb ch Unused); [exists data; auto|].
      rewrite (cidx_Ret _ _ st) by (rewrite nth_error_app2, Nat.sub_diag by lia; reflexivity). cbn [obind].
      rewrite Forall_forall in HR.
      destruct (frames_ok P S t f src off (length done) xs 0 st data (HR _ (nth_error_In _ _ Hx)) HC) as (data1 & R1 & R2 & R3 & R4).
      - intros j Hj. apply Hcol. exact Hj.
      - intros j Hj. rewrite Hn in Hj. cbn [plus]. nia.
      - rewrite Hn in *. rewrite R1. cbn [obind]. rewrite cset_Ret by (rewrite app_length; cbn; lia). cbn [obind]. rewrite upd_app_mid.
        exists data1. unfold flush_manually, flush_state. rewrite HP. split; [reflexivity|]. split; auto. }
    destruct (IH ks' cs todo (done ++ [chan_state P S (cf_b f) (cf_a f) ch st xs]) data1 HF') as (data' & R1 & R2 & R3 & R4).
    + rewrite app_length. exact Hk2.
    + rewrite app_length. exact Hcs'.
    + lia.
    + lia.
    + rewrite app_length. cbn [length]. lia.
    + rewrite D2. exact Hd.
    + rewrite app_length in R1, R3, R4. cbn [length] in R1, R3, R4. replace (length done + 1) with (Datatypes.S (length done)) in R1 by lia.
      exists data'. cbn [length seq ofold]. rewrite D1. cbn [obind]. split; [rewrite R1, <- app_assoc; reflexivity|]. split; [congruence|]. split.
      * intros p Hp. rewrite R3. 2:{ intros i j Hi Hj. specialize (Hp i (Datatypes.S j) Hi ltac:(cbn; lia)). replace (length done + 1 + j) with (length done + Datatypes.S j) by lia. exact Hp. }
        apply D3. intros i Hi. specialize (Hp i 0 Hi ltac:(cbn; lia)). rewrite Nat.add_0_r in Hp. exact Hp.
      * intros i [|j] ch' st' xs' Hi H1 H2 H3; cbn [nth_error] in H1, H2, H3.
        -- injection H1 as <-. injection H2 as <-. injection H3 as <-. rewrite Nat.add_0_r. rewrite R3; [now apply D4|]. intros i' j' Hi' Hj' X.
           destruct (position_inj (cf_channels f) i (length done) i' (length done + 1 + j')); lia.
        -- pose proof (nth_error_Some_lt _ _ _ H1). replace (length done + Datatypes.S j) with (length done + 1 + j) by lia. rewrite (R4 i j ch' st' xs') by auto.
           destruct (channel_eqb ch' Unused); auto. apply D3. intros i' Hi' X. destruct (position_inj (cf_channels f) i (length done + 1 + j) i' (length done)); lia.
Qed.

Lemma nth_concat {T} C : forall (fs : list (list T)) i c fr, Forall (fun f => length f = C) fs -> c < C -> nth_error fs i = Some fr -> nth_error (concat fs) (i * C + c) = nth_error fr c.
Proof.
  induction fs as [|f fs IH]; intros [|i] c fr HF Hc Hi; try discriminate; cbn [nth_error concat] in *; pose proof (Forall_inv HF) as Hf; cbn beta in Hf.
  - injection Hi as <-. rewrite nth_error_app1 by (cbn; lia). reflexivity.
  - rewrite nth_error_app2 by (cbn; lia). rewrite <- (IH i c fr (Forall_inv_tail HF) Hc Hi). f_equal. cbn. lia.
Qed.
Lemma interleaved_audio {T} C n (src : list T) : 0 < C -> length src = C * n -> exists cols, view (Interleaved src C) n cols /\ same_audio C n src cols.
Proof.
  intros HC Hl. destruct (chunks_split C src n) as (H1 & H3 & H2); [lia|lia|].
  exists (cols_of C (chunks C src)). split.
  - split; [now rewrite cols_of_length|]. split; [lia|]. exists (chunks C src). auto.
  - split; auto. split; [apply cols_of_length|]. split.
    + apply Forall_forall. intros p Hp. apply in_map_iff in Hp. destruct Hp as (c & <- & Hc). apply in_seq in Hc. rewrite (col_length c _ C); auto. lia.
    + intros c i Hc Hi. destruct (nth_error (chunks C src) i) as [fr|] eqn:Hfr; [|apply nth_error_None in Hfr; lia].
      assert (length fr = C) as Hfl by (rewrite Forall_forall in H3; apply H3; eapply nth_error_In; eauto).
      destruct (nth_error fr c) as [x|] eqn:Hx; [|apply nth_error_None in Hx; lia].
      exists (col c (chunks C src)), x. split; [|split].
      * unfold cols_of. rewrite nth_error_map. rewrite (List.nth_error_nth' _ 0) by (rewrite seq_length; lia). rewrite seq_nth by lia. reflexivity.
      * rewrite (col_nth_error c (chunks C src) C Hc H3 i fr Hfr). exact Hx.
      * rewrite <- H1. rewrite (nth_concat C _ i c fr); auto.
Qed.
Lemma columns_all {T} (Q : T -> Prop) C n src cols : same_audio C n src cols -> Forall Q src -> Forall (Forall Q) cols.
Proof.
  intros HA HQ. apply Forall_forall. intros p Hp. apply Forall_forall. intros x Hx. apply In_nth_error in Hp. destruct Hp as (c & Hc). apply In_nth_error in Hx. destruct Hx as (i & Hi).
  destruct (same_column _ _ _ _ _ _ HA Hc) as (Hcol & _). rewrite Forall_forall in HQ. apply HQ. apply (nth_error_In src (i * C + c)). rewrite Hcol; auto. eapply nth_error_Some_lt; eauto.
Qed.
Lemma nth_splice {A} i (plane ys : list A) j : i + length ys <= length plane -> nth_error (splice i plane ys) j = if (i <=? j) && (j <? i + length ys) then nth_error ys (j - i) else nth_error plane j.
Proof.
  intros H. unfold splice. destruct (Nat.leb_spec i j) as [H1|H1].
  - rewrite nth_error_app2 by (rewrite firstn_length; lia). rewrite firstn_length, Nat.min_l by lia. destruct (Nat.ltb_spec j (i + length ys)); cbn [andb].
    + now rewrite nth_error_app1 by lia.
    + rewrite nth_error_app2 by lia. rewrite nth_error_skipn. f_equal. lia.
  - cbn [andb]. rewrite nth_error_app1 by (rewrite firstn_length; lia). rewrite nth_error_firstn. destruct (Nat.ltb_spec j i); auto; lia.
Qed.
Lemma filter_same {T} P (S : sample T) (t : ctype T) f g src n planes data L i cmap codes : p_ftz P = true -> twin_filters f g ->
  same_scale S t -> length src = f_channels f * n -> Forall (reads_same P S t) src -> same_audio (f_channels f) L data planes -> length cmap = f_channels f -> Forall2 code_of cmap codes -> 0 < L -> i + n <= L ->
  exists f' g' planes' data', filter_process P S f (Interleaved src (f_channels f)) (concat planes) i cmap = Ret (f', concat planes') /\
    filter_process_c P t g n src data (i * f_channels f) codes = Ret (g', data') /\
    twin_filters f' g' /\ f_channels f' = f_channels f /\ same_audio (f_channels f) L data' planes'.
Proof.
  intros HP [T1 T2 T3 T4 T5 T6 T7 T8 T9 T10] HM Hsrc HR HA Hcm HF HL Hi.
  destruct (interleaved_audio _ n src T8 Hsrc) as (cols & Hv & HA2). pose proof HA as (A1 & A2 & A3 & A4). pose proof HA2 as (B1 & B2 & B3 & B4).
  set (C := f_channels f) in *.
  exists {| f_channels := C; f_b := f_b f; f_a := f_a f; f_state := map3 (chan_state P S (f_b f) (f_a f)) cmap (f_state f) cols; f_calc_sample_peak := f_calc_sample_peak f;
    f_sample_peak := if f_calc_sample_peak f then map2 (chan_peak P S) (f_sample_peak f) cols else f_sample_peak f; f_tp := None; f_true_peak := f_true_peak f |}.
  assert (HR1 : Forall (Forall (fun x => s_raw S x = t_double t x)) cols).
  { eapply columns_all; [exact HA2|]. eapply Forall_impl; [|exact HR]. intros x (X & _). exact X. }
  assert (HR2 : Forall (Forall (fun x => s_f64 S x = ftz64 P (f64_div (t_double t x) (t_scale t)))) cols).
  { eapply columns_all; [exact HA2|]. eapply Forall_impl; [|exact HR]. intros x (_ & X). exact X. }
  assert (Hcl : length (concat planes) = C * L) by (rewrite (concat_length_const L); auto; lia).
  assert (HRust : filter_process P S f (Interleaved src C) (concat planes) i cmap = Ret ({| f_channels := C; f_b := f_b f; f_a := f_a f; f_state := map3 (chan_state P S (f_b f) (f_a f)) cmap (f_state f) cols; f_calc_sample_peak := f_calc_sample_peak f;
    f_sample_peak := if f_calc_sample_peak f then map2 (chan_peak P S) (f_sample_peak f) cols else f_sample_peak f; f_tp := None; f_true_peak := f_true_peak f |},
    concat (map4 (chan_plane P S (f_b f) (f_a f) i) cmap (f_state f) planes cols))).
  { unfold filter_process. fold C.
    assert (length (concat planes) / C = L) as -> by (rewrite Hcl, Nat.mul_comm; apply Nat.div_mul; lia).
    assert (length (concat planes) mod C = 0) as -> by (rewrite Hcl, Nat.mul_comm; apply Nat.mod_mul; lia).
    cbn [Nat.eqb assert_]. rewrite Hcm, Nat.eqb_refl. cbn [assert_]. cbn [s_channels]. rewrite Nat.eqb_refl. cbn [assert_]. rewrite T9, Nat.eqb_refl. cbn [assert_].
    assert ((if f_calc_sample_peak f then assert! (length (f_sample_peak f) =? C) ;; sample_peak_loop P S (Interleaved src C) 0 (f_sample_peak f) else Ret (f_sample_peak f)) =
      Ret (if f_calc_sample_peak f then map2 (chan_peak P S) (f_sample_peak f) cols else f_sample_peak f)) as ->.
    { destruct (f_calc_sample_peak f); auto. rewrite T10, Nat.eqb_refl. cbn [assert_]. apply (sample_peak_loop_ok P S (Interleaved src C) n cols Hv); auto. lia. }
    cbn [obind]. rewrite (view_frames _ _ _ Hv). unfold assert_ at 1. destruct (Nat.leb_spec (i + n) L); [|lia].
    unfold chunks_exact. destruct (Nat.eqb_spec L 0); [lia|]. cbn [obind]. rewrite (chunks_concat L planes) by auto.
    pose proof (process_loop_ok P S (f_b f) (f_a f) (Interleaved src C) n cols i L Hv Hi cmap planes (f_state f) [] 0 cols) as Epl.
    cbn [app] in Epl. rewrite Epl by (auto; lia). cbn [obind]. rewrite T7. reflexivity. }
  assert (T8' : 0 < cf_channels g) by lia. assert (HA2' : same_audio (cf_channels g) n src cols) by (rewrite <- T1; exact HA2).
  destruct (channels_ok P S t g src n cols codes (i * C) HP T8' HA2' HR2 cmap codes cols (f_state f) [] data HF eq_refl eq_refl) as (data' & R1 & R2 & R3 & R4); try (cbn [length]; lia).
  { rewrite A1, <- T1. fold C. nia. }
  cbn [length app] in R1. exists {| cf_channels := C; cf_b := f_b f; cf_a := f_a f; cf_v := map3 (chan_state P S (f_b f) (f_a f)) cmap (f_state f) cols; cf_calc := f_calc_sample_peak f;
    cf_sample_peak := if f_calc_sample_peak f then map2 (chan_peak P S) (f_sample_peak f) cols else f_sample_peak f |}.
  eexists. exists data'. split; [exact HRust|]. split; [|split; [|split; [reflexivity|]]].
  - unfold filter_process_c. rewrite <- T5, <- T6, <- T1. fold C.
    assert ((if f_calc_sample_peak f then peaks_c P t C n src (f_sample_peak f) else Ret (f_sample_peak f)) = Ret (if f_calc_sample_peak f then map2 (chan_peak P S) (f_sample_peak f) cols else f_sample_peak f)) as ->.
    { destruct (f_calc_sample_peak f); auto. apply (peaks_ok P S t C n src cols); auto. }
    cbn [obind]. fold (channel_c P t g n src (i * C) codes). rewrite <- T4. rewrite Hcm in R1. rewrite R1. cbn [obind]. rewrite T2, T3. reflexivity.
  - constructor; cbn [f_channels f_b f_a f_state f_calc_sample_peak f_sample_peak f_tp cf_channels cf_b cf_a cf_v cf_calc cf_sample_peak]; auto.
    + rewrite map3_length; lia.
    + destruct (f_calc_sample_peak f); auto. rewrite map2_length. lia.
  - split; [congruence|]. split; [rewrite map4_length; lia|]. split.
    + apply Forall_forall. intros p Hp. apply In_nth_error in Hp. destruct Hp as (c & Hc). rewrite nth_error_map4 in Hc.
      destruct (nth_error cmap c); [|discriminate]. destruct (nth_error (f_state f) c); [|discriminate]. destruct (nth_error planes c) as [pl|] eqn:Hpl; [|discriminate].
      destruct (nth_error cols c) as [xs|] eqn:Hxs; [|discriminate]. apply Some_inj in Hc. subst p. rewrite Forall_forall in A3, B3. pose proof (A3 _ (nth_error_In _ _ Hpl)). pose proof (B3 _ (nth_error_In _ _ Hxs)).
      unfold chan_plane. destruct (channel_eqb _ _); auto. unfold splice. rewrite !app_length, firstn_length, skipn_length, chan_ys_length. lia.
    + intros c j Hc Hj. destruct (A4 c j Hc Hj) as (pl & x & P1 & P2 & P3).
      destruct (nth_error cmap c) as [ch|] eqn:Hch; [|apply nth_error_None in Hch; lia]. destruct (nth_error (f_state f) c) as [st|] eqn:Hst; [|apply nth_error_None in Hst; lia].
      destruct (nth_error cols c) as [xs|] eqn:Hxs; [|apply nth_error_None in Hxs; lia]. pose proof (proj1 (Forall_forall _ _) B3 _ (nth_error_In _ _ Hxs)) as Hxl. pose proof (proj1 (Forall_forall _ _) A3 _ (nth_error_In _ _ P1)) as Hpl. cbn beta in Hxl, Hpl.
      rewrite <- T1, <- T2, <- T3 in R4. rewrite <- T1 in R3. fold C in R3, R4. cbn [length plus] in R3, R4.
      assert (exists y, nth_error (chan_plane P S (f_b f) (f_a f) i ch st pl xs) j = Some y /\ nth_error data' (j * C + c) = Some y) as (y & Y1 & Y2).
      { unfold chan_plane. destruct (le_lt_dec i j) as [Hij|Hij]; [destruct (le_lt_dec (i + n) j) as [Hjn|Hjn]|].
        - exists x. split.
          + destruct (channel_eqb ch Unused); auto. rewrite nth_splice by (rewrite chan_ys_length; lia). rewrite chan_ys_length. destruct (Nat.ltb_spec j (i + length xs)); [lia|]. now rewrite andb_false_r.
          + rewrite R3; auto. intros i' j' Hi' Hj' X. rewrite <- Nat.mul_add_distr_r in X. destruct (position_inj C j c (i + i') j'); lia.
        - assert (j * C + c = i * C + (j - i) * C + c) as EQ by (rewrite <- Nat.mul_add_distr_r; do 2 f_equal; lia). rewrite EQ in *. rewrite (R4 (j - i) c ch st xs) by (auto; lia).
          destruct (channel_eqb ch Unused); [exists x; auto|]. rewrite nth_splice by (rewrite chan_ys_length; lia). rewrite chan_ys_length.
          destruct (Nat.leb_spec i j); [|lia]. destruct (Nat.ltb_spec j (i + length xs)); [|lia]. cbn [andb].
          destruct (nth_error (chan_ys P S (f_b f) (f_a f) st xs) (j - i)) as [y|] eqn:Ey; [exists y; auto|]. apply nth_error_None in Ey. rewrite chan_ys_length in Ey. lia.
        - exists x. split.
          + destruct (channel_eqb ch Unused); auto. rewrite nth_splice by (rewrite chan_ys_length; lia). destruct (Nat.leb_spec i j); [lia|]. auto.
          + rewrite R3; auto. intros i' j' Hi' Hj' X. rewrite <- Nat.mul_add_distr_r in X. destruct (position_inj C j c (i + i') j'); lia. }
      exists (chan_plane P S (f_b f) (f_a f) i ch st pl xs), y. split; [|auto]. rewrite nth_error_map4, Hch, Hst, P1, Hxs. reflexivity.
Qed.
