(** The C API (src/capi.rs) stands for the Rust API. *)
From Coq Require Import ZArith NArith List Bool Arith Lia.
From Verif Require Import Prelude Float Env Utils History Filter Ebur128 Capi Spec Spec_history Spec_capi
  Config_proofs Trace_proofs Reach_proofs Stream_proofs Peak_proofs Blocks_proofs Answers_proofs Instance Examples.
Import ListNotations.
Local Open Scope nat_scope.

Lemma as_u32_small w : (w <= 4294967295)%N -> as_u32 w = w.
Proof. intros H. unfold as_u32. apply N.mod_small. lia. Qed.
Lemma transmute_role v ch : role v ch -> transmute_channel v = Ret ch.
Proof. intros ->. destruct ch; reflexivity. Qed.
Lemma code_code {A} (r : result A) : code r = code_of r.
Proof. destruct r as [|[]]; reflexivity. Qed.

Definition wrapped (P : platform) (E : ext) (s : cstate) : Prop :=
  reachable P E (cs_internal s) /\ cs_channels s = N.of_nat (e_channels (cs_internal s)) /\ e_rate (cs_internal s) = (cs_samplerate s mod 4294967296)%N.
Lemma init_ok P E channels rate m s : is_64bit P -> c_init P E channels rate m = Ret (Some s) ->
  channels_valid channels /\ rate_valid (rate mod 4294967296) /\ ebur128_new P E channels (rate mod 4294967296) (from_bits_truncate (i32_as_u8 m)) = Ret (Ok (cs_internal s)) /\
  cs_channels s = channels /\ cs_samplerate s = rate /\ cs_mode s = m.
Proof.
  intros HP H. unfold c_init in H. unfold as_u32 in H. destruct (ebur128_new P E channels (rate mod 4294967296) (from_bits_truncate (i32_as_u8 m))) as [r| | |] eqn:EN; try discriminate H.
  cbn [obind] in H. destruct r as [e|er]; [|discriminate H]. injection H as <-. cbn [cs_internal cs_channels cs_samplerate cs_mode].
  destruct (new_spec P E channels (rate mod 4294967296) (from_bits_truncate (i32_as_u8 m)) HP) as (HV & _).
  assert (channels_valid channels /\ rate_valid (rate mod 4294967296)) as (V1 & V2).
  { unfold channels_valid, rate_valid in *. destruct (N.leb_spec 1 channels), (N.leb_spec channels 64), (N.leb_spec 16 (rate mod 4294967296)), (N.leb_spec (rate mod 4294967296) 2822400);
      try (rewrite HV in EN by lia; discriminate EN). repeat split; assumption. }
  repeat split; auto; apply V1 || apply V2.
Qed.
Lemma init_wrapped P E channels rate m s : is_64bit P -> c_init P E channels rate m = Ret (Some s) -> supported (e_mode (cs_internal s)) (rate mod 4294967296) -> wrapped P E s.
Proof.
  intros HP H HS. destruct (init_ok P E channels rate m s HP H) as (V1 & V2 & EN & E1 & E2 & _). set (md := from_bits_truncate (i32_as_u8 m)) in *.
  destruct (new_spec P E channels (rate mod 4294967296) md HP) as (_ & H2 & H3). destruct (N.testbit md 0) eqn:EM.
  - destruct (H3 V1 V2 EM) as (e & He & M1 & M2 & M3 & _). rewrite EN in He. injection He as He. subst e. split.
    + eapply reach_new; [exact EN|]. rewrite <- M1. exact HS.
    + rewrite E1, E2, M2, M3. split; lia.
  - rewrite H2 in EN; auto; [discriminate EN|]. unfold has_M. congruence.
Qed.


Lemma kept_config P E e o r e' : is_64bit P -> reachable P E e -> admissible e o -> step P E e o = Ret (r, e') ->
  (forall c rt, o <> OpChangeParameters c rt) -> e_channels e' = e_channels e /\ e_rate e' = e_rate e.
Proof.
  intros HP HR Ha Hs Hn. destruct (reachable_ok P E e HP HR) as (g & L & HG).
  destruct (step_moves P E e g L _ r e' HP HG Ha Hs) as (g' & L' & _ & HM). apply moved_config in HM.
  destruct o; try (destruct HM as (_ & -> & ->); auto). now destruct (Hn channels rate).
Qed.
Lemma same_wrapper P E s o r e' : is_64bit P -> wrapped P E s -> admissible (cs_internal s) o -> step P E (cs_internal s) o = Ret (r, e') ->
  (forall c rt, o <> OpChangeParameters c rt) -> wrapped P E (with_internal s e') /\ (forall er, r = Err er -> with_internal s e' = s).
Proof.
  intros HP (HR & HC & HT) Ha Hs Hn. assert (reachable P E e') as HR' by (eapply reach_step; eauto).
  destruct (kept_config P E _ o r e' HP HR Ha Hs Hn) as (X & Y).
  split.
  - unfold wrapped. cbn [with_internal cs_internal cs_channels cs_samplerate]. rewrite X, Y. auto.
  - intros er ->. assert (e' = cs_internal s) as ->.
    { destruct o as [| | | | | |a|]; try (eapply failed_setter; [|exact Hs]; congruence). apply (Config_proofs.failed_add P E _ a er e' HP HR Ha Hs). }
    now destruct s.
Qed.

(** what a call that reaches the Rust API does *)
Definition passed (P : platform) (E : ext) (s : cstate) (c : ccall) : Prop :=
  exists o r s', stands_for s c o /\ admissible (cs_internal s) o /\ step P E (cs_internal s) o = Ret (r, cs_internal s') /\
    c_call P E s c = Ret (code_of r, s') /\ wrapped P E s' /\ cs_mode s' = cs_mode s /\ (forall er, r = Err er -> s' = s) /\
    match c with
    | CChangeParameters ch rt => r = Ok tt -> cs_channels s' = ch /\ cs_samplerate s' = rt
    | _ => cs_channels s' = cs_channels s /\ cs_samplerate s' = cs_samplerate s
    end.
Lemma passed_plain P E s c o : is_64bit P -> wrapped P E s -> stands_for s c o -> admissible (cs_internal s) o ->
  (forall ch rt, c <> CChangeParameters ch rt) ->
  (c_call P E s c = (r <- step P E (cs_internal s) o ;; let '(r, e) := r in Ret (code r, with_internal s e))) -> passed P E s c.
Proof.
  intros HP HW Hsf Ha Hn Hc. assert (forall a b, o <> OpChangeParameters a b) as Hn'.
  { intros a b ->. inversion Hsf; subst. eapply Hn; reflexivity. }
  destruct (steps_total P E (cs_internal s) o HP (proj1 HW) Ha) as (r & e' & Hs & _). rewrite Hs in Hc. cbn [obind] in Hc.
  destruct (same_wrapper P E s o r e' HP HW Ha Hs Hn') as (W & K). rewrite code_code in Hc.
  exists o, r, (with_internal s e'). repeat (split; auto). destruct c; auto. now destruct (Hn channels samplerate).
Qed.

Lemma call_beyond P E s c : wrapped P E s -> beyond P s c -> c_call P E s c = Ret (1%Z, s).
Proof.
  intros (_ & HC & _) HB.
  destruct c; cbn [beyond] in HB; try contradiction; cbn [c_call].
  - unfold c_set_max_window, u32_max. destruct (N.ltb_spec 4294967295 window); [reflexivity|lia].
  - unfold c_set_max_history, u32_max. destruct (N.ltb_spec 4294967295 history); [reflexivity|lia].
  - unfold c_add_frames, checked. rewrite HC. destruct (N.leb_spec (frames * N.of_nat (e_channels (cs_internal s))) (p_usize_max P)); [lia|reflexivity].
  - unfold c_add_frames, checked. rewrite HC. destruct (N.leb_spec (frames * N.of_nat (e_channels (cs_internal s))) (p_usize_max P)); [lia|reflexivity].
  - unfold c_add_frames, checked. rewrite HC. destruct (N.leb_spec (frames * N.of_nat (e_channels (cs_internal s))) (p_usize_max P)); [lia|reflexivity].
  - unfold c_add_frames, checked. rewrite HC. destruct (N.leb_spec (frames * N.of_nat (e_channels (cs_internal s))) (p_usize_max P)); [lia|reflexivity].
Qed.
Lemma call_unchanged P E s c : wrapped P E s -> ~ beyond P s c -> unchanged s c -> c_call P E s c = Ret (NO_CHANGE, s).
Proof.
  intros (_ & HC & _) HB HU. destruct c; cbn [beyond unchanged] in HB, HU; try contradiction; cbn [c_call].
  - destruct HU as (-> & ->). unfold c_change_parameters. now rewrite HC, !N.eqb_refl.
  - unfold c_set_max_window, u32_max. destruct (N.ltb_spec 4294967295 window); [lia|]. rewrite HU, N.eqb_refl. reflexivity.
  - unfold c_set_max_history, u32_max. destruct (N.ltb_spec 4294967295 history); [lia|]. rewrite HU, N.eqb_refl. reflexivity.
Qed.
Lemma add_spec T P E S s (src : list T) frames c (a : list T -> audio) : is_64bit P -> wrapped P E s -> holds P s src frames ->
  ~ (p_usize_max P < frames * N.of_nat (e_channels (cs_internal s)))%N ->
  (forall l, step P E (cs_internal s) (OpAdd (a l)) = add_frames_interleaved P S (cs_internal s) l) ->
  c_call P E s c = c_add_frames P S s src frames ->
  stands_for s c (OpAdd (a (firstn (N.to_nat frames * e_channels (cs_internal s)) src))) ->
  (forall l, admissible (cs_internal s) (OpAdd (a l))) -> (forall ch rt, c <> CChangeParameters ch rt) -> passed P E s c.
Proof.
  intros HP HW HH HB Hstep Hc Hsf Ha Hn. eapply passed_plain; eauto. rewrite Hc, Hstep. unfold c_add_frames, checked. unfold holds in HH.
  destruct HW as (_ & HC & _). rewrite HC in *. destruct (N.leb_spec (frames * N.of_nat (e_channels (cs_internal s))) (p_usize_max P)); [|lia].
  destruct (N.leb_spec (frames * N.of_nat (e_channels (cs_internal s))) (N.of_nat (length src))); [|lia].
  rewrite N2Nat.inj_mul, Nat2N.id. destruct (add_frames_interleaved P S (cs_internal s) _) as [[r e]| | |]; reflexivity.
Qed.
Lemma call_passed P E s c : is_64bit P -> wrapped P E s -> fair P s c -> ~ beyond P s c -> ~ unchanged s c -> passed P E s c.
Proof.
  intros HP HW HF HB HU. destruct c as [n v|ch rt|w|h|src n|src n|src n|src n]; cbn [fair beyond unchanged] in HF, HB, HU.
  - destruct HF as (ch & HF). apply (passed_plain P E s _ (OpSetChannel n ch) HP HW); [now constructor|exact I|congruence|].
    cbn [c_call step]. unfold c_set_channel. rewrite (transmute_role v ch HF). cbn [obind]. destruct (set_channel (cs_internal s) n ch) as [[r e]| | |]; reflexivity.
  - pose proof HW as (HR & HC & HT).
    assert (admissible (cs_internal s) (OpChangeParameters ch (rt mod 4294967296))) as Ha by (exact HF).
    destruct (steps_total P E (cs_internal s) _ HP HR Ha) as (r & e' & Hs & HR').
    pose proof Hs as Hs0. cbn [step] in Hs.
    assert (c_call P E s (CChangeParameters ch rt) = Ret (match r with
         | Err er => (error_code er, with_internal s e')
         | Ok _ => (0%Z, {| cs_mode := cs_mode s; cs_channels := ch; cs_samplerate := rt; cs_internal := e' |}) end)) as Hc.
    { cbn [c_call]. unfold c_change_parameters, as_u32. destruct (N.eqb_spec (cs_channels s) ch); [destruct (N.eqb_spec (cs_samplerate s) rt)|]; cbn [andb].
      - exfalso. apply HU. split; congruence.
      - rewrite Hs. cbn [obind]. destruct r; reflexivity.
      - rewrite Hs. cbn [obind]. destruct r; reflexivity. }
    destruct r as [[]|er].
    + exists (OpChangeParameters ch (rt mod 4294967296)), (Ok tt), {| cs_mode := cs_mode s; cs_channels := ch; cs_samplerate := rt; cs_internal := e' |}.
      cbn [cs_internal cs_mode cs_channels cs_samplerate code_of].
      split; [constructor|]. split; [exact Ha|]. split; [exact Hs0|]. split; [exact Hc|]. split; [|repeat split; congruence].
      destruct (change_spec P E (cs_internal s) ch (rt mod 4294967296) HP HR) as (H1 & H2 & H3). unfold wrapped. cbn [cs_internal cs_channels cs_samplerate].
      destruct (Classical_Prop.classic (channels_valid ch /\ rate_valid (rt mod 4294967296))) as [(V1 & V2)|V]; [|rewrite H1 in Hs by auto; discriminate Hs].
      destruct (Classical_Prop.classic (ch = N.of_nat (e_channels (cs_internal s)) /\ (rt mod 4294967296 = e_rate (cs_internal s))%N)) as [(X1 & X2)|X].
      * rewrite H2 in Hs by auto. injection Hs as <-. split; auto.
      * destruct (H3 V1 V2 X) as (e2 & e0 & e1 & He & _ & _ & _ & _ & _ & _ & Q1 & Q2 & _). rewrite He in Hs. injection Hs as <-. rewrite Q1, Q2.
        split; auto. split; auto. lia.
    + assert (e' = cs_internal s) as -> by (eapply failed_setter; [|exact Hs0]; congruence).
      exists (OpChangeParameters ch (rt mod 4294967296)), (Err er), s. assert (with_internal s (cs_internal s) = s) as Ew by (now destruct s). rewrite Ew in Hc.
      split; [constructor|]. split; [exact Ha|]. split; [exact Hs0|]. split; [rewrite Hc; now destruct er|]. split; [exact HW|]. repeat split; congruence.
  - apply (passed_plain P E s _ (OpSetMaxWindow w) HP HW); [constructor|cbn [admissible]; lia|congruence|]. cbn [c_call step]. unfold c_set_max_window, u32_max.
    destruct (N.ltb_spec 4294967295 w); [lia|]. destruct (N.eqb_spec (e_window (cs_internal s)) w); [congruence|].
    rewrite as_u32_small by lia. destruct (set_max_window P (cs_internal s) w) as [[r e]| | |]; reflexivity.
  - apply (passed_plain P E s _ (OpSetMaxHistory h) HP HW); [constructor|exact I|congruence|]. cbn [c_call step obind]. unfold c_set_max_history, u32_max.
    destruct (N.ltb_spec 4294967295 h); [lia|]. destruct (N.eqb_spec (e_history (cs_internal s)) h); [congruence|].
    rewrite as_u32_small by lia. destruct (set_max_history (cs_internal s) h) as [r e]; reflexivity.
  - apply (add_spec _ P E smp_i16 s src n _ AI16 HP HW HF HB); [reflexivity|reflexivity|constructor|intros; exact I|congruence].
  - apply (add_spec _ P E smp_i32 s src n _ AI32 HP HW HF HB); [reflexivity|reflexivity|constructor|intros; exact I|congruence].
  - apply (add_spec _ P E smp_f32 s src n _ AF32 HP HW HF HB); [reflexivity|reflexivity|constructor|intros; exact I|congruence].
  - apply (add_spec _ P E smp_f64 s src n _ AF64 HP HW HF HB); [reflexivity|reflexivity|constructor|intros; exact I|congruence].
Qed.
Lemma call_wrapped P E s c k s' : is_64bit P -> wrapped P E s -> fair P s c -> c_call P E s c = Ret (k, s') -> wrapped P E s'.
Proof.
  intros HP HW HF Hc. destruct (Classical_Prop.classic (beyond P s c)) as [HB|HB].
  { rewrite (call_beyond P E s c HW HB) in Hc. injection Hc as _ <-. exact HW. }
  destruct (Classical_Prop.classic (unchanged s c)) as [HU|HU].
  { rewrite (call_unchanged P E s c HW HB HU) in Hc. injection Hc as _ <-. exact HW. }
  destruct (call_passed P E s c HP HW HF HB HU) as (o & r & s2 & _ & _ & _ & He & W & _). rewrite He in Hc. injection Hc as _ <-. exact W.
Qed.
Lemma creachable_wrapped P E s : is_64bit P -> creachable P E s -> wrapped P E s.
Proof. intros HP. induction 1; [eapply init_wrapped; eauto|eapply call_wrapped; eauto]. Qed.

Lemma calls_total P E s c : is_64bit P -> creachable P E s -> fair P s c ->
  exists k s', c_call P E s c = Ret (k, s') /\ creachable P E s' /\ (0 <= k <= 4)%Z /\ (k <> 0%Z -> s' = s).
Proof.
  intros HP HR HF. pose proof (creachable_wrapped P E s HP HR) as HW.
  assert (exists k s', c_call P E s c = Ret (k, s') /\ (0 <= k <= 4)%Z /\ (k <> 0%Z -> s' = s)) as (k & s' & Hc & H1 & H2).
  { destruct (Classical_Prop.classic (beyond P s c)) as [HB|HB]; [exists 1%Z, s; split; [now apply call_beyond|split; [lia|auto]]|].
    destruct (Classical_Prop.classic (unchanged s c)) as [HU|HU]; [exists NO_CHANGE, s; split; [now apply call_unchanged|split; [unfold NO_CHANGE; lia|auto]]|].
    destruct (call_passed P E s c HP HW HF HB HU) as (o & r & s2 & _ & _ & _ & He & W & _ & Hk & _). exists (code_of r), s2. split; auto.
    destruct r as [|er]; cbn [code_of]; [split; [lia|congruence]|]. split; [destruct er; lia|]. intros _. now apply (Hk er). }
  exists k, s'. repeat (split; auto). eapply creach_call; eauto.
Qed.

(** queries *)
Lemma ask_code P E s q : is_64bit P -> bsearch_contract E -> creachable P E s ->
  match q with CWindow w => (w <= 4294967295)%N | _ => True end ->
  exists r, ask P E (cs_internal s) (rust_query q) = Ret (AValue r) /\
    c_ask P E s q = Ret (code_of r, match r with Ok v => Some v | Err _ => None end).
Proof.
  intros HP HB HR Hq. destruct (creachable_wrapped P E s HP HR) as (HR' & _).
  destruct (queries_total P E (cs_internal s) (rust_query q) HP HB HR') as (a & Ha & _). { destruct q; cbn; auto. }
  assert (forall r, c_out r = (code_of r, match r with Ok v => Some v | Err _ => None end)) as X by (intros [|[]]; reflexivity).
  destruct q; cbn [rust_query ask c_ask] in *;
    unfold c_loudness_global, c_loudness_momentary, c_loudness_shortterm, c_loudness_window, c_loudness_range, c_sample_peak, c_prev_sample_peak, c_true_peak, c_prev_true_peak, c_relative_threshold, u32_max;
    try (destruct (N.ltb_spec 4294967295 window); [lia|]; rewrite as_u32_small by lia);
    try match goal with |- context [obind ?x _] => destruct x as [r| | |]; try discriminate Ha end;
    cbn [obind] in *; rewrite ?X; eauto.
Qed.
Lemma window_beyond P E s w : (4294967295 < w)%N -> c_ask P E s (CWindow w) = Ret (1%Z, None).
Proof. intros H. cbn [c_ask]. unfold c_loudness_window, u32_max. destruct (N.ltb_spec 4294967295 w); [reflexivity|lia]. Qed.

(** ebur128_init *)
Lemma mode_bits m : from_bits_truncate (i32_as_u8 m) = Z.to_N (m mod 128).
Proof.
  unfold from_bits_truncate, i32_as_u8, MODE_ALL. change 127%N with (N.ones 7). rewrite N.land_ones.
  pose proof (Z.mod_pos_bound m 256 ltac:(lia)). pose proof (Z.mod_pos_bound m 128 ltac:(lia)).
  apply N2Z.inj. rewrite N2Z.inj_mod, !Z2N.id by lia. change (Z.of_N (2 ^ 7)) with 128%Z.
  rewrite (Z.mod_eq m 256) by lia. replace (m - 256 * (m / 256))%Z with (m + (- 2 * (m / 256)) * 128)%Z by lia. now rewrite Z_mod_plus_full.
Qed.
Lemma init_spec P E channels rate m : is_64bit P ->
  let md := Z.to_N (m mod 128) in let r := (rate mod 4294967296)%N in
  (channels_valid channels /\ rate_valid r /\ has_M md ->
     exists e, ebur128_new P E channels r md = Ret (Ok e) /\ e_mode e = md /\
       c_init P E channels rate m = Ret (Some {| cs_mode := m; cs_channels := channels; cs_samplerate := rate; cs_internal := e |})) /\
  (~ (channels_valid channels /\ rate_valid r /\ has_M md) -> c_init P E channels rate m = Ret None).
Proof.
  intros HP. cbv zeta. destruct (new_spec P E channels (rate mod 4294967296) (Z.to_N (m mod 128)) HP) as (H1 & H2 & H3).
  unfold c_init, as_u32. rewrite mode_bits. split.
  - intros (V1 & V2 & V3). destruct (H3 V1 V2 V3) as (e & He & Hm & _). exists e. rewrite He. auto.
  - intros Hn. destruct (Classical_Prop.classic (channels_valid channels /\ rate_valid (rate mod 4294967296))) as [(V1 & V2)|V]; [|rewrite H1 by auto; reflexivity].
    rewrite H2; auto.
Qed.
Lemma init_truncates P E channels k rate j m : is_64bit P -> c_init P E channels rate m = Ret None <-> c_init P E channels (rate + k * 4294967296) (m + j * 128) = Ret None.
Proof.
  intros HP. unfold c_init, as_u32. rewrite !mode_bits, N.mod_add, Z_mod_plus_full by lia.
  destruct (ebur128_new P E channels (rate mod 4294967296) (Z.to_N (m mod 128))) as [[]| | |]; cbn [obind]; split; congruence.
Qed.

(** multiple analyzers *)
Lemma multiple_codes P E ss : is_64bit P -> bsearch_contract E -> Forall (creachable P E) ss ->
  exists g l, loudness_global_multiple P E (map cs_internal ss) = Ret g /\ loudness_range_multiple P E (map cs_internal ss) = Ret l /\
    c_loudness_global_multiple P E ss = Ret (code_of g, match g with Ok v => Some v | Err _ => None end) /\
    c_loudness_range_multiple P E ss = Ret (code_of l, match l with Ok v => Some v | Err _ => None end).
Proof.
  intros HP HB HF. destruct (multiples_total P E (map cs_internal ss) HP HB) as ((g & Hg) & (l & Hl)).
  { rewrite Forall_map. eapply Forall_impl; [|exact HF]. intros s Hs. apply (creachable_wrapped P E s HP Hs). }
  assert (forall r, c_out r = (code_of r, match r with Ok v => Some v | Err _ => None end)) as X by (intros [|[]]; reflexivity).
  exists g, l. unfold c_loudness_global_multiple, c_loudness_range_multiple. rewrite Hg, Hl. cbn [obind]. now rewrite !X.
Qed.

(** a supported configuration: every channel count, rate and mode that C accepts *)
Lemma example_state : exists s, creachable x86_64 Instance.env0 s /\ cs_channels s = 2%N /\ cs_samplerate s = 4294967316%N /\ e_rate (cs_internal s) = 20%N /\ e_mode (cs_internal s) = 63%N.
Proof.
  destruct (init_spec x86_64 Instance.env0 2 4294967316 191 eq_refl) as (H & _).
  destruct H as (e & Hn & Hm & Hi). { repeat split; try reflexivity; vm_compute; congruence. }
  eexists. split; [eapply creach_init; [exact Hi|]|]; cbn [cs_internal cs_channels cs_samplerate].
  - rewrite Hm. apply Examples.supported_dec. reflexivity.
  - repeat split; auto. destruct (new_spec x86_64 Instance.env0 2 (4294967316 mod 4294967296) (Z.to_N (191 mod 128)) eq_refl) as (_ & _ & H3).
    destruct H3 as (e' & He & _ & Hr & _); [vm_compute; split; congruence|vm_compute; split; congruence|reflexivity|]. rewrite Hn in He. injection He as ->. exact Hr.
Qed.

(** * The control register *)
Lemma csr_restored A P (body : bool -> N -> outcome A * N) csr : p_ftz P = true -> snd (with_ftz_csr P body csr) = csr.
Proof. intros H. unfold with_ftz_csr. rewrite H. now destruct (body true _). Qed.
Lemma csr_inside A P (body : bool -> N -> outcome A * N) csr : p_ftz P = true -> exists inside,
  fst (with_ftz_csr P body csr) = fst (body true inside) /\ N.testbit inside 15 = true /\ forall n, n <> 15%N -> N.testbit inside n = N.testbit csr n.
Proof.
  intros H. unfold with_ftz_csr. rewrite H. exists (N.lor csr MM_FLUSH_ZERO_ON). split; [now destruct (body true _)|].
  unfold MM_FLUSH_ZERO_ON. change 32768%N with (2 ^ 15)%N. split.
  - rewrite N.lor_spec, N.pow2_bits_true. apply orb_true_r.
  - intros n Hn. rewrite N.lor_spec, N.pow2_bits_false by congruence. apply orb_false_r.
Qed.
Lemma under_same P csr : under_csr P (p_ftz P) (if p_ftz P then N.lor csr MM_FLUSH_ZERO_ON else csr) = P.
Proof.
  unfold under_csr. destruct P as [f a u n]. cbn [p_ftz p_fma p_usize_max p_sum_neg0]. destruct f; [|reflexivity]. cbn [andb].
  rewrite N.lor_spec. unfold MM_FLUSH_ZERO_ON. change 32768%N with (2 ^ 15)%N. now rewrite N.pow2_bits_true, orb_true_r.
Qed.
Lemma process_csr T P (S : sample T) f src dest i cmap csr : filter_process_csr P S f src dest i cmap csr = (filter_process P S f src dest i cmap, csr).
Proof.
  pose proof (under_same P csr) as H. unfold filter_process_csr, with_ftz_csr. destruct (p_ftz P); rewrite H; reflexivity.
Qed.
Lemma seed_csr T P (S : sample T) f src cmap csr : filter_seed_csr P S f src cmap csr = (filter_seed P S f src cmap, csr).
Proof.
  pose proof (under_same P csr) as H. unfold filter_seed_csr, with_ftz_csr. destruct (p_ftz P); rewrite H; reflexivity.
Qed.
