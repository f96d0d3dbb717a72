(** Properties of the C API and of the floating-point environment: C50, C51, C53, C55. *)
From Coq Require Import ZArith NArith List Bool Arith Lia.
From Verif Require Import Prelude Float Env Utils History Filter Ebur128 Capi Handles Spec Spec_history Spec_capi Spec_handles
  Config_proofs Capi_proofs Handle_proofs Instance Examples.
Import ListNotations.

(** * C50: the floating-point environment is restored *)
(** whatever the closure does to the register, and whether it returns or panics *)
Theorem C50_restored : forall A P (body : bool -> N -> outcome A * N) csr, p_ftz P = true ->
  snd (with_ftz_csr P body csr) = csr.
Proof. exact csr_restored. Qed.
(** the closure runs with flush-to-zero on and everything else as the caller had it *)
Theorem C50_inside : forall A P (body : bool -> N -> outcome A * N) csr, p_ftz P = true ->
  exists inside, fst (with_ftz_csr P body csr) = fst (body true inside) /\
    N.testbit inside 15 = true /\ forall n, n <> 15%N -> N.testbit inside n = N.testbit csr n.
Proof. exact csr_inside. Qed.
(** filtering and seeding: the result does not depend on the caller's flush-to-zero bit, and the
    register is as before; [filter_process] may be a panic *)
Theorem C50_process : forall T P (S : sample T) f src dest i cmap csr,
  filter_process_csr P S f src dest i cmap csr = (filter_process P S f src dest i cmap, csr).
Proof. exact process_csr. Qed.
Theorem C50_seed : forall T P (S : sample T) f src cmap csr,
  filter_seed_csr P S f src cmap csr = (filter_seed P S f src cmap, csr).
Proof. exact seed_csr. Qed.
Example C50_example : p_ftz x86_64 = true /\
  with_ftz_csr x86_64 (fun _ csr => (if N.testbit csr 15 then Panic else Ret tt, 0%N)) 8064 = (Panic, 8064%N).
Proof. split; reflexivity. Qed.

(** * C51: error codes and arguments of the C API *)
(** ebur128_init: a handle exactly for the configurations the Rust API accepts, after the rate is
    cut to 32 bits and the mode to 7 bits *)
Theorem C51_init : forall P E channels rate m, is_64bit P ->
  let md := Z.to_N (m mod 128) in let r := (rate mod 4294967296)%N in
  (channels_valid channels /\ rate_valid r /\ has_M md ->
     exists e, ebur128_new P E channels r md = Ret (Ok e) /\ e_mode e = md /\
       c_init P E channels rate m = Ret (Some {| cs_mode := m; cs_channels := channels; cs_samplerate := rate; cs_internal := e |})) /\
  (~ (channels_valid channels /\ rate_valid r /\ has_M md) -> c_init P E channels rate m = Ret None).
Proof. exact init_spec. Qed.
Example C51_init_example : channels_valid 2 /\ rate_valid (48000 mod 4294967296) /\ has_M (Z.to_N (63 mod 128)) /\ ~ has_M (Z.to_N (2 mod 128)).
Proof. repeat split; try (vm_compute; congruence). Qed.
(** the analyzer behind a handle is one the Rust API can reach, and the public fields describe it *)
Theorem C51_analyzer : forall P E s, is_64bit P -> creachable P E s ->
  reachable P E (cs_internal s) /\ cs_channels s = N.of_nat (e_channels (cs_internal s)) /\ e_rate (cs_internal s) = (cs_samplerate s mod 4294967296)%N.
Proof. exact creachable_wrapped. Qed.
(** no call that keeps the contract panics or is undefined; an error leaves the handle as it was *)
Theorem C51_calls : forall P E s c, is_64bit P -> creachable P E s -> fair P s c ->
  exists k s', c_call P E s c = Ret (k, s') /\ creachable P E s' /\ (0 <= k <= 4)%Z /\ (k <> 0%Z -> s' = s).
Proof. exact calls_total. Qed.
(** the code of every call: 1 for arguments beyond the Rust types, 4 where nothing would change,
    otherwise the code of the result of the Rust call *)
Theorem C51_beyond : forall P E s c, is_64bit P -> creachable P E s -> beyond P s c -> c_call P E s c = Ret (1%Z, s).
Proof. exact (fun P E s c HP HR => call_beyond P E s c (creachable_wrapped P E s HP HR)). Qed.
Theorem C51_no_change : forall P E s c, is_64bit P -> creachable P E s -> ~ beyond P s c -> unchanged s c -> c_call P E s c = Ret (4%Z, s).
Proof. exact (fun P E s c HP HR => call_unchanged P E s c (creachable_wrapped P E s HP HR)). Qed.
Theorem C51_code : forall P E s c, is_64bit P -> creachable P E s -> fair P s c -> ~ beyond P s c -> ~ unchanged s c ->
  exists o r s', stands_for s c o /\ admissible (cs_internal s) o /\ step P E (cs_internal s) o = Ret (r, cs_internal s') /\
    c_call P E s c = Ret (code_of r, s') /\
    (reachable P E (cs_internal s') /\ cs_channels s' = N.of_nat (e_channels (cs_internal s')) /\ e_rate (cs_internal s') = (cs_samplerate s' mod 4294967296)%N) /\
    cs_mode s' = cs_mode s /\ (forall er, r = Err er -> s' = s) /\
    match c with
    | CChangeParameters ch rt => r = Ok tt -> cs_channels s' = ch /\ cs_samplerate s' = rt
    | _ => cs_channels s' = cs_channels s /\ cs_samplerate s' = cs_samplerate s
    end.
Proof. exact (fun P E s c HP HR => call_passed P E s c HP (creachable_wrapped P E s HP HR)). Qed.
Example C51_example : exists s, creachable x86_64 env0 s /\
  fair x86_64 s (CAddShort [1; 2; 3; 4]%Z 2) /\ ~ beyond x86_64 s (CAddShort [1; 2; 3; 4]%Z 2) /\ beyond x86_64 s (CAddShort [] 9223372036854775808) /\
  unchanged s (CChangeParameters 2 4294967316) /\ ~ unchanged s (CChangeParameters 2 20) /\ fair x86_64 s (CChangeParameters 2 20) /\ fair x86_64 s (CSetChannel 0 31).
Proof.
  destruct example_state as (s & HR & H1 & H2 & H3 & H4). exists s. split; auto. destruct (creachable_wrapped x86_64 env0 s eq_refl HR) as (_ & HC & _).
  rewrite H1 in HC. cbn [fair beyond unchanged]. unfold holds. rewrite H1, H2, H4, <- HC.
  split; [cbn; lia|]. split; [vm_compute; congruence|]. split; [reflexivity|]. split; [auto|]. split; [intros (_ & X); discriminate X|].
  split; [intros _; apply supported_dec; reflexivity|]. exists Bm045. reflexivity.
Qed.
(** queries: the output is written exactly on success, with the value of the Rust query *)
Theorem C51_queries : forall P E s q, is_64bit P -> bsearch_contract E -> creachable P E s ->
  match q with CWindow w => (w <= 4294967295)%N | _ => True end ->
  exists r, ask P E (cs_internal s) (rust_query q) = Ret (AValue r) /\
    c_ask P E s q = Ret (code_of r, match r with Ok v => Some v | Err _ => None end).
Proof. exact ask_code. Qed.
Theorem C51_window_beyond : forall P E s w, (4294967295 < w)%N -> c_ask P E s (CWindow w) = Ret (1%Z, None).
Proof. exact window_beyond. Qed.
Theorem C51_multiple : forall P E ss, is_64bit P -> bsearch_contract E -> Forall (creachable P E) ss ->
  exists g l, loudness_global_multiple P E (map cs_internal ss) = Ret g /\ loudness_range_multiple P E (map cs_internal ss) = Ret l /\
    c_loudness_global_multiple P E ss = Ret (code_of g, match g with Ok v => Some v | Err _ => None end) /\
    c_loudness_range_multiple P E ss = Ret (code_of l, match l with Ok v => Some v | Err _ => None end).
Proof. exact multiple_codes. Qed.
Example C51_queries_example : bsearch_contract env0 /\ exists s, Forall (creachable x86_64 env0) [s; s].
Proof. split; [exact env0_bsearch|]. destruct example_state as (s & HR & _). exists s. repeat constructor; auto. Qed.
(** Rates and modes outside the documented ranges are not refused: 2^32 more is the same rate, 128
    more the same mode. *)
Theorem C51_truncation_refuted : forall P E channels k rate j m, is_64bit P ->
  c_init P E channels rate m = Ret None <-> c_init P E channels (rate + k * 4294967296) (m + j * 128) = Ret None.
Proof. exact init_truncates. Qed.
Example C51_truncation_example : exists s, creachable x86_64 env0 s /\ ~ rate_valid (cs_samplerate s) /\ cs_samplerate s = 4294967316%N.
Proof. destruct example_state as (s & HR & _ & H2 & _). exists s. split; auto. rewrite H2. split; [|reflexivity]. intros H. vm_compute in H. intuition congruence. Qed.

(** * C53: analyzers are independent and queries do not change them *)
(** What a program sees of one handle is what it would see if it did nothing else. *)
Theorem C53_independent : forall P E A n i ks os w, allocator_contract A -> program P E (start n) ks os w ->
  exists W W', execute_all P E A (begin n) ks = Ret (os, W) /\
    execute_all P E A (begin n) (List.filter (about i) ks) = Ret (chosen (about i) ks os, W').
Proof. exact independent. Qed.
(** Dropping every query, and everything about other handles, does not change what any later
    command about a handle gives. *)
Theorem C53_queries : forall P E A n i ks os w k, is_64bit P -> bsearch_contract E -> allocator_contract A ->
  program P E (start n) ks os w -> about i k = true -> proper_use P E w k ->
  exists o os' W W', execute_all P E A (begin n) (ks ++ [k]) = Ret (os ++ [o], W) /\
    execute_all P E A (begin n) (List.filter (changes i) ks ++ [k]) = Ret (os' ++ [o], W').
Proof. exact queries_idle. Qed.
Example C53_example : allocator_contract next_free /\ (exists os w, program x86_64 env0 (start 2) session_example os w) /\
  length (List.filter (about 0) session_example) = 6 /\ length (List.filter (changes 0) session_example) = 5.
Proof. split; [exact next_free_ok|]. destruct session_program as (os & w & H & _). split; [eauto|]. split; reflexivity. Qed.

(** * C55: handles of the C API: no undefined behaviour, no leak, destroying twice is harmless *)
(** A program that keeps the contract runs as if every variable simply held its analyzer; two boxes
    per live handle are allocated, and a variable is null exactly while it holds none. *)
Theorem C55_memory : forall P E A n ks os w, allocator_contract A -> program P E (start n) ks os w ->
  exists h vars, execute_all P E A (begin n) ks = Ret (os, (h, vars)) /\ length h = 2 * live w /\
    NoDup (map fst h) /\ Forall2 (fun p x => p = None <-> x = None) vars w.
Proof. exact executes. Qed.
(** no such program is stuck: every further command that keeps the contract has a result *)
Theorem C55_progress : forall P E A n ks os w k, is_64bit P -> bsearch_contract E -> allocator_contract A ->
  program P E (start n) ks os w -> proper_use P E w k ->
  exists o w', program P E (start n) (ks ++ [k]) (os ++ [o]) w'.
Proof. exact progress. Qed.
Theorem C55_destroy_twice : forall h p h1 v1, h_destroy h (Some p) = Ret (v1, h1) ->
  v1 = Some None /\ h_destroy h1 v1 = Ret (Some None, h1) /\ h_destroy h None = Ret (None, h).
Proof. exact destroy_twice. Qed.
Example C55_example : exists os w, program x86_64 env0 (start 2) session_example os w /\ live w = 0 /\ length os = 11.
Proof. exact session_program. Qed.
Example C55_contract_needed : execute_all x86_64 env0 next_free (begin 1) [KDestroy 0; KAsk 0 CMomentary] = UB.
Proof. exact after_destroy. Qed.

(** * Assumptions *)
Print Assumptions C50_restored.
Print Assumptions C50_inside.
Print Assumptions C50_process.
Print Assumptions C50_seed.
Print Assumptions C51_init.
Print Assumptions C51_analyzer.
Print Assumptions C51_calls.
Print Assumptions C51_beyond.
Print Assumptions C51_no_change.
Print Assumptions C51_code.
Print Assumptions C51_queries.
Print Assumptions C51_window_beyond.
Print Assumptions C51_multiple.
Print Assumptions C51_truncation_refuted.
Print Assumptions C53_independent.
Print Assumptions C53_queries.
Print Assumptions C55_memory.
Print Assumptions C55_progress.
Print Assumptions C55_destroy_twice.
