(** C82, C83: the Rust gating block and filter against the C reference code of tests/c. *)
From Coq Require Import List Arith NArith ZArith.
From Verif Require Import Prelude Float Spec Env Utils Filter Capi Cref Cref_filter Spec_cref Spec_cref_filter Instance
  Cref_filter_proofs Cref_format_proofs Cref_filter_examples.
Import ListNotations.
Local Open Scope nat_scope.

(** * C82: the energy of a block *)
(** Given the same ring of filtered audio (C keeps it interleaved, Rust one channel after the other), the same position, the same
    window and the same channel layout, the two functions give the same energy, to the bit. *)
Theorem C82_gating_block : forall w data planes L cmap codes i, 0 < length cmap -> same_audio (length cmap) L data planes ->
  Forall2 code_of cmap codes -> 0 < L -> w <= L -> i <= L ->
  exists v, calc_gating_block w (concat planes) i cmap = Ret v /\ calc_gating_block_c w data L (i * length cmap) codes (length cmap) = Ret v.
Proof. exact gating_same. Qed.
Example C82_gating_block_example : Forall2 code_of six six_codes /\ same_audio 6 3 six_audio six_planes.
Proof. exact six_ok. Qed.

(** * C83: the filter *)
(** A new filter has the same coefficients and is otherwise at rest. *)
Theorem C83_create : forall E L rate C sp, same_pow E L -> same_tan E L -> (0 < rate)%N -> 0 < C ->
  exists f, filter_new E rate C sp false = Ret f /\ twin_filters f (filter_create_c L rate C sp) /\ f_channels f = C.
Proof. exact create_twins. Qed.
Example C83_create_example : same_pow env0 (libc_of env0) /\ same_tan env0 (libc_of env0).
Proof. exact (libc_of_ok env0). Qed.
(** All four sample formats are read alike, except subnormal samples of 64-bit audio. *)
Theorem C83_formats : forall P,
  (same_scale smp_i16 c_short /\ same_scale smp_i32 c_int /\ same_scale smp_f32 c_float /\ same_scale smp_f64 c_double) /\
  (forall z, in_i16 z -> reads_same P smp_i16 c_short z) /\ (forall z, in_i32 z -> reads_same P smp_i32 c_int z) /\
  (forall x, reads_same P smp_f32 c_float x) /\ (forall x, (p_ftz P = true -> subnormal64 x = false) -> reads_same P smp_f64 c_double x).
Proof. exact (fun P => conj scales (conj (reads_i16 P) (conj (reads_i32 P) (conj (reads_f32 P) (reads_f64 P))))). Qed.
(** One call, on a processor with flush-to-zero: twins stay twins (same memory, same sample peaks) and write the same audio. *)
Theorem C83_process : forall T P (S : sample T) (t : ctype T) f g src n planes data L i cmap codes, p_ftz P = true -> twin_filters f g ->
  same_scale S t -> length src = f_channels f * n -> Forall (reads_same P S t) src -> same_audio (f_channels f) L data planes ->
  length cmap = f_channels f -> Forall2 code_of cmap codes -> 0 < L -> i + n <= L ->
  exists f' g' planes' data',
    filter_process P S f (Interleaved src (f_channels f)) (concat planes) i cmap = Ret (f', concat planes') /\
    filter_process_c P t g n src data (i * f_channels f) codes = Ret (g', data') /\
    twin_filters f' g' /\ f_channels f' = f_channels f /\ same_audio (f_channels f) L data' planes'.
Proof. exact @filter_same. Qed.
(** Any sequence of calls, at any places of the ring. *)
Theorem C83_stream : forall T P (S : sample T) (t : ctype T) cmap codes L C, p_ftz P = true -> same_scale S t -> Forall2 code_of cmap codes ->
  0 < L -> length cmap = C ->
  forall calls f g planes data,
  Forall (fun '(src, n, i) => length src = C * n /\ Forall (reads_same P S t) src /\ i + n <= L) calls ->
  twin_filters f g -> f_channels f = C -> same_audio C L data planes ->
  exists f' g' planes' data',
    ofold (fun '(f, dest) '(src, n, i) => filter_process P S f (Interleaved src C) dest i cmap) (f, concat planes) calls = Ret (f', concat planes') /\
    ofold (fun '(g, dest) '(src, n, i) => filter_process_c P t g n src dest (i * C) codes) (g, data) calls = Ret (g', data') /\
    twin_filters f' g' /\ same_audio C L data' planes'.
Proof. exact @stream_same. Qed.
Example C83_stream_example : p_ftz x86_64 = true /\ same_scale smp_i16 c_short /\ Forall2 code_of six six_codes /\
  Forall (reads_same x86_64 smp_i16 c_short) [1; -1; 100; 200; -32768; 32767]%Z /\ same_audio 6 3 six_audio six_planes /\
  exists f, filter_new env0 48000 6 true false = Ret f /\ twin_filters f (filter_create_c (libc_of env0) 48000 6 true) /\ f_channels f = 6.
Proof. exact stream_case. Qed.
Theorem C83_reset_peaks : forall f g, twin_filters f g -> twin_filters (filter_reset_peaks f) (filter_reset_peaks_c g).
Proof. exact reset_twins. Qed.
(** Where the processor has no flush-to-zero the two differ: the Rust code clears states below 2^-52 after each call, the C code
    only those below 2^-1022.  After a single sample of 2^-60 and then silence Rust writes zero and C does not. *)
Theorem C83_flush_refuted : exists f l g m, click_rust = Ret (f, l) /\ click_c = Ret (g, m) /\ length l = 2 /\ length m = 2 /\
  f64_le f64_zero (nth 1 l f64_nan) = true /\ f64_lt (nth 1 m f64_nan) f64_zero = true.
Proof. exact click_differs. Qed.

(** * Assumptions *)
Print Assumptions C82_gating_block.
Print Assumptions C83_create.
Print Assumptions C83_formats.
Print Assumptions C83_process.
Print Assumptions C83_stream.
Print Assumptions C83_reset_peaks.
Print Assumptions C83_flush_refuted.
