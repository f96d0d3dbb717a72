(** Cases for C82 and C83, and where the two filters differ. *)
From Coq Require Import List Arith NArith ZArith Lia Bool.
From Verif Require Import Prelude Float Spec Env Utils Filter Capi Cref Cref_filter Spec_cref Spec_cref_filter Instance Cref_format_proofs.
Import ListNotations.

(** a C library with the functions of [E] *)
Definition libc_of (E : ext) : libc := {| c_pow := e_powf E; c_log := fun x => x; c_tan := e_tan E; c_sin := e_sin E; c_cos := e_cos E; c_qsort := fun l => l |}.
Lemma libc_of_ok E : same_pow E (libc_of E) /\ same_tan E (libc_of E).
Proof. split; intros x; reflexivity. Qed.

(** 5.0 with an unused channel: three frames *)
Definition six : list channel := [Left; Right; Center; Unused; LeftSurround; DualMono].
Definition six_codes : list N := [1; 2; 3; 0; 4; 6]%N.
Definition six_planes : list (list f64) := map (fun c => map (fun i => f64_bin (10 * c + i) (-8)) [1; 2; 3]%Z) [1; 2; 3; 4; 5; 6]%Z.
Definition six_audio : list f64 := concat (map (fun i => map (fun c => f64_bin (10 * c + i) (-8)) [1; 2; 3; 4; 5; 6]%Z) [1; 2; 3]%Z).
Lemma six_ok : Forall2 code_of six six_codes /\ same_audio 6 3 six_audio six_planes.
Proof.
  split; [repeat constructor|]. split; [reflexivity|]. split; [reflexivity|]. split; [repeat constructor|].
  intros c i Hc Hi. do 6 (destruct c as [|c]; [do 3 (destruct i as [|i]; [do 2 eexists; repeat split; reflexivity|]); lia|]). lia.
Qed.

(** On a processor that keeps subnormals, the tail of a click of 2^-60 *)
Definition click_calls : list (list f64 * nat * nat) := [([f64_bin 1 (-60)], 1, 0); ([f64_zero], 1, 1)].
Definition click_rust : outcome (filter * list f64) := f <- filter_new env0 48000 1 false false ;;
  ofold (fun '(f, dest) '(src, n, i) => filter_process aarch64 smp_f64 f (Interleaved src 1) dest i [Left]) (f, [f64_zero; f64_zero]) click_calls.
Definition click_c : outcome (cfilter * list f64) :=
  ofold (fun '(g, dest) '(src, n, i) => filter_process_c aarch64 c_double g n src dest (i * 1) [1%N]) (filter_create_c (libc_of env0) 48000 1 false, [f64_zero; f64_zero]) click_calls.
Lemma returned {F} (test : list f64 -> bool) (o : outcome (F * list f64)) : match o with Ret (_, l) => test l | _ => false end = true -> exists f l, o = Ret (f, l) /\ test l = true.
Proof. destruct o as [(f, l)| | |]; try discriminate. intros H. exists f, l. auto. Qed.
Lemma click_differs : exists f l g m, click_rust = Ret (f, l) /\ click_c = Ret (g, m) /\ length l = 2 /\ length m = 2 /\
  f64_le f64_zero (nth 1 l f64_nan) = true /\ f64_lt (nth 1 m f64_nan) f64_zero = true.
Proof.
  destruct (returned (fun l => Nat.eqb (length l) 2 && f64_le f64_zero (nth 1 l f64_nan)) click_rust) as (f & l & E1 & T1).
  { vm_cast_no_check (eq_refl true). }
  destruct (returned (fun m => Nat.eqb (length m) 2 && f64_lt (nth 1 m f64_nan) f64_zero) click_c) as (g & m & E2 & T2).
  { vm_cast_no_check (eq_refl true). }
  apply andb_prop in T1, T2. destruct T1 as (L1 & Z1), T2 as (L2 & Z2).
  apply Nat.eqb_eq in L1, L2. exists f, l, g, m. auto 10.
Qed.

Lemma stream_case : p_ftz x86_64 = true /\ same_scale smp_i16 c_short /\ Forall2 code_of six six_codes /\
  Forall (reads_same x86_64 smp_i16 c_short) [1; -1; 100; 200; -32768; 32767]%Z /\ same_audio 6 3 six_audio six_planes /\
  exists f, filter_new env0 48000 6 true false = Ret f /\ twin_filters f (filter_create_c (libc_of env0) 48000 6 true) /\ f_channels f = 6.
Proof.
  split; [reflexivity|]. split; [apply scales|]. split; [apply six_ok|].
  split; [repeat constructor; apply reads_i16; unfold in_i16; lia|]. split; [apply six_ok|].
  apply create_twins; try apply libc_of_ok; lia.
Qed.
