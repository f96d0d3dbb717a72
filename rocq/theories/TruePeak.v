(** Model of src/true_peak.rs (lines 22-178) *)
From Coq Require Import ZArith NArith List Bool Arith.
From Verif Require Import Prelude Float Env Utils Interp.
Import ListNotations.

(** src/true_peak.rs 30-43: enum UpsamplingScanner.  The ten specialised
    variants {Mono,Stereo,Quad,Surround,OctoSurround} x {2F,4F} are one
    constructor with the channel count (taps/factor are fields of the
    interpolator); Generic2F and Generic4F are the other. *)
Inductive scanner :=
| Specialised (channels : nat) (i : interpf)
| Generic (is : list interpf).

(** src/true_peak.rs 61-69: the channel counts with a specialised variant *)
Definition specialised_channels (c : nat) : bool :=
  (c =? 1) || (c =? 2) || (c =? 4) || (c =? 6) || (c =? 8).

(** src/true_peak.rs 46-73: UpsamplingScanner::new *)
Definition scanner_new (E : ext) (rate : N) (channels : nat) : outcome (option scanner) :=
  let go (taps factor : nat) :=
    if specialised_channels channels then
      i <- interpf_new E taps factor channels ;; Ret (Some (Specialised channels i))
    else
      i <- interpf_new E taps factor 1 ;; Ret (Some (Generic (repeat i channels))) in
  if (rate <? 96000)%N then go 12 4
  else if (rate <? 192000)%N then go 24 2
  else Ret None.

(** src/true_peak.rs 86-91: one frame in the specialised variant *)
Definition spec_step (P : platform) (st : interpf * list f32) (frame : list f32)
  : outcome (interpf * list f32) :=
  let '(i, peaks) := st in
  '(i', outs) <- interpolate P i frame ;;
  Ret (i', fold_left (fun pk nf => frame_retain_max pk (map f32_abs nf)) outs peaks).

(** src/true_peak.rs 80-96: tp_specialized_impl! *)
Definition check_specialised {T} (P : platform) (S : sample T) (channels : nat) (i : interpf)
    (src : samples T) (peaks : list f64) : outcome (interpf * list f64) :=
  assert! ((s_channels src =? channels) && (length peaks =? channels)) ;;
  let tmp := map (fun p => ftz32 P (f32_of_f64 p)) peaks in
  frames <- s_foreach_frame src channels ;;
  '(i', tmp') <- ofold (spec_step P) (i, tmp) (map (map (s_f32 S P)) frames) ;;
  Ret (i', map f64_of_f32 tmp').

(** src/true_peak.rs 104-111: one sample in the generic variant.  The pattern
    `[new_sample]` on a one-channel frame. *)
Definition gen_step (P : platform) (st : interpf * f64) (s : f32) : outcome (interpf * f64) :=
  let '(i, peak) := st in
  '(i', outs) <- interpolate P i [s] ;;
  Ret (i', fold_left
             (fun pk nf => match nf with
                           | v :: _ => let n := f64_of_f32 (f32_abs v) in
                                       if f64_gt n pk then n else pk
                           | [] => pk
                           end) outs peak).

(** src/true_peak.rs 101-112: the loop over channels (first number [c]) *)
Fixpoint generic_loop {T} (P : platform) (S : sample T) (src : samples T) (c : nat)
    (is : list interpf) (peaks : list f64) : outcome (list interpf * list f64) :=
  match is, peaks with
  | i :: is, pk :: peaks =>
      xs <- s_foreach_sample src c ;;
      '(i', pk') <- ofold (gen_step P) (i, pk) (map (s_f32 S P) xs) ;;
      '(is', pks') <- generic_loop P S src (c + 1) is peaks ;;
      Ret (i' :: is', pk' :: pks')
  | _, _ => Ret (is, peaks)
  end.

(** src/true_peak.rs 98-114: tp_generic_impl! *)
Definition check_generic {T} (P : platform) (S : sample T) (is : list interpf)
    (src : samples T) (peaks : list f64) : outcome (list interpf * list f64) :=
  assert! ((s_channels src =? length is) && (s_channels src =? length peaks)) ;;
  generic_loop P S src 0 is peaks.

(** src/true_peak.rs 75-130 and 166-172: check_true_peak *)
Definition check_true_peak {T} (P : platform) (S : sample T) (sc : scanner)
    (src : samples T) (peaks : list f64) : outcome (scanner * list f64) :=
  match sc with
  | Specialised channels i =>
      '(i', pk) <- check_specialised P S channels i src peaks ;;
      Ret (Specialised channels i', pk)
  | Generic is =>
      '(is', pk) <- check_generic P S is src peaks ;;
      Ret (Generic is', pk)
  end.

(** src/true_peak.rs 132-147 and 162-164: reset *)
Definition scanner_reset (sc : scanner) : outcome scanner :=
  match sc with
  | Specialised channels i => i' <- interpf_reset i ;; Ret (Specialised channels i')
  | Generic is => is' <- omap interpf_reset is ;; Ret (Generic is')
  end.

(** src/true_peak.rs 174-177: TruePeak::seed (peaks go to a temporary) *)
Definition scanner_seed {T} (P : platform) (S : sample T) (sc : scanner) (src : samples T)
  : outcome scanner :=
  '(sc', _) <- check_true_peak P S sc src (repeat f64_zero (s_channels src)) ;;
  Ret sc'.
