(** Model of the C reference code in tests/c, continued: the whole of filter.c, with its true peaks. *)
From Coq Require Import ZArith NArith List Bool Arith.
From Verif Require Import Prelude Float Env Utils Filter Cref Cref_filter Cref_interp.
Import ListNotations.

(** tests/c/filter.c 24-41: struct filter: the fields of [cfilter], and the true peaks; NULL is None *)
Record cmeter := {
  cm_filter : cfilter;
  cm_tp : option ctrue_peak;
  cm_true_peak : list f64;
}.
(** tests/c/filter.c 43-113: filter_create_c *)
Definition meter_create_c (L : libc) (rate : N) (channels : nat) (calculate_sample_peak calculate_true_peak : bool) : cmeter :=
  {| cm_filter := filter_create_c L rate channels calculate_sample_peak;
     cm_tp := if calculate_true_peak then true_peak_create_c L rate channels else None;
     cm_true_peak := repeat f64_zero channels |}.
(** tests/c/filter.c 157-210: filter_process_<type>_c.  Simplification: the true peaks (182-184) are computed before the sample
    peaks (167-181); neither looks at the other's fields, and what stops one is [UB] in both orders. *)
Definition meter_process_c {T} (P : platform) (t : ctype T) (m : cmeter) (frames : nat) (src : list T)
    (audio_data : list f64) (offset : nat) (channel_map : list N) : outcome (cmeter * list f64) :=
  '(tp, true_peak) <-
    (match cm_tp m with
     | Some tp => '(tp, pks) <- true_peak_check_c P t tp frames src (cm_true_peak m) ;; Ret (Some tp, pks)
     | None => Ret (None, cm_true_peak m)
     end) ;;
  '(f, audio_data) <- filter_process_c P t (cm_filter m) frames src audio_data offset channel_map ;;
  Ret ({| cm_filter := f; cm_tp := tp; cm_true_peak := true_peak |}, audio_data).
(** tests/c/filter.c 130-137: filter_reset_peaks_c *)
Definition meter_reset_peaks_c (m : cmeter) : cmeter :=
  {| cm_filter := filter_reset_peaks_c (cm_filter m); cm_tp := cm_tp m;
     cm_true_peak := map (fun _ => f64_zero) (cm_true_peak m) |}.
