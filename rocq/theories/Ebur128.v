(** Model of src/ebur128.rs (lines 22-992) *)
From Coq Require Import ZArith NArith List Bool Arith.
From Verif Require Import Prelude Float Env Utils History Interp TruePeak Filter.
Import ListNotations.

(** src/ebur128.rs 53-75: bitflags Mode (u8) *)
Definition mode := N.
Definition MODE_M : mode := 1%N.
Definition MODE_S : mode := 3%N.
Definition MODE_I : mode := 5%N.
Definition MODE_LRA : mode := 11%N.
Definition MODE_SAMPLE_PEAK : mode := 17%N.
Definition MODE_TRUE_PEAK : mode := 49%N.
Definition MODE_HISTOGRAM : mode := 64%N.
Definition MODE_ALL : mode := 127%N.
(** bitflags contains() and from_bits_truncate() *)
Definition contains (m flag : mode) : bool := N.eqb (N.land m flag) flag.
Definition from_bits_truncate (bits : N) : mode := N.land bits MODE_ALL.

(** src/ebur128.rs 223-256: default_channel_map *)
Definition default_channel_map (channels : nat) : list channel :=
  match channels with
  | 4 => [Left; Right; LeftSurround; RightSurround]
  | 5 => [Left; Right; Center; LeftSurround; RightSurround]
  | _ =>
      let set_channels := Nat.min channels 6 in
      firstn set_channels [Left; Right; Center; Unused; LeftSurround; RightSurround]
        ++ repeat Unused (channels - set_channels)
  end.

(** src/ebur128.rs 258-259 *)
Definition MAX_RATE : N := 2822400%N.
Definition MAX_CHANNELS : N := 64%N.

(** usize::checked_mul / checked_add *)
Definition checked (P : platform) (n : N) : option N :=
  if (n <=? p_usize_max P)%N then Some n else None.

(** `vec![0.0; n]` of f64: panics with "capacity overflow" when the size in
    bytes exceeds isize::MAX (exhausted memory is not modelled). *)
Definition alloc_f64 (P : platform) (n : N) : outcome (list f64) :=
  if (8 * n <=? p_usize_max P / 2)%N then Ret (repeat f64_zero (N.to_nat n)) else Panic.

(** src/ebur128.rs 265, 301, 462: samples_in_100ms *)
Definition samples_in_100ms (rate : N) : N := ((rate + 5) / 10)%N.

(** src/ebur128.rs 265-281: the length computed by allocate_audio_data *)
Definition audio_data_len (P : platform) (channels rate window : N) : result N :=
  let s100 := samples_in_100ms rate in
  match checked P (rate * window) with
  | None => Err NoMem
  | Some p =>
      let frames := (p / 1000)%N in
      let rounded :=
        if (frames mod s100 =? 0)%N then Some frames
        else match checked P (frames + s100) with
             | None => None
             | Some f => Some (f - frames mod s100)%N
             end in
      match rounded with
      | None => Err NoMem
      | Some frames =>
          match checked P (frames * channels) with
          | None => Err NoMem
          | Some n => Ok n
          end
      end
  end.

(** src/ebur128.rs 264-285: allocate_audio_data *)
Definition allocate_audio_data (P : platform) (channels rate window : N)
  : outcome (result (list f64)) :=
  match audio_data_len P channels rate window with
  | Err e => Ret (Err e)
  | Ok n => l <- alloc_f64 P n ;; Ret (Ok l)
  end.

(** src/ebur128.rs 152-195: struct EbuR128.  channels, indices and frame counts
    are nat, rate / window / history are N. *)
Record ebur128 := {
  e_mode : mode;
  e_rate : N;
  e_channels : nat;
  e_audio : list f64;
  e_index : nat;
  e_needed : nat;
  e_cmap : list channel;
  e_s100 : nat;
  e_filter : filter;
  e_block : history;
  e_short : history;
  e_counter : nat;
  e_sample_peak : list f64;
  e_true_peak : list f64;
  e_window : N;
  e_history : N;
}.

(** src/ebur128.rs 303-309: default window for a mode *)
Definition window_of_mode (m : mode) : option N :=
  if contains m MODE_S then Some 3000%N
  else if contains m MODE_M then Some 400%N
  else None.

(** src/ebur128.rs 289-295, 439-445: parameter check shared by new and
    change_parameters *)
Definition params_ok (channels rate : N) : bool :=
  negb ((channels =? 0)%N || (MAX_CHANNELS <? channels)%N)
  && ((16 <=? rate)%N && (rate <=? MAX_RATE)%N).

(** src/ebur128.rs 288-352: EbuR128::new *)
Definition ebur128_new (P : platform) (E : ext) (channels rate : N) (m : mode)
  : outcome (result ebur128) :=
  if negb (params_ok channels rate) then Ret (Err NoMem)
  else
    let hist := p_usize_max P in
    match window_of_mode m with
    | None => Ret (Err InvalidMode)
    | Some window =>
        r <- allocate_audio_data P channels rate window ;;
        match r with
        | Err e => Ret (Err e)
        | Ok audio =>
            let ch := N.to_nat channels in
            let s100 := N.to_nat (samples_in_100ms rate) in
            f <- filter_new E rate ch (contains m MODE_SAMPLE_PEAK) (contains m MODE_TRUE_PEAK) ;;
            Ret (Ok {|
              e_mode := m; e_rate := rate; e_channels := ch;
              e_audio := audio; e_index := 0; e_needed := s100 * 4;
              e_cmap := default_channel_map ch; e_s100 := s100; e_filter := f;
              e_block := history_new (contains m MODE_HISTOGRAM) (hist / 100);
              e_short := history_new (contains m MODE_HISTOGRAM) (hist / 3000);
              e_counter := 0;
              e_sample_peak := repeat f64_zero ch;
              e_true_peak := repeat f64_zero ch;
              e_window := window; e_history := hist |})
        end
    end.

(** * Field updates (record functional update, no Rust counterpart) *)
Definition with_cmap (e : ebur128) (m : list channel) : ebur128 :=
  {| e_mode := e_mode e; e_rate := e_rate e; e_channels := e_channels e; e_audio := e_audio e;
     e_index := e_index e; e_needed := e_needed e; e_cmap := m; e_s100 := e_s100 e;
     e_filter := e_filter e; e_block := e_block e; e_short := e_short e;
     e_counter := e_counter e; e_sample_peak := e_sample_peak e; e_true_peak := e_true_peak e;
     e_window := e_window e; e_history := e_history e |}.
Definition with_filter (e : ebur128) (f : filter) : ebur128 :=
  {| e_mode := e_mode e; e_rate := e_rate e; e_channels := e_channels e; e_audio := e_audio e;
     e_index := e_index e; e_needed := e_needed e; e_cmap := e_cmap e; e_s100 := e_s100 e;
     e_filter := f; e_block := e_block e; e_short := e_short e;
     e_counter := e_counter e; e_sample_peak := e_sample_peak e; e_true_peak := e_true_peak e;
     e_window := e_window e; e_history := e_history e |}.
Definition with_audio_filter_index (e : ebur128) (f : filter) (audio : list f64) (index : nat)
  : ebur128 :=
  {| e_mode := e_mode e; e_rate := e_rate e; e_channels := e_channels e; e_audio := audio;
     e_index := index; e_needed := e_needed e; e_cmap := e_cmap e; e_s100 := e_s100 e;
     e_filter := f; e_block := e_block e; e_short := e_short e;
     e_counter := e_counter e; e_sample_peak := e_sample_peak e; e_true_peak := e_true_peak e;
     e_window := e_window e; e_history := e_history e |}.
Definition with_block (e : ebur128) (h : history) : ebur128 :=
  {| e_mode := e_mode e; e_rate := e_rate e; e_channels := e_channels e; e_audio := e_audio e;
     e_index := e_index e; e_needed := e_needed e; e_cmap := e_cmap e; e_s100 := e_s100 e;
     e_filter := e_filter e; e_block := h; e_short := e_short e;
     e_counter := e_counter e; e_sample_peak := e_sample_peak e; e_true_peak := e_true_peak e;
     e_window := e_window e; e_history := e_history e |}.
Definition with_short_counter (e : ebur128) (h : history) (counter : nat) : ebur128 :=
  {| e_mode := e_mode e; e_rate := e_rate e; e_channels := e_channels e; e_audio := e_audio e;
     e_index := e_index e; e_needed := e_needed e; e_cmap := e_cmap e; e_s100 := e_s100 e;
     e_filter := e_filter e; e_block := e_block e; e_short := h;
     e_counter := counter; e_sample_peak := e_sample_peak e; e_true_peak := e_true_peak e;
     e_window := e_window e; e_history := e_history e |}.
Definition with_index_needed (e : ebur128) (index needed : nat) : ebur128 :=
  {| e_mode := e_mode e; e_rate := e_rate e; e_channels := e_channels e; e_audio := e_audio e;
     e_index := index; e_needed := needed; e_cmap := e_cmap e; e_s100 := e_s100 e;
     e_filter := e_filter e; e_block := e_block e; e_short := e_short e;
     e_counter := e_counter e; e_sample_peak := e_sample_peak e; e_true_peak := e_true_peak e;
     e_window := e_window e; e_history := e_history e |}.
Definition with_peaks (e : ebur128) (sp tp : list f64) : ebur128 :=
  {| e_mode := e_mode e; e_rate := e_rate e; e_channels := e_channels e; e_audio := e_audio e;
     e_index := e_index e; e_needed := e_needed e; e_cmap := e_cmap e; e_s100 := e_s100 e;
     e_filter := e_filter e; e_block := e_block e; e_short := e_short e;
     e_counter := e_counter e; e_sample_peak := sp; e_true_peak := tp;
     e_window := e_window e; e_history := e_history e |}.

(** * Setters.  Each returns the result and the state left behind. *)

(** src/ebur128.rs 400, 425: DualMono is only allowed on channel 0 of mono *)
Definition dual_mono_bad (channels number : nat) (v : channel) : bool :=
  channel_eqb v DualMono && (negb (channels =? 1) || negb (number =? 0)).

(** src/ebur128.rs 395-406: set_channel *)
Definition set_channel (e : ebur128) (number : N) (v : channel) : outcome (result unit * ebur128) :=
  if (N.of_nat (e_channels e) <=? number)%N then Ret (Err InvalidChannelIndex, e)
  else if dual_mono_bad (e_channels e) (N.to_nat number) v then Ret (Err InvalidChannelIndex, e)
  else m <- set_idx (e_cmap e) (N.to_nat number) v ;; Ret (Ok tt, with_cmap e m).

(** src/ebur128.rs 424-428: the validation loop of set_channel_map *)
Fixpoint map_has_bad_dual_mono (channels number : nat) (m : list channel) : bool :=
  match m with
  | [] => false
  | v :: t => dual_mono_bad channels number v || map_has_bad_dual_mono channels (S number) t
  end.

(** src/ebur128.rs 419-432: set_channel_map; copy_from_slice panics when the
    lengths differ *)
Definition set_channel_map (e : ebur128) (m : list channel) : outcome (result unit * ebur128) :=
  if negb (length m =? e_channels e) then Ret (Err InvalidChannelIndex, e)
  else if map_has_bad_dual_mono (e_channels e) 0 m then Ret (Err InvalidChannelIndex, e)
  else assert! (length (e_cmap e) =? length m) ;; Ret (Ok tt, with_cmap e m).

(** src/ebur128.rs 438-480: change_parameters *)
Definition change_parameters (P : platform) (E : ext) (e : ebur128) (channels rate : N)
  : outcome (result unit * ebur128) :=
  if negb (params_ok channels rate) then Ret (Err NoMem, e)
  else if (e_rate e =? rate)%N && (N.of_nat (e_channels e) =? channels)%N then Ret (Ok tt, e)
  else
    r <- allocate_audio_data P channels rate (e_window e) ;;
    match r with
    | Err er => Ret (Err er, e)
    | Ok audio =>
        let ch := N.to_nat channels in
        let same := (N.of_nat (e_channels e) =? channels)%N in
        let s100 := if (e_rate e =? rate)%N then e_s100 e
                    else N.to_nat (samples_in_100ms rate) in
        f <- filter_new E rate ch (contains (e_mode e) MODE_SAMPLE_PEAK)
                        (contains (e_mode e) MODE_TRUE_PEAK) ;;
        Ret (Ok tt, {|
          e_mode := e_mode e; e_rate := rate; e_channels := ch;
          e_audio := audio; e_index := 0; e_needed := s100 * 4;
          e_cmap := if same then e_cmap e else default_channel_map ch;
          e_s100 := s100; e_filter := f;
          e_block := e_block e; e_short := e_short e; e_counter := 0;
          e_sample_peak := if same then e_sample_peak e else repeat f64_zero ch;
          e_true_peak := if same then e_true_peak e else repeat f64_zero ch;
          e_window := e_window e; e_history := e_history e |})
    end.

(** src/ebur128.rs 488-494, 525-531: clamping by mode *)
Definition clamp_ms (m : mode) (ms : N) : N :=
  if contains m MODE_S then N.max ms 3000
  else if contains m MODE_M then N.max ms 400
  else ms.

(** src/ebur128.rs 487-511: set_max_window *)
Definition set_max_window (P : platform) (e : ebur128) (window : N)
  : outcome (result unit * ebur128) :=
  let window := clamp_ms (e_mode e) window in
  if (window =? e_window e)%N then Ret (Ok tt, e)
  else
    r <- allocate_audio_data P (N.of_nat (e_channels e)) (e_rate e) window ;;
    match r with
    | Err er => Ret (Err er, e)
    | Ok audio =>
        Ret (Ok tt, {|
          e_mode := e_mode e; e_rate := e_rate e; e_channels := e_channels e;
          e_audio := audio; e_index := 0; e_needed := e_s100 e * 4;
          e_cmap := e_cmap e; e_s100 := e_s100 e; e_filter := e_filter e;
          e_block := e_block e; e_short := e_short e; e_counter := 0;
          e_sample_peak := e_sample_peak e; e_true_peak := e_true_peak e;
          e_window := window; e_history := e_history e |})
    end.

(** src/ebur128.rs 524-544: set_max_history (always Ok) *)
Definition set_max_history (e : ebur128) (h : N) : result unit * ebur128 :=
  let h := clamp_ms (e_mode e) h in
  if (e_history e =? h)%N then (Ok tt, e)
  else
    (Ok tt, {|
      e_mode := e_mode e; e_rate := e_rate e; e_channels := e_channels e;
      e_audio := e_audio e; e_index := e_index e; e_needed := e_needed e;
      e_cmap := e_cmap e; e_s100 := e_s100 e; e_filter := e_filter e;
      e_block := history_set_max_size (e_block e) (h / 100);
      e_short := history_set_max_size (e_short e) (h / 3000);
      e_counter := e_counter e;
      e_sample_peak := e_sample_peak e; e_true_peak := e_true_peak e;
      e_window := e_window e; e_history := h |}).

(** src/ebur128.rs 547-563: reset *)
Definition ebur128_reset (e : ebur128) : outcome ebur128 :=
  f <- filter_reset (e_filter e) ;;
  Ret {|
    e_mode := e_mode e; e_rate := e_rate e; e_channels := e_channels e;
    e_audio := map (fun _ => f64_zero) (e_audio e); e_index := 0; e_needed := e_s100 e * 4;
    e_cmap := e_cmap e; e_s100 := e_s100 e; e_filter := f;
    e_block := history_reset (e_block e); e_short := history_reset (e_short e); e_counter := 0;
    e_sample_peak := map (fun _ => f64_zero) (e_sample_peak e);
    e_true_peak := map (fun _ => f64_zero) (e_true_peak e);
    e_window := e_window e; e_history := e_history e |}.

(** * Queries *)

(** src/ebur128.rs 799-810: energy_in_interval *)
Definition energy_in_interval (e : ebur128) (interval_frames : nat) : outcome (result f64) :=
  if length (e_audio e) / e_channels e <? interval_frames then Ret (Err InvalidMode)
  else r <- calc_gating_block interval_frames (e_audio e) (e_index e) (e_cmap e) ;; Ret (Ok r).

(** src/ebur128.rs 816-820, 831-835, 849-853: energy to reported loudness *)
Definition loudness_of_energy (E : ext) (r : result f64) : result f64 :=
  match r with
  | Err er => Err er
  | Ok energy => if f64_le energy f64_zero then Ok (f64_neg f64_inf)
                 else Ok (energy_to_loudness E energy)
  end.

(** src/ebur128.rs 813-821: loudness_momentary *)
Definition loudness_momentary (E : ext) (e : ebur128) : outcome (result f64) :=
  r <- energy_in_interval e (e_s100 e * 4) ;; Ret (loudness_of_energy E r).

(** src/ebur128.rs 823-825: energy_shortterm *)
Definition energy_shortterm (e : ebur128) : outcome (result f64) :=
  energy_in_interval e (e_s100 e * 30).

(** src/ebur128.rs 828-836: loudness_shortterm *)
Definition loudness_shortterm (E : ext) (e : ebur128) : outcome (result f64) :=
  r <- energy_shortterm e ;; Ret (loudness_of_energy E r).

(** src/ebur128.rs 842-854: loudness_window *)
Definition loudness_window (P : platform) (E : ext) (e : ebur128) (window : N)
  : outcome (result f64) :=
  match checked P (e_rate e * window) with
  | None => Ret (Err InvalidMode)
  | Some p => r <- energy_in_interval e (N.to_nat (p / 1000)) ;; Ret (loudness_of_energy E r)
  end.

(** src/ebur128.rs 764-770: loudness_global *)
Definition loudness_global (P : platform) (E : ext) (e : ebur128) : outcome (result f64) :=
  if negb (contains (e_mode e) MODE_I) then Ret (Err InvalidMode)
  else v <- gated_loudness P E (e_block e) ;; Ret (Ok v).

(** src/ebur128.rs 781-797: loudness_global_multiple (collect stops at the first error) *)
Definition loudness_global_multiple (P : platform) (E : ext) (es : list ebur128)
  : outcome (result f64) :=
  if forallb (fun e => contains (e_mode e) MODE_I) es
  then v <- gated_loudness_multiple P E (map e_block es) ;; Ret (Ok v)
  else Ret (Err InvalidMode).

(** src/ebur128.rs 859-865: loudness_range *)
Definition loudness_range (P : platform) (E : ext) (e : ebur128) : outcome (result f64) :=
  if negb (contains (e_mode e) MODE_LRA) then Ret (Err InvalidMode)
  else v <- history_loudness_range P E (e_short e) ;; Ret (Ok v).

(** src/ebur128.rs 871-888: loudness_range_multiple *)
Definition loudness_range_multiple (P : platform) (E : ext) (es : list ebur128)
  : outcome (result f64) :=
  if forallb (fun e => contains (e_mode e) MODE_LRA) es
  then history_loudness_range_multiple P E (map e_short es)
  else Ret (Err InvalidMode).

(** src/ebur128.rs 893-903 / 909-919: sample_peak, prev_sample_peak *)
Definition peak_query (e : ebur128) (flag : mode) (number : N) (get : nat -> outcome f64)
  : outcome (result f64) :=
  if negb (contains (e_mode e) flag) then Ret (Err InvalidMode)
  else if (N.of_nat (e_channels e) <=? number)%N then Ret (Err InvalidChannelIndex)
  else v <- get (N.to_nat number) ;; Ret (Ok v).
Definition sample_peak (e : ebur128) (number : N) : outcome (result f64) :=
  peak_query e MODE_SAMPLE_PEAK number (idx (e_sample_peak e)).
Definition prev_sample_peak (e : ebur128) (number : N) : outcome (result f64) :=
  peak_query e MODE_SAMPLE_PEAK number (idx (f_sample_peak (e_filter e))).

(** src/ebur128.rs 940-944, 970-974: the larger of sample peak and true peak *)
Definition max_peak (sp tp : list f64) (c : nat) : outcome f64 :=
  s <- idx sp c ;; t <- idx tp c ;; Ret (if f64_gt s t then s else t).
(** src/ebur128.rs 931-945 / 958-975: true_peak, prev_true_peak *)
Definition true_peak (e : ebur128) (number : N) : outcome (result f64) :=
  peak_query e MODE_TRUE_PEAK number (max_peak (e_sample_peak e) (e_true_peak e)).
Definition prev_true_peak (e : ebur128) (number : N) : outcome (result f64) :=
  peak_query e MODE_TRUE_PEAK number
    (max_peak (f_sample_peak (e_filter e)) (f_true_peak (e_filter e))).

(** src/ebur128.rs 978-984: relative_threshold *)
Definition relative_threshold (P : platform) (E : ext) (e : ebur128) : result f64 :=
  if negb (contains (e_mode e) MODE_I) then Err InvalidMode
  else Ok (history_relative_threshold P E (e_block e)).

(** src/ebur128.rs 987-991: gating_block_count_and_energy *)
Definition gating_block_count_and_energy (P : platform) (E : ext) (e : ebur128)
  : outcome (option (N * f64)) :=
  r <- history_gating_block_count_and_energy P E (e_block e) ;;
  Ret (match r with inl v => Some v | inr _ => None end).

(** * Feeding audio *)

(** src/ebur128.rs 587-592, 625-630: filter the frames into the ring and advance
    the index *)
Definition process_into_ring {T} (P : platform) (S : sample T) (e : ebur128) (current : samples T)
    (n : nat) : outcome ebur128 :=
  '(f, audio) <- filter_process P S (e_filter e) current (e_audio e) (e_index e) (e_cmap e) ;;
  Ret (with_audio_filter_index e f audio (e_index e + n)).

(** src/ebur128.rs 597-605 *)
Definition gating_update (e : ebur128) : outcome ebur128 :=
  if contains (e_mode e) MODE_I then
    energy <- calc_gating_block (e_s100 e * 4) (e_audio e) (e_index e) (e_cmap e) ;;
    h <- history_add (e_block e) energy ;;
    Ret (with_block e h)
  else Ret e.

(** src/ebur128.rs 607-614; [Err] is the early return of `?` *)
Definition shortterm_update (e : ebur128) : outcome (result unit * ebur128) :=
  if contains (e_mode e) MODE_LRA then
    let e := with_short_counter e (e_short e) (e_counter e + e_needed e) in
    if e_counter e =? e_s100 e * 30 then
      r <- energy_shortterm e ;;
      match r with
      | Err er => Ret (Err er, e)
      | Ok energy =>
          h <- history_add (e_short e) energy ;;
          Ret (Ok tt, with_short_counter e h (e_s100 e * 20))
      end
    else Ret (Ok tt, e)
  else Ret (Ok tt, e).

(** src/ebur128.rs 616-621 *)
Definition advance_block (e : ebur128) : ebur128 :=
  with_index_needed e
    (if e_index e =? length (e_audio e) / e_channels e then 0 else e_index e) (e_s100 e).

(** src/ebur128.rs 581-640: the loop (bounded by [fuel] iterations) *)
Fixpoint add_loop {T} (P : platform) (S : sample T) (fuel : nat) (e : ebur128) (src : samples T)
  : outcome (result unit * ebur128) :=
  if s_frames src =? 0 then Ret (Ok tt, e)
  else match fuel with
  | O => OutOfFuel
  | Datatypes.S fuel =>
      let num_frames := s_frames src in
      if e_needed e <=? num_frames then
        '(current, next) <- s_split_at src (e_needed e) ;;
        e <- process_into_ring P S e current (e_needed e) ;;
        e <- gating_update e ;;
        '(r, e) <- shortterm_update e ;;
        match r with
        | Err er => Ret (Err er, e)
        | Ok _ => add_loop P S fuel (advance_block e) next
        end
      else
        '(current, next) <- s_split_at src num_frames ;;
        e <- process_into_ring P S e current num_frames ;;
        let e := if contains (e_mode e) MODE_LRA
                 then with_short_counter e (e_short e) (e_counter e + num_frames) else e in
        needed <- sub_usize (e_needed e) num_frames ;;
        add_loop P S fuel (with_index_needed e (e_index e) needed) next
  end.

(** src/ebur128.rs 642-658: zip of overall and per-call peaks *)
Definition retain_peaks (overall prev : list f64) : list f64 :=
  map2 (fun o p => if f64_gt p o then p else o) overall prev
    ++ skipn (length prev) overall.

(** src/ebur128.rs 567-661: add_frames *)
Definition add_frames {T} (P : platform) (S : sample T) (e : ebur128) (src : samples T)
  : outcome (result unit * ebur128) :=
  if s_frames src =? 0 then Ret (Ok tt, e)
  else if e_channels e =? 0 then Ret (Err NoMem, e)
  else
    let e := with_filter e (filter_reset_peaks (e_filter e)) in
    '(r, e) <- add_loop P S (s_frames src) e src ;;
    match r with
    | Err er => Ret (Err er, e)
    | Ok _ =>
        Ret (Ok tt, with_peaks e (retain_peaks (e_sample_peak e) (f_sample_peak (e_filter e)))
                                 (retain_peaks (e_true_peak e) (f_true_peak (e_filter e))))
    end.

(** src/ebur128.rs 663-665: seed_frames *)
Definition seed_frames {T} (P : platform) (S : sample T) (e : ebur128) (src : samples T)
  : outcome ebur128 :=
  f <- filter_seed P S (e_filter e) src (e_cmap e) ;; Ret (with_filter e f).

(** src/ebur128.rs 668-705: add_frames_* and add_frames_planar_* *)
Definition add_frames_interleaved {T} (P : platform) (S : sample T) (e : ebur128) (frames : list T)
  : outcome (result unit * ebur128) :=
  match interleaved_new frames (e_channels e) with
  | Err er => Ret (Err er, e)
  | Ok src => add_frames P S e src
  end.
Definition add_frames_planar {T} (P : platform) (S : sample T) (e : ebur128)
    (frames : list (list T)) : outcome (result unit * ebur128) :=
  match planar_new frames with
  | Err er => Ret (Err er, e)
  | Ok src => add_frames P S e src
  end.

(** src/ebur128.rs 709-761: seed_frames_* and seed_frames_planar_* *)
Definition seed_frames_interleaved {T} (P : platform) (S : sample T) (e : ebur128)
    (frames : list T) : outcome (result unit * ebur128) :=
  match interleaved_new frames (e_channels e) with
  | Err er => Ret (Err er, e)
  | Ok src => e <- seed_frames P S e src ;; Ret (Ok tt, e)
  end.
Definition seed_frames_planar {T} (P : platform) (S : sample T) (e : ebur128)
    (frames : list (list T)) : outcome (result unit * ebur128) :=
  match planar_new frames with
  | Err er => Ret (Err er, e)
  | Ok src => e <- seed_frames P S e src ;; Ret (Ok tt, e)
  end.

(** * Call sequences *)

(** A sample buffer as passed to one of the eight typed entry points. *)
Inductive audio :=
| AI16 (l : list Z) | AI32 (l : list Z) | AF32 (l : list f32) | AF64 (l : list f64)
| PI16 (l : list (list Z)) | PI32 (l : list (list Z))
| PF32 (l : list (list f32)) | PF64 (l : list (list f64)).

(** The public `&mut self` API *)
Inductive op :=
| OpSetChannel (number : N) (v : channel)
| OpSetChannelMap (m : list channel)
| OpChangeParameters (channels rate : N)
| OpSetMaxWindow (window : N)
| OpSetMaxHistory (h : N)
| OpReset
| OpAdd (a : audio)
| OpSeed (a : audio).

Definition step (P : platform) (E : ext) (e : ebur128) (o : op) : outcome (result unit * ebur128) :=
  match o with
  | OpSetChannel n v => set_channel e n v
  | OpSetChannelMap m => set_channel_map e m
  | OpChangeParameters c r => change_parameters P E e c r
  | OpSetMaxWindow w => set_max_window P e w
  | OpSetMaxHistory h => Ret (set_max_history e h)
  | OpReset => e <- ebur128_reset e ;; Ret (Ok tt, e)
  | OpAdd (AI16 l) => add_frames_interleaved P smp_i16 e l
  | OpAdd (AI32 l) => add_frames_interleaved P smp_i32 e l
  | OpAdd (AF32 l) => add_frames_interleaved P smp_f32 e l
  | OpAdd (AF64 l) => add_frames_interleaved P smp_f64 e l
  | OpAdd (PI16 l) => add_frames_planar P smp_i16 e l
  | OpAdd (PI32 l) => add_frames_planar P smp_i32 e l
  | OpAdd (PF32 l) => add_frames_planar P smp_f32 e l
  | OpAdd (PF64 l) => add_frames_planar P smp_f64 e l
  | OpSeed (AI16 l) => seed_frames_interleaved P smp_i16 e l
  | OpSeed (AI32 l) => seed_frames_interleaved P smp_i32 e l
  | OpSeed (AF32 l) => seed_frames_interleaved P smp_f32 e l
  | OpSeed (AF64 l) => seed_frames_interleaved P smp_f64 e l
  | OpSeed (PI16 l) => seed_frames_planar P smp_i16 e l
  | OpSeed (PI32 l) => seed_frames_planar P smp_i32 e l
  | OpSeed (PF32 l) => seed_frames_planar P smp_f32 e l
  | OpSeed (PF64 l) => seed_frames_planar P smp_f64 e l
  end.

(** A sequence of calls on one instance; results are collected, errors do not
    stop the caller. *)
Fixpoint run (P : platform) (E : ext) (e : ebur128) (os : list op)
  : outcome (list (result unit) * ebur128) :=
  match os with
  | [] => Ret ([], e)
  | o :: os =>
      '(r, e) <- step P E e o ;;
      '(rs, e) <- run P E e os ;;
      Ret (r :: rs, e)
  end.
