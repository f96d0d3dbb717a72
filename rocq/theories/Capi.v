(** Model of src/capi.rs.  Pointers handed in by the C caller are assumed valid
    (the C contract); buffers are given as the list of elements behind the
    pointer, and reading more elements than are there is [UB]. *)
From Coq Require Import ZArith NArith List Bool Arith.
From Verif Require Import Prelude Float Env Utils History Interp TruePeak Filter Ebur128.
Import ListNotations.

(** src/capi.rs 5-12: struct State *)
Record cstate := {
  cs_mode : Z;
  cs_channels : N;
  cs_samplerate : N;
  cs_internal : ebur128;
}.

(** src/capi.rs 62-70: impl From<Error> for i32 *)
Definition error_code (e : error) : Z :=
  match e with NoMem => 1 | InvalidMode => 2 | InvalidChannelIndex => 3 end.

(** `match r { Err(err) => err.into(), Ok(_) => 0 }` *)
Definition code {A} (r : result A) : Z :=
  match r with Ok _ => 0%Z | Err e => error_code e end.

(** `x as u32` *)
Definition as_u32 (x : N) : N := (x mod 4294967296)%N.
(** `mode as u8` for an i32 *)
Definition i32_as_u8 (m : Z) : N := Z.to_N (m mod 256).

(** src/capi.rs 15-20: ebur128_get_version *)
Definition c_get_version : Z * Z * Z := (1, 2, 6)%Z.

(** src/capi.rs 23-46: ebur128_init ([None] is the null pointer) *)
Definition c_init (P : platform) (E : ext) (channels samplerate : N) (m : Z)
  : outcome (option cstate) :=
  r <- ebur128_new P E channels (as_u32 samplerate) (from_bits_truncate (i32_as_u8 m)) ;;
  Ret (match r with
       | Err _ => None
       | Ok e => Some {| cs_mode := m; cs_channels := channels; cs_samplerate := samplerate;
                         cs_internal := e |}
       end).

Definition with_internal (s : cstate) (e : ebur128) : cstate :=
  {| cs_mode := cs_mode s; cs_channels := cs_channels s; cs_samplerate := cs_samplerate s;
     cs_internal := e |}.

(** src/capi.rs 84: transmute::<i32, Channel>; UB for values outside 0..31
    (discriminants of src/ebur128.rs 82-149) *)
Definition channel_table : list channel :=
  [Unused; Left; Right; Center; LeftSurround; RightSurround; DualMono; MpSC; MmSC; Mp060; Mm060;
   Mp090; Mm090; Mp135; Mm135; Mp180; Up000; Up030; Um030; Up045; Um045; Up090; Um090; Up110;
   Um110; Up135; Um135; Up180; Tp000; Bp000; Bp045; Bm045].
Definition transmute_channel (v : Z) : outcome channel :=
  if (v <? 0)%Z then UB
  else match nth_error channel_table (Z.to_nat v) with Some c => Ret c | None => UB end.

(** src/capi.rs 74-89: ebur128_set_channel *)
Definition c_set_channel (s : cstate) (number : N) (v : Z) : outcome (Z * cstate) :=
  ch <- transmute_channel v ;;
  '(r, e) <- set_channel (cs_internal s) number ch ;;
  Ret (code r, with_internal s e).

(** src/capi.rs 92-113: ebur128_change_parameters *)
Definition c_change_parameters (P : platform) (E : ext) (s : cstate) (channels samplerate : N)
  : outcome (Z * cstate) :=
  if (cs_channels s =? channels)%N && (cs_samplerate s =? samplerate)%N then Ret (4%Z, s)
  else
    '(r, e) <- change_parameters P E (cs_internal s) channels (as_u32 samplerate) ;;
    Ret (match r with
         | Err er => (error_code er, with_internal s e)
         | Ok _ => (0%Z, {| cs_mode := cs_mode s; cs_channels := channels;
                            cs_samplerate := samplerate; cs_internal := e |})
         end).

(** src/capi.rs 116-135: ebur128_set_max_window *)
Definition c_set_max_window (P : platform) (s : cstate) (window : N) : outcome (Z * cstate) :=
  if (u32_max <? window)%N then Ret (error_code NoMem, s)
  else if (e_window (cs_internal s) =? window)%N then Ret (4%Z, s)
  else
    '(r, e) <- set_max_window P (cs_internal s) (as_u32 window) ;;
    Ret (code r, with_internal s e).

(** src/capi.rs 138-157: ebur128_set_max_history *)
Definition c_set_max_history (s : cstate) (h : N) : Z * cstate :=
  if (u32_max <? h)%N then (error_code NoMem, s)
  else if (e_history (cs_internal s) =? h)%N then (4%Z, s)
  else
    let '(r, e) := set_max_history (cs_internal s) (as_u32 h) in
    (code r, with_internal s e).

(** src/capi.rs 160-245: ebur128_add_frames_{short,int,float,double} *)
Definition c_add_frames {T} (P : platform) (S : sample T) (s : cstate) (src : list T) (frames : N)
  : outcome (Z * cstate) :=
  match checked P (frames * cs_channels s) with
  | None => Ret (error_code NoMem, s)
  | Some n =>
      if (n <=? N.of_nat (length src))%N then
        '(r, e) <- add_frames_interleaved P S (cs_internal s) (firstn (N.to_nat n) src) ;;
        Ret (code r, with_internal s e)
      else UB
  end.

(** `match r { Err(err) => err.into(), Ok(val) => { *out = val; 0 } }`: the code
    and what is written to *out, if anything *)
Definition c_out (r : result f64) : Z * option f64 :=
  match r with Err e => (error_code e, None) | Ok v => (0%Z, Some v) end.

(** src/capi.rs 248-259, 262-279, 282-293, 296-307, 332-343, 346-363, 366-381,
    384-399, 402-417, 420-435, 438-449: the queries *)
Definition c_loudness_global (P : platform) (E : ext) (s : cstate) : outcome (Z * option f64) :=
  r <- loudness_global P E (cs_internal s) ;; Ret (c_out r).
Definition c_loudness_global_multiple (P : platform) (E : ext) (ss : list cstate)
  : outcome (Z * option f64) :=
  r <- loudness_global_multiple P E (map cs_internal ss) ;; Ret (c_out r).
Definition c_loudness_momentary (E : ext) (s : cstate) : outcome (Z * option f64) :=
  r <- loudness_momentary E (cs_internal s) ;; Ret (c_out r).
Definition c_loudness_shortterm (E : ext) (s : cstate) : outcome (Z * option f64) :=
  r <- loudness_shortterm E (cs_internal s) ;; Ret (c_out r).
Definition c_loudness_range (P : platform) (E : ext) (s : cstate) : outcome (Z * option f64) :=
  r <- loudness_range P E (cs_internal s) ;; Ret (c_out r).
Definition c_loudness_range_multiple (P : platform) (E : ext) (ss : list cstate)
  : outcome (Z * option f64) :=
  r <- loudness_range_multiple P E (map cs_internal ss) ;; Ret (c_out r).
Definition c_sample_peak (s : cstate) (number : N) : outcome (Z * option f64) :=
  r <- sample_peak (cs_internal s) number ;; Ret (c_out r).
Definition c_prev_sample_peak (s : cstate) (number : N) : outcome (Z * option f64) :=
  r <- prev_sample_peak (cs_internal s) number ;; Ret (c_out r).
Definition c_true_peak (s : cstate) (number : N) : outcome (Z * option f64) :=
  r <- true_peak (cs_internal s) number ;; Ret (c_out r).
Definition c_prev_true_peak (s : cstate) (number : N) : outcome (Z * option f64) :=
  r <- prev_true_peak (cs_internal s) number ;; Ret (c_out r).
Definition c_relative_threshold (P : platform) (E : ext) (s : cstate) : Z * option f64 :=
  c_out (relative_threshold P E (cs_internal s)).

(** src/capi.rs 310-329: ebur128_loudness_window *)
Definition c_loudness_window (P : platform) (E : ext) (s : cstate) (window : N)
  : outcome (Z * option f64) :=
  if (u32_max <? window)%N then Ret (error_code NoMem, None)
  else r <- loudness_window P E (cs_internal s) (as_u32 window) ;; Ret (c_out r).

(** The functions of src/capi.rs 73-245 that modify an analyzer, as values *)
Inductive ccall :=
| CSetChannel (number : N) (value : Z)
| CChangeParameters (channels samplerate : N)
| CSetMaxWindow (window : N)
| CSetMaxHistory (history : N)
| CAddShort (src : list Z) (frames : N)
| CAddInt (src : list Z) (frames : N)
| CAddFloat (src : list f32) (frames : N)
| CAddDouble (src : list f64) (frames : N).
(** One such call; src/capi.rs 74-89, 92-113, 116-135, 138-157, 160-179, 182-201, 204-223, 226-245 *)
Definition c_call (P : platform) (E : ext) (s : cstate) (c : ccall) : outcome (Z * cstate) :=
  match c with
  | CSetChannel n v => c_set_channel s n v
  | CChangeParameters ch r => c_change_parameters P E s ch r
  | CSetMaxWindow w => c_set_max_window P s w
  | CSetMaxHistory h => Ret (c_set_max_history s h)
  | CAddShort src n => c_add_frames P smp_i16 s src n
  | CAddInt src n => c_add_frames P smp_i32 s src n
  | CAddFloat src n => c_add_frames P smp_f32 s src n
  | CAddDouble src n => c_add_frames P smp_f64 s src n
  end.
(** The functions of src/capi.rs 247-449 that query one analyzer, as values *)
Inductive cquery :=
| CGlobal | CMomentary | CShortterm | CWindow (window : N) | CRange
| CSamplePeak (number : N) | CPrevSamplePeak (number : N) | CTruePeak (number : N) | CPrevTruePeak (number : N)
| CRelativeThreshold.
(** One such query; src/capi.rs 248-259, 282-329, 332-343, 366-449
    (gating_block_count_and_energy is not exported) *)
Definition c_ask (P : platform) (E : ext) (s : cstate) (q : cquery) : outcome (Z * option f64) :=
  match q with
  | CGlobal => c_loudness_global P E s
  | CMomentary => c_loudness_momentary E s
  | CShortterm => c_loudness_shortterm E s
  | CWindow w => c_loudness_window P E s w
  | CRange => c_loudness_range P E s
  | CSamplePeak n => c_sample_peak s n
  | CPrevSamplePeak n => c_prev_sample_peak s n
  | CTruePeak n => c_true_peak s n
  | CPrevTruePeak n => c_prev_true_peak s n
  | CRelativeThreshold => Ret (c_relative_threshold P E s)
  end.
