(** Specification of the C API (libebur128's ebur128.h): contracts of the caller and error codes. *)
From Coq Require Import ZArith NArith List Bool Arith.
From Verif Require Import Prelude Float Env Utils History Filter Ebur128 Capi Spec.
Import ListNotations.

(** EBUR128_SUCCESS, _ERROR_NOMEM, _ERROR_INVALID_MODE, _ERROR_INVALID_CHANNEL_INDEX, _ERROR_NO_CHANGE *)
Definition NO_CHANGE : Z := 4.
Definition code_of {A} (r : result A) : Z :=
  match r with Ok _ => 0 | Err NoMem => 1 | Err InvalidMode => 2 | Err InvalidChannelIndex => 3 end.

(** the 32 channel roles of the C enumeration (enum channel in ebur128.h) *)
Definition number_of (ch : Filter.channel) : Z :=
  match ch with
  | Unused => 0 | Left => 1 | Right => 2 | Center => 3 | LeftSurround => 4 | RightSurround => 5 | DualMono => 6 | MpSC => 7
  | MmSC => 8 | Mp060 => 9 | Mm060 => 10 | Mp090 => 11 | Mm090 => 12 | Mp135 => 13 | Mm135 => 14 | Mp180 => 15
  | Up000 => 16 | Up030 => 17 | Um030 => 18 | Up045 => 19 | Um045 => 20 | Up090 => 21 | Um090 => 22 | Up110 => 23
  | Um110 => 24 | Up135 => 25 | Um135 => 26 | Up180 => 27 | Tp000 => 28 | Bp000 => 29 | Bp045 => 30 | Bm045 => 31
  end%Z.
Definition role (v : Z) (ch : Filter.channel) : Prop := v = number_of ch.

(** What the caller owes: a value of the enumeration, a supported rate, and a buffer of
    frames * channels samples (if so many can exist). *)
Definition holds {T} (P : platform) (s : cstate) (src : list T) (frames : N) : Prop :=
  (frames * cs_channels s <= p_usize_max P)%N -> (frames * cs_channels s <= N.of_nat (length src))%N.
Definition fair (P : platform) (s : cstate) (c : ccall) : Prop :=
  match c with
  | CSetChannel _ v => exists ch, role v ch
  | CChangeParameters ch r => channels_valid ch /\ rate_valid (r mod 4294967296) -> supported (e_mode (cs_internal s)) (r mod 4294967296)
  | CAddShort src n | CAddInt src n => holds P s src n
  | CAddFloat src n => holds P s src n
  | CAddDouble src n => holds P s src n
  | _ => True
  end.
(** the states a C program can bring a handle into *)
Inductive creachable (P : platform) (E : ext) : cstate -> Prop :=
| creach_init channels rate m s : c_init P E channels rate m = Ret (Some s) -> supported (e_mode (cs_internal s)) (rate mod 4294967296) -> creachable P E s
| creach_call s c k s' : creachable P E s -> fair P s c -> c_call P E s c = Ret (k, s') -> creachable P E s'.

(** arguments the wrapper refuses, and requests that change nothing *)
Definition beyond (P : platform) (s : cstate) (c : ccall) : Prop :=
  match c with
  | CSetMaxWindow w => (4294967295 < w)%N
  | CSetMaxHistory h => (4294967295 < h)%N
  | CAddShort _ n | CAddInt _ n | CAddFloat _ n | CAddDouble _ n => (p_usize_max P < n * N.of_nat (e_channels (cs_internal s)))%N
  | _ => False
  end.
Definition unchanged (s : cstate) (c : ccall) : Prop :=
  match c with
  | CChangeParameters ch r => ch = N.of_nat (e_channels (cs_internal s)) /\ r = cs_samplerate s
  | CSetMaxWindow w => w = e_window (cs_internal s)
  | CSetMaxHistory h => h = e_history (cs_internal s)
  | _ => False
  end.
(** the Rust call a C call stands for *)
Inductive stands_for (s : cstate) : ccall -> op -> Prop :=
| sf_channel n v ch : role v ch -> stands_for s (CSetChannel n v) (OpSetChannel n ch)
| sf_change ch r : stands_for s (CChangeParameters ch r) (OpChangeParameters ch (r mod 4294967296))
| sf_window w : stands_for s (CSetMaxWindow w) (OpSetMaxWindow w)
| sf_history h : stands_for s (CSetMaxHistory h) (OpSetMaxHistory h)
| sf_short src n : stands_for s (CAddShort src n) (OpAdd (AI16 (firstn (N.to_nat n * e_channels (cs_internal s)) src)))
| sf_int src n : stands_for s (CAddInt src n) (OpAdd (AI32 (firstn (N.to_nat n * e_channels (cs_internal s)) src)))
| sf_float src n : stands_for s (CAddFloat src n) (OpAdd (AF32 (firstn (N.to_nat n * e_channels (cs_internal s)) src)))
| sf_double src n : stands_for s (CAddDouble src n) (OpAdd (AF64 (firstn (N.to_nat n * e_channels (cs_internal s)) src))).
Definition rust_query (q : cquery) : query :=
  match q with
  | CGlobal => QGlobal | CMomentary => QMomentary | CShortterm => QShortterm | CWindow w => QWindow w | CRange => QRange
  | CSamplePeak n => QSamplePeak n | CPrevSamplePeak n => QPrevSamplePeak n | CTruePeak n => QTruePeak n | CPrevTruePeak n => QPrevTruePeak n
  | CRelativeThreshold => QThreshold
  end.
