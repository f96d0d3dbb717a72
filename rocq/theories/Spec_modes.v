(** Vocabulary of the properties that compare analyzers of different modes: independent measurements (C64), and
    histogram against exact block list (C65). *)
From Coq Require Import List NArith Bool.
From Verif Require Import Prelude Float Env Utils Filter Ebur128 Spec.
Import ListNotations.

(** the mode bits a query asks for (M = 0, S = 1, I = 2, LRA = 3, SAMPLE_PEAK = 4, TRUE_PEAK = 5) *)
Definition needs (q : query) : list N :=
  match q with
  | QMomentary | QShortterm | QWindow _ => []
  | QGlobal | QThreshold | QCount => [0; 2]%N
  | QRange => [0; 1; 3]%N
  | QSamplePeak _ | QPrevSamplePeak _ => [0; 4]%N
  | QTruePeak _ | QPrevTruePeak _ => [0; 4; 5]%N
  end.
Definition measures (m : mode) (q : query) : Prop := forallb (N.testbit m) (needs q) = true.
(** the queries answered from recorded blocks *)
Definition from_blocks (q : query) : bool :=
  match q with QGlobal | QThreshold | QCount | QRange => true | _ => false end.
(** two modes that let a query be answered in the same way: both measure it, and if it is about recorded blocks, both or
    neither keep them in a histogram (bit 6) *)
Definition both_measure (m m' : mode) (q : query) : Prop :=
  measures m q /\ measures m' q /\ (from_blocks q = true -> N.testbit m 6 = N.testbit m' 6).

(** * Histogram against list *)
From Coq Require Import Reals.
From Flocq Require IEEE754.BinarySingleNaN.
From Verif Require Import Spec_real Spec_history Spec_accuracy.

(** Two analyzers that were constructed for the same channels and rate and got the same calls, set_max_history not among
    them.  [e] keeps its blocks in a list and [f] in a histogram; their modes may differ in other bits, too, but not in S. *)
Definition list_and_histogram (P : platform) (E : ext) (e f : ebur128) : Prop :=
  exists channels rate m m' e0 f0 os rs rs',
    ebur128_new P E channels rate m = Ret (Ok e0) /\ ebur128_new P E channels rate m' = Ret (Ok f0) /\
    supported m rate /\ supported m' rate /\ N.testbit m 1 = N.testbit m' 1 /\ ~ has_HISTOGRAM m /\ has_HISTOGRAM m' /\
    (forall h, ~ In (OpSetMaxHistory h) os) /\ all_admissible P E e0 os /\ all_admissible P E f0 os /\
    run P E e0 os = Ret (rs, e) /\ run P E f0 os = Ret (rs', f).
(** the blocks of a list sorted into the bins of a histogram *)
Definition binned (l : list (N * f64)) : list (N * f64) := map (fun i => (hits i (map snd l), centre i)) (seq 0 1000).
(** no NaN, nothing above +30 LUFS *)
Definition ordinary (l : list (N * f64)) : Prop := forall n x, In (n, x) l -> f64_le x (bound 1000) = true.
