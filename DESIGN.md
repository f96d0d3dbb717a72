# Formal model of sdroege/ebur128 in Coq 8.16.1

The repository in /repo is read as text only.  Everything below lives in
`rocq/theories` (logical name `Verif`).

## Layout

| file | content |
|------|---------|
| `Prelude.v` | outcome type (`Ret` / `Panic` / `UB` / `OutOfFuel`), `Result`, checked list indexing and slicing |
| `Float.v` | IEEE binary64 / binary32 as Flocq `BinarySingleNaN.binary_float`, Rust casts, flush-to-zero |
| `Env.v` | platform record (SSE2 flush-to-zero, `precision-true-peak`, usize width) and the record of external functions (libm, std sort, std binary search) with their contracts |
| `Tables.v` | generated: the tables of `src/histogram_bins.rs`, as decimal literals and as binary64 |
| `Utils.v`, `History.v`, `Interp.v`, `TruePeak.v`, `Filter.v`, `Ebur128.v`, `Capi.v` | the model, one file per Rust source file |
| `Programs.v` | the example programs of the repository |
| `Handles.v` | the memory behind the C API: boxes, `ebur128_init`, `ebur128_destroy`, programs over several handles |
| `Spec.v`, `Spec_real.v`, `Spec_history.v`, `Spec_filter.v`, `Spec_capi.v`, `Spec_handles.v` | small specifications the theorems refer to, independent of the model's helpers |
| `Instance.v`, `Examples.v`, `Instance_history.v`, `History_examples.v` | concrete environments meeting the contracts, concrete analyzers for the non-vacuity examples |
| `*_proofs.v` | lemmas |
| `Prop_*.v` | the property theorems (each followed by a non-vacuity `Example`) and `Print Assumptions` |

## Modelling conventions

* A Rust function that can panic returns `outcome`; `Panic` stands for assertion failure, slice index out of
  range, integer under/overflow and capacity overflow; `UB` for an out-of-bounds unchecked access;
  `OutOfFuel` for a loop that exceeded its iteration bound.  Panic-freedom theorems prove `Ret`.
* `&mut self` methods return the new state with the `Result`; a failing method returns the state it leaves behind.
* `f64`/`f32` are Flocq binary formats with one NaN (payload and sign of NaN are not modelled), round to nearest even.
  Rust never contracts or reassociates float operations.
* Flush-to-zero (MXCSR.FTZ, `filter.rs` 376-416) is modelled by applying `flush` to the result of each float operation
  inside `with_ftz`.  The one-ulp difference in tininess detection next to 2^-1022 is a documented simplification.
* libm (`tan`, `sin`, `cos`, `log10`, `powf`), `slice::sort_unstable_by` and `slice::binary_search` are fields of a
  record `ext` over which every theorem quantifies.  Theorems that need more than totality take an explicit
  contract hypothesis, and a concrete instance of the contract is exhibited.
* `usize` width is a parameter (`p_usize_max`); overflow checks are made in `N`.  Counters in histograms (u64) and the
  short-term frame counter are unbounded.
* Out of scope: memory exhaustion (abort), the `Debug` impls, the `reference`/`c-tests`/test modules, benches, the
  bundled C code, dasp/smallvec/bitflags internals (their behaviour as used here is inlined).

## Plan per property (see properties.jsonl)

C01 `new` computed symbolically over all N inputs, `repeat` lengths by arithmetic (`lia` with division).
C02 inductive invariant over all operation traces; every operation and query returns `Ret`.
C03, C04 arithmetic characterisation of the buffer length; refuting traces evaluated in the model.
C05, C06 case analysis of container constructors and setters for arbitrary states.
C07 simulation: the loop run on `xs ++ ys` equals the run on `xs` followed by `ys`; filter runs compose.
C08 refutation by a concrete trace; positive part (schedule, counts) from the ghost-output invariant.
C09-C11 refinement: ghost list of all filtered frames since the last restart; the ring holds its latest L entries;
index, needed frames, short-term counter are closed-form functions of the frame count; histories are folds over the schedule.
C12 direct specification of the weighted energy.  C13 relational invariant between two runs.  C14 bit-exact: x+x = 2x.
C15 the filter step is generic in its arithmetic; instantiated with R and proved against the difference equation.
C16 coefficients generic in the arithmetic; instantiated with R; polynomial identities (`field`), Jury conditions (`nra`).
C17-C20 find_histogram_index by loop invariant on the sorted table; sortedness and rounding of the 2001 literals checked by
computation and lifted; spacing by interval arithmetic over exact powers (E_i^200 scaled to integers).
C21-C31 list inductions over the history model; percentile indices bounded with Flocq rounding lemmas.
C32-C34 folds of max over lists; division by a power of two is exact, hence commutes with max.
C35-C37 rolling-buffer invariant; interpolation of a C-channel frame is per channel the mono interpolation.
C38, C39 the loop only observes per-channel sample lists and frame lists, which agree for both layouts and all formats.
C40 bisimulation up to unobservable fields.  C41 seed vs. process on the filter component.  C42 from C09 and C41.
C43-C46 case analysis and trace invariants.  C47, C48 sign/zero invariants of the float operations.
C49 arithmetic.  C50 register state passing.  C51 C API wrapper model.  C52 checked arithmetic over arbitrary usize width.
C53, C55 refinement: programs over the heap model of the C API behave as programs in which each variable simply
holds its analyzer; independence is then a projection.  C54 unfolding plus counting lemmas.
C56, C57 relational invariant between two runs (`Compare_proofs.v`, generic in the relation on inputs and on filtered
signals): the filtered signals are opposite in the inverted channels, or exchanged.  Rounding to nearest is symmetric,
so each float operation maps opposite arguments to opposite results up to the sign of zero; squares, absolute values
and the first sum of two channels do not see the difference.
C58-C60 forward error analysis (`nearly n d x X`: x is X up to n relative roundings and an underflow term d) of sums,
means and gates, carried through the logarithm; a block can only be gated differently if it is within the error of the gate.
C61 absolute error analysis in units of 2^-53 (`off k B x X`), with Machin's formula for PI and Lipschitz bounds for tan and
power.  C62 one step of the computed filter is a step of the exact one with input and output disturbed; induction over
samples, pieces and calls (values cleared by software count as disturbances); linearity and C16's gain bound give the error.
C63 induction over the signal.
C64 simulation: two analyzers of different modes stay alike in everything the modes do not switch on, along any calls; the
shared measurements are determined by the tape (C09), the log (C32) and the blocks.  C65 the same simulation down to the
recorded blocks (C17, C18); sums over bins are sums over blocks with each energy replaced by a bin centre at most half a bin
away (C19), so means, gates and percentiles move by at most that much, and C59/C60 tie the reported values to the exact ones.
C66 the sinusoid that solves the difference equation is written down with complex arithmetic in half angles; the difference from
the actual output follows the equation without input, and C16's bound applied to the section with poles enlarged by a factor r > 1
shows that it decays like r^-n; sums of squares of sinusoids telescope.  C67 numeric bounds on tan (Taylor), pi (Machin) and powers.
C68 C66 together with linearity (C63), the gain bound (C16) and the noise bound (C62).
C69 error analysis of `Interp::new` (f64) and of the f32 sums, tap by tap against the exact windowed sinc.  C70 sums of magnitudes of
the exact taps of each phase, with the taps enclosed numerically; the sharp cases are the signs of the taps.  C71 the ripple of each
phase against the ideal delay is enclosed by Taylor polynomials with integer coefficients, expanded on small intervals of the frequency axis; among the oversampled
points of half a period one lies within half a step of a crest.

C72 sharp error bounds for each coefficient (in units of 2^-53, from interval bounds of tan and powf at each rate); the computed filter
is the exact filter with noise added at its input and output (C62), and the gain from noise to the kept values and to the output is
bounded section by section, following each pair of complex poles as a rotation of the plane; so an induction over the calls bounds the kept values and the error
without any assumption on them.  Root mean squares then differ by at most the error per sample (Minkowski).
C73 the recorded blocks (C09, C10, C29) are the blocks of the weighted signal, so by C72 each is near the block of the exactly weighted samples, in
root mean square; a block whose exact energy is away from both gates is on the same side of the computed gates, and means of near blocks
are near (Minkowski again); C59 gives the rest.  C74 the same for 3 s blocks: sorted lists of pairwise near values are near rank by rank; C60.
C75 the impulse responses of both sections decay geometrically, which bounds what the filter still remembers after 100 ms (`forgets`, `settled`);
each block of each chunk is then near the block of the whole programme (as C73), every block occurs in one chunk (C42), and the gates are those of C73.
C76 the exact filter is linear and its gain is at most 19.5, so the signal of the amplified samples is near `g` times that of the samples; root mean
squares and gates scale with `g` unless a block crosses -70 LUFS; then as C72 and C73, and C76_normalise composes both measurements.
C77 the recorded blocks are the bins of the blocks of C73 (C29); C65's lemmas relate the bins to the blocks, and a margin of 2 % in root mean square
between every exact block and the exact gate keeps every block and its bin on the same side of the computed gate.
C78 the pieces of one second that the example feeds are one way to feed the whole file (C09); the block count and the energy of the answer bound the
mean, so `log10_accurate` bounds every gain; the errors of the album's sums are bounded by induction over the tracks.  Short and silent tracks leave no
block (C25), for which the example unwraps `None`.  C78_multiple_refuted is computed.
C79 the loudness reported is finite and below 335 in absolute value (as C78) or minus infinity; the errors of the exponent, of `powf` and of the f32
products are bounded (6.3e-6 relative), clamping is a contraction, truncation costs at most one step; every operation is monotone and odd.
C80 with the poles of both sections moved outwards a little the recursion is still stable, so the difference between the response and the steady
sinusoid (C66) decays like (1 + 117/rate)^-n with explicit constants; the mean of the squares of a sinusoid over a window is half its squared amplitude up
to an odd part of a period; the samples differ from the ideal ones by delta, which the filter amplifies at most 19.5 times; then as C72, and C67 for 997 Hz.
C81 the C functions are modelled as they are written and related to the Rust ones by a simulation: the binary searches find the same bin, the loops are the
same folds, sorting gives the same list (equal numbers have equal bits except zeros, which are below the gate).  With the C logarithm the readings are
equal; otherwise the error of the quotient of two logarithms is bounded.  Where the two differ (NaN, changed maximum) is stated as C81_*_refuted.
C82 the interleaved ring of the C code and the channel-by-channel ring of the Rust code hold the same numbers (`same_audio`); both sums visit the same
samples in the same order, also around the end of the ring, and the channel numbers give the same weights.
C83 the C filter is modelled sample by sample (frame after frame; Rust goes channel after channel); exchanging the two loops is proved by induction over
the frames, for one call and then for any sequence of calls.  Where the processor has no flush-to-zero the two clear their memory at different
thresholds: C83_flush_refuted.
C84 the C interpolator is modelled with its delay lines and its sparse subfilters (taps that are almost zero are left out). An
invariant says which sample each slot of a delay line holds, so that each output is a sum of products over the signal; the taps are
close to the exact ones by the proof of C69, the one left out is zero, and the sum, in f64 and rounded once, stays within
`fir_noise_c` of the exact value. Comparing with C69 gives the distance to the Rust values, for single outputs and for the peaks. The C peaks
are one fold over all outputs, however the frames were divided among calls, which gives the peak of a session.
C85 filter.c with its true peaks (`Cref_meter.v`): a Rust call splits into the call without true peaks (C83) and the true peak scanner, whose
invariant (which samples the histories hold, which outputs the peaks have seen since they were last reset) is kept beside that of
the C object (C84); induction over the calls. C85_chain puts C81, C82 and C83 together: filter, gating blocks at any places, history.

## Trusted base

**Kernel.** Coq 8.16.1's kernel, including its `vm_compute` machine (`coqchk` re-checks the same proofs with the
lazy machine).  No plugin, no native code, no axiom of our own, no `Admitted`.

**Axioms.** `Print Assumptions` follows every property theorem in `Prop_*.v`.  It lists at most four axioms, all from
Coq's standard library (they come with its real numbers, which Flocq's definitions use):
`ClassicalDedekindReals.sig_not_dec`, `ClassicalDedekindReals.sig_forall_dec`,
`FunctionalExtensionality.functional_extensionality_dep`, `Classical_Prop.classic`.
Theorems about data structures only (rolling buffer, register, destroy) are closed under the global context.

**Transcription.** The model is a transcription by hand of the Rust source, function by function; each definition cites
the lines.  `Tables.v` is generated from `src/histogram_bins.rs`, keeps the decimal literals, and C19 proves that every
binary64 value is the correct rounding of its literal.

**Modelled.** `ebur128.rs` (all public methods), `filter.rs` (coefficients, process, seed, peaks, gating block sum,
flush-to-zero guard), `history.rs` (queue and histogram histories, gating, loudness range), `histogram_bins.rs`,
`interp.rs`, `true_peak.rs`, `utils.rs` (frame iterators, interleaved/planar containers, sample conversion, energy and
loudness conversions), `capi.rs` (all functions), the programs `examples/replaygain.rs` and `examples/normalize.rs` (without the WAV reader and writer
and the printing), the numbers `examples/generate_histogram_bins.rs` writes, `tests/c/history.c` (`Cref.v`),
`tests/c/calc_gating_block.c` and `tests/c/filter.c` (`Cref_filter.v` without its true peaks, `Cref_meter.v` with them),
`tests/c/interp.c` and `tests/c/true_peak.c` (`Cref_interp.v`).

**Not modelled.** `Debug`/`Clone`/`Display` impls, doc examples, tests, benches, the destructors and `queue.h` of the C reference code, logging;
allocation failure (Rust aborts); the internals of smallvec, bitflags and dasp_frame, whose behaviour is inlined;
payload and sign of NaN; the wall clock.

**Assumed of the platform.** IEEE arithmetic in round-to-nearest-even outside `with_ftz`, i.e. the caller's MXCSR
has its default rounding mode and no flush-to-zero; inside `with_ftz` the same with subnormal results flushed.
Histogram counters (u64) and `usize` frame counters do not wrap (2^64 blocks or frames).

**Assumed of libraries** (explicit hypotheses; each is met by a concrete instance in `Instance*.v`):
`bsearch_contract` (std's binary search returns some match or the insertion point), `sort_contract` (sorted permutation;
NaN noticed iff a comparison sees it), `powf_contract` (10^-1 and 10^-2 to 2^-50), `log10_contract` (monotone, bounded
by 400 on positive finite numbers), `log10_nan`, `log10_accurate` (absolute error 2^-42; C58-C60, C65, C72-C81, C85 only),
`allocator_contract` (a new box never has an address in use), `powf32_contract` (`f32::powf` of 10: relative error 2^-21 for exponents up to 30,
infinity to infinity; C79 only).
`tan_accurate` (error 2^-50 on (0,1)) and `powf_accurate` (error 2^-48 on [1,10]x[0,1]), for C61, C62, C68, and `powf_accurate` for C72-C77 and C80.
`sin_accurate`, `cos_accurate` (error 2^-50 for arguments up to 38 and 7), both for C69-C71, C84 and C85 only.
`tan_precise` (relative error 2^-51 or absolute error 2^-58 on (0,1)), for C72-C77 and C80 only.
`same_pow` (Rust's powf is C's pow), `regenerates` (the generator run with this powf writes the tables in the repository), `qsort_contract` (sorted
permutation), `log_accurate` (C's log: error 2^-43, at 10 2^-51), all for C81 and C85 only (`same_pow` also C83); `same_tan` for C83 and C85; `csin_accurate`,
`ccos_accurate` (C's sin and cos, as `sin_accurate` and `cos_accurate`) for C84 and C85.
Elsewhere `tan`, `sin`, `cos` are arbitrary functions (C15, C16, C63, C66, C67 are about exact arithmetic).

**Recurring hypotheses.** `is_64bit` (the 32-bit case is C52); `reachable` (any history of API calls from `new`, within
`admissible`: planar calls pass as many planes as channels, and low rates at which the code is shown to fail, C03/C04,
are excluded by `supported`); `countable` (fewer than 2^64 blocks), `small_count` (at most 2^46 blocks, where
percentile positions are exact in f64).
