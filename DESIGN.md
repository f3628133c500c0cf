# Formal model of backtail/embedded-audio-tools in Rocq (Coq 8.16.1)

Source: `/repo` (Rust, `#![no_std]`), read as text; nothing was built or run.

## 1. How the code is modelled

| Layer | File(s) | What it is |
| --- | --- | --- |
| machine | `Base.v` | `outcome` (`Ret`, `Panic`, `UB`), Rust integers as `Z` with explicit width, overflow checks and wrap; build settings (`pointer width`, `overflow checks`) are parameters, never fixed |
| floats | `F32.v`; lemmas in `F32Lemmas.v`, `F32Exact.v`, `F32Ints.v`, `F32Range.v`, `F32Over.v` | `f32` is Flocq's IEEE-754 `binary32` (with NaN payloads); `+ - * / %` round to nearest even; `as` casts saturate as in Rust; the payload of a NaN *result* is chosen by an arbitrary `NanPolicy` (Rust leaves it unspecified), theorems hold for every policy |
| numbers | `Num.v` | the interface `Num F` (`+ - * /`, literals) and `MathOps F` (`sqrt powf powi exp log10 floor`): one model text, two readings: `F := f32` (the code) and `F := R` (exact arithmetic) |
| model | `M_*.v` | one Gallina function per Rust function, each citing file and lines |
| spec | `S_*.v` / the theorem statements | small independent specifications (lists, `Z.modulo`, real polynomials...) |
| proofs | `P_*.v` | lemmas |
| theorems | `T_*.v` | the property theorems with `Print Assumptions`, their non-vacuity examples, and the lemmas used by one theorem only |

Memory: a heap is a list of allocations (lists of samples); a pointer is null or
(allocation, offset). A read or write outside the allocation is `UB`, an explicit
outcome; a panic is `Panic`. A `MemorySlice` is (pointer, length), copied freely
(it is `Copy`), so aliasing is modelled. `read_volatile`/`write_volatile` are
plain reads and writes; threads interleave between them in `M_Threads.v` (C104).

External routines (`micromath::F32Ext`, or `std`'s inherent methods when tests
link `std`): `floor sqrt powf powi exp log10` are an arbitrary `MathOps f32`;
where a theorem needs something of them the hypothesis is written in its statement.
`abs`, `rem_euclid`, `clamp`, `%`, casts have exact definitions and are modelled exactly.

## 2. Plan per property

"f32" = about the bit-exact float model; "real" = same model text read over R;
"Z" = integers.

- **C01 Checked read is exact and safe** - Z/heap: case analysis on bounds; spec `nth_error` of the covered range.
- **C02 Checked write hits exactly one cell** - heap: update lemma on lists of lists; frame stated for every allocation and offset.
- **C03 Wrapped read is Euclidean modulo** - Z: rem_euclid = Z.modulo, both branches of the code agree; length 0 is `Panic`.
- **C04 Sub-slice is an in-range alias** - heap: pointer offset algebra.
- **C05 Sub-slice acceptance set** - Z: decision table.
- **C06 Sub-slice overflow breaks memory safety in release builds** - Z: explicit witness computed from the parent for every width (`_refuted`), panic with checks.
- **C07 Checked lerp never leaves the slice** - f32: rounding monotonicity of integer-to-float; no precision bound on the length.
- **C08 Checked lerp at the last sample depends on the length** - f32: exact rounding of (len-1)+10*EPSILON: finite sweep for len<=32, ulp argument for len>=33.
- **C09 Checked lerp interpolates the two neighbours** - f32: Btrunc/Sterbenz-type exactness of x - trunc x.
- **C10 Wrapped lerp is total and periodic on integers** - f32 with floor hypothesis; unconditional memory safety.
- **C11 Four-sample window** - Z: as C03.
- **C12 Four-sample window overflow** - Z: witness, `_refuted`.
- **C13 Wrapped Lagrange window is shifted** - real: Lagrange at node 0 of the shifted window; loop modelled as in the code.
- **C14 Wrapped Lagrange panics** - f32: case analysis on the assert and the integer overflow.
- **C15 Four-point Lagrange evaluates at the absolute position** - real: polynomial evaluation; `_refuted` witness.
- **C16 Any history of safe slice calls stays in bounds** - induction over call histories with a pool invariant.
- **C17 Delay line is a FIFO of its buffer length** - refinement of the ring buffer to a queue, induction over writes.
- **C18 Delay line taps** - corollary of the refinement.
- **C19 Delay line confines its accesses** - corollary with frame.
- **C20 Changing the buffer keeps the old position** - Z: characterisation.
- **C21 Empty delay line** - case analysis.
- **C22 Comb filter recurrence** - f32: refinement to list recurrence, induction over inputs (parameter changes included).
- **C23 Comb filter bounded output** - f32: invariant with representable bound (rounding is monotone).
- **C24 All-pass recurrence** - f32: as C22.
- **C25 All-pass bounded output** - f32: as C23.
- **C26 AllPass is not all-pass** - real: closed forms of the impulse response and of the answer to a constant.
- **C27 Biquad realises its difference equation** - real: induction.
- **C28 Biquad is linear and time invariant** - real: induction.
- **C29 A poisoned biquad never recovers** - f32: non-finite values and NaN propagate through both state words; induction over inputs with coefficients changing at will. A fresh filter is silent.
- **C30 Every Butterworth design is stable** - real: Jury conditions, explicit Lyapunov function, geometric decay. `_refuted` for the cut-only designs at gain 0 (real) and for the bell and the low shelf at gain -0.0 (f32).
- **C31 Low-pass and high-pass gains** - real: steady state plus C30 contraction.
- **C32 All-pass biquad is lossless** - real: explicit storage function.
- **C33 Notch removes its centre frequency** - real: steady sinusoidal state plus contraction.
- **C34 Bell gain and bell inverse** - real: as C31/C33; inverse by invariant.
- **C35 Low shelf gain and inverse** - real: as C34.
- **C36 Fixed-point sine never overflows** - Z: interval analysis of the Horner loop, valid for every i16 phase and u8 degree.
- **C37 Fixed-point sine accuracy** - real: Taylor bounds for sin and cos, tangent lines at 513 knots, and an exhaustive computation over all 32769 phases of one sign (513 blocks of 64) comparing the integer result with those lines. The domain is all of i16, so the sweep is complete, but it is a computation and not an analytic argument. Oddness is by induction on the Horner loop.
- **C38 Sine lookup table** - Z: induction on the filling loop for every length; f32 range analysis of the index.
- **C39 Phase accumulator closed form** - Z: induction modulo 2^32.
- **C40 Normalised phase range** - f32: rounding monotonicity.
- **C41 Degenerate frequencies** - f32: saturating cast.
- **C42 Frequency accuracy** - f32: error analysis.
- **C43 Checked frequency setter has no effect** - f32: comparisons; the by-value receiver is modelled as consumed.
- **C44 Sawtooth and triangle range** - f32: exactness on the 2^-24 grid, rounding error elsewhere.
- **C45 Rectangle output values** - f32 with floor hypothesis.
- **C46 Sine oscillator range** - f32 error analysis of the argument reduction plus C37.
- **C47 Wavetable oscillator over-reads** - f32/heap: exact in-bounds condition for every table; `_refuted` over-read for tables of at most 2^24 samples that end their allocation.
- **C48 Envelope stays in [0,1]** - f32: invariant over all call histories, the power routine constrained only by a contract (`power_ok`).
- **C49 Envelope can emit NaN for ever** - f32: NaN invariant, `_refuted`.
- **C50 Envelope stage order** - case analysis.
- **C51 Envelope stages end** - f32: each tick advances the clock by at least rate - 2^-25; induction on ticks.
- **C52 Envelope monotone inside a stage** - f32: monotone rounding.
- **C53 Envelope timing parameter** - f32: case analysis of clamp over all f32 pairs; relative error analysis.
- **C54 Retrigger and release levels** - f32: simulation between envelopes, invariant; `_refuted` for the stale release level.
- **C55 Changing the sample rate keeps stage lengths in samples** - simulation relation over histories.
- **C56 Raw word round trip** - Flocq Bits.
- **C57 Component round trip** - Z bit fields.
- **C58 Linear bit reduction is exact truncation** - f32: exactness of power-of-two scaling.
- **C59 Exponential bit reduction** - bit level + value level.
- **C60 lerp endpoints** - f32.
- **C61 lerp accuracy and overflow freedom** - f32: error analysis; witness for the ulp overshoot.
- **C62 lerp input validation** - f32 decision table.
- **C63 Lagrange interpolation is exact** - real: polynomial identity via roots / Vandermonde-free induction.
- **C64 Lagrange precondition** - f32 decision table.
- **C65 Pan range check** - f32 decision table.
- **C66 Mono pan law** - f32: symmetric and monotone rounding.
- **C67 Constant-sum and constant-power laws** - real; the contract is that `m_sqrt` is the real square root on non-negative arguments.
- **C68 Decibel input validation** - f32.
- **C69 Decibel round trip** - real with exact log10/powf by contract.
- **C70 Digital clip** - f32.
- **C71 Unfinished clippers** - f32.
- **C72 Time and sample conversions** - real + f32 error analysis.
- **C73 Simpson rule weight error** - real: node sums for every function and every even N; odd N only for constant functions (`_refuted`).
- **C74 tanh approximation** - real: closed form, bound and monotonicity on either side of sqrt 2; f32: error analysis and the exact NaN set.
- **C75 Hyperbolic symmetry and sinc** - f32.
- **C76 fast_tan polynomial** - real: derivative comparison through atan with a lower and an upper polynomial.
- **C77 Band-limited rectangle over-reads at two points** - f32: exactness of the quarter-wave folding, index range, for every table content.
- **C78 All-pass phase** - real: steady state plus C30 contraction.
- **C79 Gain at the cut-off** - real: steady sinusoidal state plus C30 contraction.
- **C80 Float sine and cosine follow the real ones** - f32: error of each rounding in the argument reduction, whose remainder is taken modulo the f32 value of pi, plus C37.
- **C81 sinc accuracy and its hole at zero** - f32: C80 divided by x; `_refuted` for the behaviour near 0.
- **C82 Envelope parameters in force** - induction over histories against `last_time` / `last_set` of S_EnvelopeParams.
- **C83 Envelope stage curves** - f32: error of the stage clock by induction over ticks, error of the stage formulas; end to end in seconds with C53.
- **C84 Raw slice views** - `M_RawSlice.v` gives the raw slices an address and a length; theorems relate reads and stores through them to the covered list, and, by induction on the history, to an independent ring-buffer specification.
- **C85 Fractional delay taps** - the position after a history comes from the ring specification; the f32 sum position + offset is rounded once, then the interpolation accuracy lemma of C10 applies. The Lagrange claim in exact arithmetic is the delay-line form of the C13 refutation; in f32 (`T_LagrangeTap.v`) it combines the history lemma with the accuracy theorem of C99.
- **C86 Panning laws in single precision** - f32: one rounding in 1 -+ a, then the error of an abstract square root (`sqrt_within`, `sqrt_monotone`); the correctly rounded square root of Flocq is the instance.
- **C87 Oscillators over whole histories** - induction over histories (`S_OscHistory.v`) on top of C39 and the per-waveform results C44-C47; the shift is characterised by an independent `shift_of`.
- **C88 Hyperbolic functions against the real ones** - exact identity over the reals; f32 by one rounding per operation on top of an abstract exponential (`exp_within`, instance: the real exponential truncated to 24 bits); tanh by monotonicity of two auxiliary functions (Coquelicot derivatives).
- **C89 What the sine integral routine computes** - the shape lemma of C73 in f32; rounding errors of the nodes, of 1000 `sinc` values (C81) and of the sums; a quadrature bound for the miscounted rule on the real function, which is 1/2-Lipschitz (`P_SincReal.v`, Coquelicot's Riemann integral).
- **C90 What the table sine computes** - argument reduction of C12, rounding error of the table position, one bound per table entry (`P_Sine.v`), a Lipschitz bound between entries and convexity of the interpolation.
- **C91 What the band-limited rectangle computes** - the 5075 literals are in `M_BlRectTable.v` with their roundings, checked entry by entry; Simpson's rule with step pi/200 and a proved error (`P_SiQuad.v`, through sinc(x) = integral of cos(xt)), evaluated in integer interval arithmetic along the table (`P_BlRectTable.v`); linear interpolation of Si between the nodes; the reads of C77.
- **C92 Frequency response of every filter design** - the long-run lemma of C31 at an arbitrary frequency with the half-angle substitution, one lemma for every bilinear transform of a second-order section; uniqueness of the gain from sin w > 0; the corollaries on monotony and resonance are algebra (`T_Response.v`, vocabulary in `S_Response.v`).
- **C93 Comb filter under every setting** - one invariant relating every stored f32 sample and the filter state to their exact counterparts, with a small-gain condition on the feedback, by induction on the history; the long run by a contraction over blocks of the buffer length, the divergence by monotone sequences (`P_Comb.v`, `T_Comb.v`, vocabulary in `S_Comb.v`).
- **C94 All-pass unit against exact arithmetic** - the same with the feedback 1/2, whose product is exact.
- **C95 Biquad in f32 against exact arithmetic** - the local rounding errors are an input to the recursive part of the exact filter; superposition bounds its output by the ringing, and a small-gain argument closes the strong induction on the sample number (`P_BiquadF32.v`, `T_BiquadF32.v`, vocabulary in `S_BiquadF32.v`). The ringing comes from the pole positions (first-order recurrences for the impulse response, Chebyshev polynomials for complex poles). The coefficients are taken as given: how the design rounds them is not part of this claim.
- **C96 Filter designs computed in f32** - rounding errors relative to the common denominator, one lemma per way the designs write a coefficient; Jury's conditions with the margin k^2/(1+k/q+k^2); for low cut-offs 1 + a1 + a2 is a multiple of 2^-24, so it is not positive (a pole at or beyond 1) or far too large (`P_DesignF32.v`, `T_DesignF32.v`, vocabulary in `S_DesignF32.v`).
- **C97 fast_tan and the designs in f32 against exact arithmetic** - error of one term of the polynomial and of one addition, seven times; the polynomial has degree 15, so it stretches a relative error of its argument at most 15 times; sensitivity of N/(1+k/q+k^2) to both terms; C96 for the rest. The accuracy of the external `powi` is the hypothesis `close_powi`, met by repeated multiplication (`P_TanF32.v`, `T_TanF32.v`, vocabulary in `S_TanF32.v`).
- **C98 frequency response of the comb and of AllPass** - the steady state (W - d) / (Z (W - d) - g (1-d) W) with W = e^iw and Z = e^inw solves the recurrences of C22 and C24; the deviation from it dies out by the argument of C93; bounds by the triangle inequality on the unit circle. The flat response the name AllPass promises is refuted (`T_CombResponse.v`, vocabulary in `S_CombResponse.v`).
- **C99 Lagrange interpolation in f32** - one factor (term * (x - j)) / (i - j) costs three roundings, a relative 3.1 * 2^-24 and a floor that grows 16-fold per factor; induction over the factors and over the sum; the exact value is the polynomial of C63; the Lebesgue constant of four points is at most 2 by cases on the interval (`P_LagrangeF32.v`, `T_LagrangeF32.v`, vocabulary in `S_LagrangeF32.v`).
- **C100 decibels in f32** - accuracy contracts on the external logarithm and power (`S_DecibelsF32.v`), met by functions that round the mathematical result; the logarithm of an f32 is below 46, so one product and one quotient cost 2^-15 dB and 2^-19 in the exponent; 10^d - 1 <= 2.7 d for small d (`T_DecibelsF32.v`).
- **C101 bell and low shelf in f32** - errors counted in units of 2^-24 relative to the exact denominator D; sums, products with the gain and the square root (which halves a relative error) each have one lemma; every numerator is at most 5 G D because k/q <= 4 (1 + k^2); the exact design is that of C34/C35 (`P_GainF32.v`, `T_GainF32.v`, vocabulary in `S_GainF32.v`).
- **C102 schedules with buffer changes** - units as records over slices of one heap, the specification as voices over a bank of plain lists (`S_Rack.v`); a step-by-step refinement, by induction over the schedule, in which a write through one slice leaves the lists of all other slices alone because no address is in two slices (`P_Rack.v`, `T_Rack.v`).
- **C103 independence** - two runs of the list machine, one with the whole schedule and one with the calls of a single unit, agree on that unit and on its buffers; carried over to the memory by C102's refinement (`P_Rack.v`, `T_Rack.v`).
- **C104 threads** - each call rewritten as a program of single loads and stores (`M_Threads.v`), proved equal to the call when it runs alone; threads interleave between accesses (`S_Threads.v`). A predicate "runs within these cells and ends so" is proved for every call by refinement, survives writes outside the cells, and is the invariant of all reachable states; races on a shared slice are exhibited for every slice (`P_Rack.v`, `T_Threads.v`).
- **C105 lifetimes** - histories of allocation, drop and writes over the heap (`S_Lifetime.v`); by induction over the history a live slice keeps its samples, a dropped block stays empty and every access into it is undefined (`T_Lifetime.v`).
- **C106 any accumulator** - the oscillators over an arbitrary record of five partial functions on an arbitrary state (`M_OscGeneric.v`); by induction over the history they refine the accumulator driven alone, each sample in the relation `shape`; equality with `M_Oscillator.v` for the crate's accumulator (`T_OscGeneric.v`).
- **C107 designed and run in f32** - no new model: C95 (rounding of the samples) and C96/C97 (rounding of the coefficients) are joined by a perturbation argument over R. The difference of two filters obeys the recurrence of one of them, driven by the coefficient errors; the ringing of the perturbed filter is bounded in l1 (`P_EndToEnd.v`). The ringing of the designs follows from their poles, complex or real (S_EndToEnd.v `design_ringing`); bells and low shelves are in `T_GainRun.v`.
- **C108 copies** - a copy is the same value used twice (`S_Copies.v`); a write through one is related to the queue seen from the other, at every distance between the two positions; induction over the samples (`T_Copies.v`).
- **C109 runaway units** - simulation between the unit past its end and a fresh one over the rest of the allocation, which stand on the same sample at every step (`P_Runaway.v`, `T_Runaway.v`); induction over the calls.
- **C110 changing coefficients** - `bq_set_coeffs` before every sample (`response_var`). Any schedule: weighted-norm contraction when the feedback is small. Held settings: the Lyapunov function of C30 shrinks by one half in a setting's holding time, the list of settings makes the time uniform. Alternation: two samples together are a filter of second order with coefficients T = a2 + a2' - a1 a1', P = a2 a2'; an eigenvector with growth factor above 1 gives the divergence, Jury's test the converse. f32: evaluation of 145 samples, then C29; any schedule with a bounded exact gain: the errors of each sample are a bounded source of the exact recursive schedule, as in C95; held settings: a segment's output is its own answer from rest plus what the state at its start rings on, which has died down at its end (`S_Sweep.v`, `S_SweepF32.v`, `P_Sweep.v`, `P_SlowSweep.v`, `P_SweepF32.v`, `T_Sweep.v`, `T_SlowSweep.v`, `T_SweepF32.v`, `T_SweepTrack.v`, `P_HeldF32.v`, `T_HeldF32.v`).
- **C111 wiring** - a tree of units (`net`) ticked over one heap against a tree of signal functions (`plan`, `signal`) that never mentions memory; the invariant `acts` says each unit still computes a signal function and the buffers of the others are untouched. Levels: an inductive rule per unit kind (`level`), from C93 to C95. Accuracy: a rule per unit kind for the added error and the gain (`accuracy`), from the tracking lemmas of C93 to C95 and a Lipschitz bound of each exact part. Linearity: each silent part is a linear, shift-invariant, causal map on finite signals (`lti`); two such maps commute, by induction on the signal's length after splitting off the first impulse sample. The tree itself is client code: the crate has no wiring facility (`S_Network.v`, `S_NetworkF32.v`, `S_NetworkLin.v`, `S_NetworkAcc.v`, `P_Network.v`, `P_NetworkLin.v`, `P_NetworkAcc.v`, `T_Network.v`, `T_NetworkLin.v`, `T_NetworkAcc.v`).
- **C112 voice** - the two units side by side under any history (`voice_run`); the invariant of C48 and the ranges of C44 to C46 give the level, C50 and C51 the silence, C111 the network behind it. The product is client code (`S_Voice.v`, `T_Voice.v`).
- **C113 tails** - f32: near zero rounding is rounding to whole multiples of 2^-149 (`rnd_tiny`); the circulation is an induction over the ticks, silence a halving argument, the hum a lower bound kept by monotone rounded operations (`_refuted` for the expectation that a tail dies). The biquad: a perturbed recurrence whose perturbation is 3 * 2^-24 of the size plus 2 * 2^-149 contracts by 4 in every round; the click is evaluated to its fixed state and stays there by the general theorem The damped comb: an eventual bound T on the output improves to (e + 80 * 2^-24) T + 38 * 2^-149, after the same argument for the one-pole inside (`S_Tail.v`, `P_Tail.v`, `P_TailBiquad.v`, `P_TailComb.v`, `T_Tail.v`, `T_TailComb.v`).
- **C114 fading** - every part as a function on endless signals (`stream`, equal to `signal` on every prefix); per part, an eventual bound on the output improves to a contraction of itself plus a multiple of the eventual bound on the input plus a few 2^-149, so it ends near the fixed point; the wiring composes the pairs (a, b) (`fades`). The note: its samples become exactly zero (C112), and every prefix of its run is a prefix of one endless signal. The number of samples it takes is not bounded by the theorem (`S_NetworkTail.v`, `P_NetworkTail.v`, `T_NetworkTail.v`).
- **C115 moving settings** - histories as lists of samples and calls addressed to a part by the path to it (`live_run`); each part's view of the history (`branch`, `feed`); the relation of C111 between a running program and the rest of its signal, with a second step for calls. Levels: the comb bound of C93 already covers setter calls, the biquad uses C110_f32_tracks for the coefficients in force at each sample. A gain is a number of the calling program, as in C111 (`S_Live.v`, `P_Live.v`, `T_Live.v`).
- **C116 decay of the comb** - after the history the exact comb is the recurrence s(k+1) = (1-p) y(k) + p s(k), y(k+n) = g s(k+1) from a memory within K; a strong induction with the weight rho^k bounds it above, another bounds it below for positive contents; Bernoulli's inequality gives the explicit factor and exp(7) >= 1000 the sixty decibels; f32 by the tracking theorem C93 (`S_Decay.v`, `P_Decay.v`, `T_Decay.v`).
- **C117 ring-down of the biquad** - for the recurrence y(n+2) = -a1 y(n+1) - a2 y(n) the form (r^2+a2)(y(n+1)^2 + r^2 y(n)^2) + 2 a1 r^2 y(n+1) y(n) falls by r^2 (the difference is a square times r^2 - a2) and is positive exactly when the poles lie within r; y(n+1)^2 + a1 y(n+1) y(n) + a2 y(n)^2 falls by exactly a2. Level before the stop from C95, f32 by C95_biquad_tracks (`S_RingDown.v`, `P_RingDown.v`, `T_RingDown.v`).
- **C118 decay of a network** - the weight rho^(k-N), constant until the input stops at N and geometric from then on, is carried through every part: a buffer of l cells costs rho^l, the low-pass of a comb keeps a level T of its own, a biquad is the filter with coefficients divided by powers of rho on the weighted signals (its gain by C95_ringing). Rules in `falls`; every stable plan has a rate, found part by part and kept for all larger rates (`stable_rate`). f32 by acc_sound of C111 (`S_Reverb.v`, `P_Reverb.v`, `T_Reverb.v`).
- **C119 accuracy under moving settings** - `live_accuracy` gives each part an error and a factor for a history; the factor of a biquad comes from the gain of its coefficient schedule (the difference of two responses is the recursive part driven by the weighted difference of the inputs), its error from C110_f32_tracks; combs by C93, whose bound covers setter calls (`S_LiveAcc.v`, `P_LiveAcc.v`, `T_LiveAcc.v`).
- **C120 decay under moving settings** - `live_falls` extends `falls` of C118 to histories; every sample is weighed by rho^(k-N), N the time the samples fall silent. A comb keeps its invariant under any call within the limits; a biquad is compared with the schedule of its sped-up coefficients, whose gain comes from C110. `moves_within` states limits from which one rate for all histories follows. Not covered by that last step: biquad schedules that are stable for another reason than small |a1| + |a2|; those need a `sweep_gain` of their own (`S_LiveReverb.v`, `P_LiveReverb.v`, `T_LiveReverb.v`).
- **C121 laws of calls** - `turn` commutes with itself unless part and setter agree, and then overwrites; runs split at any event (`run_app`). Superposition and the later start by induction on the wiring, with the buffers, filter states and calls generalised; the order of parts is refuted by a delay and a gain (`S_LiveLaws.v`, `T_LiveLaws.v`).
- **C122 playing an instrument** - `play` interleaves the voice of C112 with the network of C115; an induction over the history splits it into the two (`C122_play_is_chain`), after which the level comes from C112 and C115 and the decay from C112_note_ends, C119 and C120. Silence before the first note is an induction over the plan in f32 (`C122_untouched_silent`). The product of oscillator and envelope and the wiring are user code, not part of the library; the limits are those of the parts (`S_Play.v`, `T_Play.v`).

## 3. Trusted base

1. **Coq 8.16.1's kernel** with its bytecode machine: `vm_compute` closes single f32
   evaluations and examples, the 32 lengths of C08, and the sine sweep of C37
   (`block_sweep` in `P_SineAcc.v`, 513 blocks of 64 phases, by far the largest).
   `vm_cast_no_check` there only skips the tactic's own check; the kernel checks at `Qed`.
2. **Axioms.** No file declares an axiom, parameter, module type or functor; section
   variables are all discharged. What `Print Assumptions` lists, theorem by theorem:

<!-- assumptions -->
- **No axioms** ("Closed under the global context") (46 theorems): C01_get_exact, C02_assign_exact, C03_get_wrapped_modulo, C04_sub_slice_alias, C05_sub_slice_acceptance, C05_whole_slice_refused, C06_sub_slice_in_bounds_refuted, C06_sub_slice_overflow_checked, C11_four_samples, C12_four_samples_overflow_refuted, C14_lagrange_wrapped_in_bounds, C17_delay_line_fifo, C18_delay_line_taps, C18_tap_written_k_ago, C19_delay_line_confined, C20_change_buffer_refuted, C21_empty_delay_line_refuted, C24_all_pass_recurrence, C36_sin_i16_exact, C37_sin_i16_odd, C38_sine_table, C38_table_long_refuted, C57_join_split_iff, C57_oversized_mantissa, C57_split_meaning, C73_too_few_nodes, C84_comb_all_pass_raw_view, C84_delay_line_raw_view, C84_raw_slice_same_samples, C84_raw_store_seen, C105_alive_slice_reads, C105_made_slice_reads, C108_copied_line_refuted, C108_copied_units_refuted, C108_read_head, C109_all_pass_runs_on_refuted, C109_comb_runs_on_refuted, C109_line_runs_on_refuted, C109_taps_frozen_refuted, C111_network_is_composition, C111_shared_buffer_refuted, C115_live_is_composition, C115_still_network, C121_calls_commute, C121_causal, C121_last_call_counts.
- `ClassicalDedekindReals.sig_forall_dec`, `FunctionalExtensionality.functional_extensionality_dep` (47 theorems): C13_delay_tap_refuted, C13_even_window_refuted, C13_lagrange_wrapped_shifted_refuted, C15_four_point_integer_refuted, C15_four_point_ramp_refuted, C26_all_pass_dc_gain, C26_all_pass_energy_refuted, C26_all_pass_transfer, C27_biquad_recurrence, C28_biquad_linear, C28_biquad_time_invariant, C34_bell_inverse, C63_four_points_same, C63_lagrange_is_polynomial, C63_lagrange_nodes, C63_lagrange_reproduces, C67_constant_sum, C67_crossfade_convex, C72_conversions_inverse, C73_affine_five_thirds_refuted, C73_constant_odd_refuted, C73_odd_nodes_twice_refuted, C74_tanh_exact, C76_fast_tan_shape, C85_lagrange_tap_shifted_refuted, C93_comb_settles, C94_all_pass_settles, C110_coefficients_in_force, C110_small_feedback_bounded, C111_order_irrelevant, C111_superposition, C111_time_invariant, C116_comb_decay, C116_no_faster, C116_rate, C117_energy, C117_resonant, C118_network_falls, C119_still_accuracy, C120_limited_moves_fall, C120_limited_runs_fall, C120_live_falls, C120_still_falls, C121_later_start, C121_order_matters_refuted, C121_silent_adjustment, C121_superposition.
- `ClassicalDedekindReals.sig_forall_dec`, `ClassicalDedekindReals.sig_not_dec`, `FunctionalExtensionality.functional_extensionality_dep` (22 theorems): C30_designs_stable, C30_zero_cut_refuted, C31_highpass_gain, C31_lowpass_gain, C32_allpass_lossless, C35_low_shelf_gain, C35_low_shelf_inverse, C67_constant_power, C74_tanh_bounded, C74_tanh_monotone_refuted, C88_hyperbolic_exact, C92_gain_is_unique, C98_all_pass_gain_is_unique, C98_comb_gain_is_unique, C110_alternating_bounded, C110_alternating_unbounded_refuted, C110_held_gain, C110_held_settings_bounded, C110_near_quarter_bounded, C117_designs, C117_level, C117_ring_down.
- `ClassicalDedekindReals.sig_forall_dec`, `ClassicalDedekindReals.sig_not_dec`, `Classical_Prop.classic`, `FunctionalExtensionality.functional_extensionality_dep` (225 theorems): C07_lerp_in_bounds, C08_lerp_last_sample_refuted, C09_lerp_neighbours, C09_lerp_outside, C10_integer_position, C10_lerp_wrapped_in_bounds, C10_lerp_wrapped_neighbours, C14_lagrange_wrapped_panics, C16_any_history, C16_panic_only_when, C19_lerp_tap_confined, C22_comb_recurrence, C23_comb_bounded, C25_all_pass_bounded, C29_biquad_poisoned, C29_fresh_is_silent, C30_low_shelf_minus_zero_refuted, C30_minus_zero_cut_refuted, C33_notch, C34_bell_gain, C37_sin_i16_accuracy, C37_sin_i16_near_monotone, C38_lookup_sin_total, C38_table_4096_short_refuted, C39_frequency_continuity, C39_phase_closed_form, C39_phase_history, C39_shift_only_offsets, C40_normalized_range, C41_frozen, C41_saturates, C42_frequency_accuracy, C43_set_freq_answers, C43_set_freq_no_effect_refuted, C44_exact_symmetric, C44_sawtooth, C44_triangle, C45_rectangle_refuted, C46_fixed_point_sin_range, C46_sine_oscillator, C47_foreign_sample_refuted, C47_wavetable_over_read_refuted, C47_wavetable_reads, C48_output_range, C49_decay_nan_forever_refuted, C49_release_nan_forever_refuted, C50_stage_order, C51_fresh_note, C51_held_note, C51_released_note, C52_monotone_stages, C53_rate_accuracy, C53_rate_floor, C53_setter_panics, C54_release_from_level, C54_restart_from_zero, C54_retrigger_jumps, C54_stale_release_level_refuted, C55_sample_rate_inert, C56_float_word_float, C56_word_float_word, C57_split_join, C58_consequences, C58_exact_truncation, C58_refusals_and_identity, C58_unchecked_overshift, C59_clears_low_mantissa_bits, C59_finite_values, C59_idempotent, C59_special_values, C60_lerp_endpoints, C61_lerp_accuracy, C61_lerp_overshoot_refuted, C62_lerp_validation, C64_lagrange_outcome, C64_lagrange_precondition, C65_nan_amount, C65_pan_range_check, C66_mono_pan_bounded, C66_mono_pan_ends, C66_mono_pan_mirror, C66_mono_pan_monotone, C68_decibel_validation, C68_never_nan_refuted, C69_decibel_round_trip, C70_digital_clip, C70_digital_clip_properties, C71_unfinished_clippers_refuted, C72_conversions_monotone, C72_round_trip_accuracy, C73_sum_start, C74_tanh_f32_accuracy, C74_tanh_f32_nan_refuted, C75_cosh_even, C75_sinc_envelope, C75_sinh_odd, C76_fast_tan_accuracy, C77_interpolates, C77_over_read_refuted, C77_symmetry, C77_zero_outside, C78_allpass_phase, C79_cutoff_gain, C80_fixed_point_cos_accuracy, C80_fixed_point_sin_accuracy, C80_fixed_point_sin_nonfinite, C81_sinc_accuracy, C81_sinc_near_zero_refuted, C82_parameters_in_force, C83_attack_curve, C83_attack_in_seconds, C83_decay_curve, C83_release_curve, C85_constant_line_refuted, C85_fractional_tap, C85_lagrange_tap_f32, C85_whole_tap, C86_crossfade, C86_louder_side, C86_mono_sum, C86_stereo_gains, C87_functional_history, C87_phase_shift_turns, C87_phase_shift_wrap_refuted, C87_wavetable_history, C88_hyperbolic_f32, C88_tanh_near_zero, C89_si_five_thirds_refuted, C89_si_small_arguments_refuted, C89_si_total, C90_lookup_sin_curve_refuted, C90_lookup_sin_near_zero_refuted, C90_lookup_sin_never_above, C91_level_refuted, C91_lookup_curve_refuted, C91_table_refuted, C92_amplifies_iff_resonant, C92_monotone, C92_response, C92_unit_shelf_refuted, C93_comb_diverges, C93_comb_tracks, C94_all_pass_tracks, C95_biquad_tracks, C95_ringing, C96_low_cutoff_refuted, C96_lowpass_dc_gain, C96_rounded_coefficients, C96_rounded_designs_stable, C97_designs_accurate, C97_fast_tan_f32, C97_low_cutoff_refuted, C97_setup_accuracy, C98_all_pass_flat_refuted, C98_all_pass_range, C98_all_pass_response, C98_comb_gain_range, C98_comb_peaks, C98_comb_peaks_fall, C98_comb_response, C99_four_points_accuracy, C99_four_points_same, C99_lagrange_accuracy, C99_lagrange_at_nodes, C99_lagrange_wrapped_accuracy, C99_whole_position_refuted, C100_decibels_accuracy, C100_order_kept, C100_round_trip_f32, C100_volt_ratio_accuracy, C101_bell_accuracy, C101_low_shelf_accuracy, C102_any_schedule, C102_equal_buffers_safe, C103_units_independent, C104_lost_update_refuted, C104_programs_are_calls, C104_shared_slice_race_refuted, C104_threads_finish, C104_threads_race_free, C105_dropped_buffer_refuted, C106_functional_any_accumulator, C106_soft_is_instance, C106_wavetable_any_accumulator, C106_wavetable_outside_refuted, C107_bell_follows, C107_design_error, C107_designs_follow, C107_filter_follows, C107_low_shelf_follows, C110_audio_rate_overflow_refuted, C110_f32_held, C110_f32_small_feedback, C110_f32_tracks, C110_peak, C111_network_bounded, C111_network_tracks, C112_idle_silent, C112_instrument_bounded, C112_note_ends, C112_voice_bounded, C113_allpass_silent, C113_biquad_hum_refuted, C113_biquad_quiet, C113_click_refuted, C113_comb_circulates, C113_comb_hum_refuted, C113_comb_quiet, C114_network_fades, C114_network_quiet, C114_note_fades, C115_live_bounded, C116_f32_comb_decay, C116_sixty_db, C117_f32_ring_down, C118_f32_network_falls, C118_stable_networks_fall, C118_stable_runs_fall, C119_live_tracks, C119_live_tracks_inputs, C120_f32_live_falls, C122_note_falls, C122_play_bounded, C122_play_is_chain, C122_untouched_silent.
<!-- end -->

   All four are axioms of Coq's standard library: `sig_not_dec` and `sig_forall_dec`
   (the classical Dedekind reals), `functional_extensionality_dep` and
   `Classical_Prop.classic`. They enter through `Reals` and Flocq's theory of rounding
   (even for integer facts about `f32` bit patterns, whose proofs go through values).
   `coqchk -o` prints 30 names for the whole development. Besides these four they are
   fields of two standard library modules sealed by a signature (`Rdefinitions` for the
   reals, `ssrunder` from ssreflect), which it reports although they have definitions.
3. **The reading of the Rust source**: definitions in `M_*.v` cite the lines they
   transcribe; helpers that stand for `core` operations (pointer arithmetic, byte order,
   casts, slicing, `sum`) cite none and say what they stand for. `/repo` was not compiled, so the transcription is by eye.
4. **Language semantics** in `Base.v` and `F32.v`: integer overflow panics or wraps
   according to the build, `as` casts saturate, `f32` arithmetic is IEEE-754 binary32
   round-to-nearest-even with unspecified NaN payloads (`NanPolicy`), slice indexing
   panics out of range, raw pointer access outside its allocation is undefined behaviour.
5. **External crates** (sources not available): `micromath::F32Ext` is an arbitrary
   `MathOps`; hypotheses about it are spelled out in the theorems that need them
   (`power_ok`, `power_monotone`, `floor_ok` and the like), each with an instance that
   meets it (the real readings use `exact_powi`, `exact_sqrt`, `exact_log_pow`).
   `tock-registers` is used for three bit fields only; that `Field.mask` is the unshifted
   mask is an assumption, since the crate could not be read here.

## 4. What is modelled and what is not

| Source | Model | Not modelled |
| --- | --- | --- |
| `src/memory/mod.rs`, `memory_slice.rs` | `M_Memory.v`, `M_RawSlice.v`, `M_Threads.v` (single accesses of get, assign, get_wrapped and the units' calls), for every build and pointer width | the `Mutability` newtypes with `get`/`get_mut`/`new`/`new_mut` (compile time only); derived `Debug` and `PartialEq` (derived `Clone`/`Copy` are using a value twice, C108); memory orderings weaker than sequential consistency |
| `src/float/interpolation.rs` | `M_Memory.v` | - |
| `src/delay_line.rs`, `all_pass.rs`, `comb.rs` | `M_Delay.v`, `M_RawSlice.v` | - |
| `src/biquad/*.rs` | `M_Biquad.v` | `PhantomData` marker types |
| `src/fixed_point/math.rs`, `oscillator/lookup_tables/mod.rs` | `M_Sine.v` | `const fn` evaluation (a compile-time panic is `Panic`) |
| `src/float/math.rs` | `M_Sine.v`, `M_FloatMath.v`, `M_BlRect.v`, `M_Integral.v` | - |
| `src/oscillator/lookup_tables/bl_rect.rs` | `M_BlRectTable.v`, generated from the source by a script; C77 holds for every content | rounding of the literals by the compiler is taken to be to the nearest f32 |
| `src/oscillator/*.rs` | `M_Oscillator.v` with the crate's `SoftPhaseAccumulator`; `M_OscGeneric.v` with any implementation of the trait | accumulators that also write the oscillator's table |
| `src/float/conversion.rs`, `bit_manipulation.rs` | `M_Bits.v` | - |
| `src/stereo.rs`, `decibels.rs`, `clipping.rs`, `float/dsp_util.rs` | `M_Levels.v` | - |
| `src/float/integral.rs` | `M_Integral.v`, with either start value of `Sum` | - |
| `src/envelope.rs` | `M_Envelope.v` | `get_state` is read as the field `e_state` |
| `src/lib.rs`, `float/mod.rs`, `fixed_point/mod.rs` | - | module declarations and re-exports only, no functions |
| `benches/`, `#[cfg(test)]` modules | - | not part of the library |

## 5. Wrong programs

`seeded/LOG.jsonl` records edits of the model that imitate realistic bugs, each made in
a scratch copy: the claim the edit breaks, the theorems whose proofs then fail (directly
or because a lemma they rest on fails), and the theorems added or tightened when an edit
slipped through.
