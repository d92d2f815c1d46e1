# Formal model of qm-dsp in Rocq (Coq 8.16.1): design

## Approach

* Every C/C++ function under study becomes a small total Gallina function, written
  statement by statement from `/repo`; each definition cites file and lines.
* Arrays (`std::vector`, `new double[n]`, C pointers) are Coq lists read and written only
  through checked accessors (`aget`, `aset` in `theories/Base/Imp.v`), whose outcome is
  `OK v`, `UB` (undefined behaviour: out-of-range index, division by zero, uninitialised read)
  or `Throw` (C++ exception). A loop is `for_up`/`for_down`. A theorem that says "the model returns
  `OK r` with r = specification" therefore includes memory safety.
* `int` is `Z`. Overflow is modelled explicitly (32 bit) only where the property is about it
  (C15); elsewhere sizes are assumed to fit (stated below).
* Sample arithmetic: two regimes.
  1. *Order-of-evaluation faithful*: the carrier and its operations (+, -, *, comparison, 0) are
     arbitrary `Section` variables without algebraic laws. The theorem then holds for IEEE
     doubles bit for bit (Filter, FiltFilt, MedianFilter, Framer, Decimator, Resampler,
     DownBeat buffer, ...).
  2. *Exact arithmetic*: Coq's `R` (or an abstract ring/field), for properties which are
     algebra or analysis (DFT, princarg, normalise, Viterbi/HMM, distances). Rounding is
     not modelled there; this is the main gap between model and code for these properties.
* Reals with infinities and NaN (`Base/Xreal.v`), for code whose divisions by zero matter: exact arithmetic on
  finite values, x/0 = ±infinity or NaN (zero divisors count as +0), comparisons with NaN false. No rounding, overflow or
  underflow.
* IEEE binary64 (`Base/Double.v`, on Flocq's BinarySingleNaN): rounding to nearest even after every operation, overflow,
  infinities, a single NaN. No fused multiply-add, no extended precision. Used from C107 on.
* Threads: interleaving transition system with explicit mutex/condition-variable state.
* Specifications are written separately from the models (`...Spec.v`), and the property
  theorems live in `theories/Properties/*.v`, which hold only statements closed by
  `exact lemma` and `Print Assumptions`.

## What is modelled, per property

Directories are under `rocq/theories`; `…Model.v` transcribes the code, `…Spec.v` is the independent
specification, `…Proofs.v`/`…Results.v` hold lemmas, `…Case.v` concrete cases. Where the property is
false of the code, a theorem `…_refuted` gives a witness.

| Id | What is modelled (directory) | How it is proved |
|----|------------------|------------------|
| C01-C03 | Filter constructor, process, reset; two offset buffers (Signal) | simulation: buffer window = last inputs/outputs; induction on the stream; block split by append; order-0 IIR refuted |
| C04 | FiltFilt::process with its scratch arrays (Signal) | loops to closed form + C01; second-call purity refuted |
| C05, C06 | MedianFilter push/get/reset/filter (Signal) | sorted permutation of the window; instantiated with IEEE comparison |
| C07, C08 | Framer (Signal) | closed form of frame k; reuse without rewinding refuted |
| C09, C10, C44 | Decimator (Rate) | transposed form vs difference equation; in-place by memory model; gain bounds by summing the impulse response |
| C43, C44 | DecimatorB (Rate) | as C09, per stage |
| C82, C83 | Decimator, DecimatorB (Rate) | steady state of a tone by complex response in real form; settling from the certificate of C44; squared magnitudes as Chebyshev polynomials in the cosine, sign by verified subdivision |
| C11-C13 | Resampler (Rate) | invariant relating phase, buffer window and stream position; `Base/Dbl.v` (Flocq) for the ceiling expression |
| C14-C17, C45-C49 | MathUtilities (Maths) | floor/real analysis; 32-bit ints with overflow as undefined behaviour for C15, C45 |
| C18 | BlockAllocator (Thread) | invariant over a heap of blocks; reallocation refuted |
| C19, C20, C50 | AsynchronousTask, Thread, Mutex, Condition (Thread) | transition system, inductive invariant, termination measure; spurious wake-ups refuted |
| C21, C51 | GetKeyMode::process and accessors (Key) | ring-buffer invariants; index range |
| C22, C23 | TempoTrackV2::calculateBeats (Tempo) | dynamic-programming optimality |
| C24, C52, C53 | TempoTrackV2::viterbi_decode, calculateBeatPeriod, filter_df (Tempo) | dynamic-programming optimality; interval arithmetic |
| C25, C26, C54 | DownBeat (Tempo) | buffer invariant; arithmetic progression |
| C27-C29, C55-C57 | hmm.c (Hmm) | Viterbi = maximum over all paths; forward-backward = sums over all paths; EM inequality with fixed densities (re-estimated ones: C105) |
| C30-C33 | kissfft, FFT, FFTReal, DCT (Fft) | mixed-radix recursion with a root of unity, every factorisation |
| C34 | PhaseVocoder (Vocoder) | real analysis + induction over frames |
| C35, C58-C60 | DFProcess, PeakPicking, Quadratic fit, norms (Onset) | closed forms; scale invariance of the whole chain |
| C86-C90 | TempoTrack (Tempo/Track…) | frame-loop invariant in any arithmetic; instantiated over reals with infinities and NaN; pairs of runs compared frame by frame |
| C91 | DFProcess, PeakPicking over reals with infinities and NaN (Onset/Dfx…) | C58 transported along the inclusion of the reals; NaN followed through filter state |
| C36-C38 | Correlation, CosineDistance, KLDivergence (Measures) | Cauchy-Schwarz, log inequality |
| C39, C63, C64, C65 | cluster_melt, cluster_segmenter, ClusterMeltSegmenter::segment (Seg) | loop invariants; refinement to a relational specification of annealing; composition with the HMM theorems; uniqueness of run-length encodings |
| C92-C96 | ClusterMeltSegmenter::initialise, extractFeatures, segment as one object (Seg/Extract*) | invariant over client histories; composition of the decimator, constant-Q, MFCC, FFT and window theorems; numeric witnesses |
| C40, C61, C62 | ConstantQ, Chromagram (Chroma) | loop invariants; DFT algebra (correlation theorem, rotation); error bound by triangle inequality |
| C97-C100 | Wavelet (Wavelet) | two-channel filter bank algebra; integer arithmetic on the tables; rounding bound from Flocq |
| C101-C103 | invert of hmm.c with LAPACK's LU factorisation and inversion (Lapack); covariances during training (Hmm/HmmPosdef.v) | blocked loops refined to P A = L U and to solving with the factors; determinant by expansion, its multiplicativity from the factors; positive definiteness as invariant of Baum-Welch |
| C104 | as C39 (Seg/MeltConstant.v, SegConstant.v) | singular covariance leaves training, decoding gives state 0; majority smoothing of types shrinks runs at the ends |
| C105, C106 | hmm_train (Hmm/HmmGauss.v, HmmFixed.v; Lapack/LogDet.v) | EM inequality on sums over paths; ln det S - ln det A <= tr(A^-1 S) - n by triangular factors; weighted means minimise quadratic forms; order of likelihoods decides the stopping test |
| C107 | Decimator, DecimatorB in IEEE binary64 (Base/Double.v; Rate/RoundProofs.v, RoundClass.v) | rounding errors as a disturbance of the difference equation, bounded through 1/A by the certificate of C44; induction over time |
| C108, C109 | princarg and the phase unwrapping of PhaseVocoder in IEEE binary64 (Maths/Double*.v, Vocoder/PvDouble*.v) | M_PI located by Machin's formula; error of each operation; floor exact below 2^52; induction over frames |
| C110 | class FFT and kiss_fft in IEEE binary64 (Fft/FftGen.v generic in the scalars, equal to FftModel.v over the reals; Fft/FftDouble.v) | radices are 4 or prime (trial division); error of each butterfly in units of the largest input; induction over the stages; the exact stage taken from the proof over the reals |
| C111 | kiss_fftr and class FFTReal in IEEE binary64 (Fft/FftrDouble.v) | what each call stores, then errors of packing and unpacking in units of the largest bin; the exact identities and the half-size transform taken from C33 and C110; the square root by relative and absolute rounding errors |
| C112 | class DCT in IEEE binary64 (Fft/DctDouble.v) | what each call stores; an invariant bounding the residue in the even samples of the time buffer over any sequence of calls; errors of the scale factors; the exact transforms from C33 and the DCT proofs over the reals; the refutation runs the model with a table of cos and sin proved accurate |
| C113-C117 | sum, mean, normalise, round, adaptiveThreshold, factorial of MathUtilities in IEEE binary64 (Maths/StatDouble.v) | Rump's argument for sums (error (n-1) u without higher order terms); monotone rounding; doubles as multiples of a power of two for round; exhaustive kernel computation for the finite factorials, induction for the infinite ones |
| C118, C119 | Filter and Resampler in IEEE binary64: the models of C01 and C11, which are for any arithmetic, with that of Base/Double.v (Signal/FilterDouble*.v, Rate/ResamplerDouble.v) | error of a dot product; the errors of the steps as a disturbance of the recursion, which is convolved with its impulse response |
| C120 | the whole of PhaseVocoder in IEEE binary64 (Vocoder/PvWhole*.v), on FFTReal of C111 and the unwrapping of C109 | magnitudes and phases of a frame do not depend on the phases kept, so a run is the run of C109 on the phases measured; the error of a bin is that of C111 plus those of the square root and atan2 |
| C121 | CosineDistance in IEEE binary64 (Measures/CosDouble*.v): the code of C37 with double operations | rounded sums of products against Cauchy-Schwarz; the refutations by computation on bits |
| C122 | Correlation in IEEE binary64 (Measures/AutoDouble*.v) | rounded sum of products, division, and the comparison with 0 |
| C123 | MathUtilities::median in IEEE binary64 (Maths/MedDouble*.v) for any sorting function | order statistics by counting over the values; monotone rounding keeps the mean between the two middle values |
| C41 | Window, KaiserWindow, SincWindow (Windows) | trigonometry |
| C66-C68 | pca.c: covcol, tred2, tqli, pca_project (Pca) | A z = z T by induction over reflections; orthonormality and tridiagonal-plus-bulge form through each rotation; Frobenius error of every neglected coupling; order refuted |
| C69-C71 | DetectionFunction (Onset) | state invariant over call sequences on top of C34; polar coordinates unique; angle arithmetic |
| C72-C77 | TonalEstimator, TCSGram, ChangeDetectionFunction (Tonal) | sums rotated by addition formulas; smoothing as a finite convolution |
| C78-C81 | MFCC (Mfcc) | filter and cosine matrices in closed form on top of C34; orthogonality of the cosine transform |
| C84 | BeatSpectrum (Rhythm) | closed form of the accumulation on top of C37; in any arithmetic (Rhythm/BeatSpecAny.v) for the repetition of the values |
| C85 | Pitch (Pitch) | logarithms; uniqueness of the nearest semitone |
| C42 | Polyfit (Polyfit) | Gauss-Jordan elimination over the reals |

## Trusted base

1. **The Coq 8.16.1 kernel** (`coqc`, and `coqchk` in the gate). No kernel check is switched off; no axioms
   of our own, no `Admitted`, no functors or module types.
2. **Axioms of the standard library** listed by `Print Assumptions`; [ASSUMPTIONS.md](ASSUMPTIONS.md) gives them for every
   theorem. They are the axioms of Coq's real numbers (`sig_forall_dec`, `sig_not_dec`,
   `functional_extensionality_dep`) and `classic`, which comes with parts of the real analysis library
   and Flocq. Theorems about arbitrary arithmetic are closed under the global context.
3. **The correspondence of model and code**: that the Gallina functions transcribe the cited lines. This is by
   inspection. Nothing was compiled or run.
4. **The reading of the English statements** as the theorems in `rocq/theories/Properties`.

## What the model leaves out

General:

* Arrays are lists with checked access; reading or writing outside, reading memory that was never written
  (where the value would matter) and dividing an int by zero are `UB`. Uninitialised memory is a parameter of
  arbitrary contents. Allocation always succeeds; freeing is not modelled except in C18. Merely forming a
  pointer past the end is not an error; `&(v[0])` of an empty vector is treated as harmless.
* Distinct array arguments do not overlap, except where overlap is the subject (C10, C41 in place).
* `int` is `Z`; overflow is modelled in C15, C45, C30-C33 (index into the twiddle factors, sizes) and
  assumed away elsewhere. `size_t` overflow is not modelled.
* "Exact reals" means rounding, infinities, NaN and signed zero do not exist in the model. Division by zero in
  Coq's reals yields some real; where the code divides by something that may be zero the model returns `UB` or
  a hypothesis excludes it. Theorems for "any arithmetic" make no assumption about + - * / < and hold
  bit for bit for IEEE doubles evaluated without excess precision or contraction.

By part:

* **Filter, FiltFilt, MedianFilter, Framer**: any arithmetic. The int obtained from `size*p/100.f` in MedianFilter is
  a parameter.
* **Decimator, DecimatorB**: coefficient literals are exact decimals in C44, C82 and C83, the nearest doubles in C107,
  arbitrary values elsewhere.
* **Resampler**: the filter is computed over exact reals (C11-C13 hold for any filter); the conversion of the Kaiser
  length to int is assumed to be in range; C12_ceil_in_double treats the only expression where rounding could change a count.
* **BlockAllocator**: fresh region ids instead of addresses; words, not bytes; sizeof(size_t) = 8.
* **Threads**: sequentially consistent interleaving; one waiter per condition; recursive Windows mutexes not modelled.
* **GetKeyMode**: chroma frame and buffer sizes are inputs; profile literals are n/10000.
* **TempoTrackV2**: the transition weight of calculateBeats is a parameter in C22; periods are reals or whole numbers as stated;
  int overflow for periods above 2^30 not modelled; only the previous column of the delta matrix is kept.
* **TempoTrack**: beat periods and the locked tempo are exact reals; positions and sizes unbounded integers; the values
  `abs(1.0-abs(log(i/j)/log(2.0)))` are arbitrary (abs may be the int version); smoothing and correlation are DfxModel and MeasModel on finite
  input, anything else being `UB` (shown not to happen); the number of frames is at most INT_MAX. A loop that runs until memory is exhausted is `Diverge`.
* **DownBeat**: the FFT is a parameter; positions are assumed below 2^64.
* **hmm.c**: inversion as in C101, other uses of dgemm/ddot by definition; `rand()/RAND_MAX` is an arbitrary stream in [0,1]; hmm_close,
  hmm_print not modelled. With a zero determinant the densities are infinite or NaN: the likelihood is then NaN from the second observation on (proved in
  Hmm/HmmSingular.v over reals with infinities and NaN), on which hmm_train returns the model as it is (one observation with a zero determinant: `UB`); decoding then
  runs over reals with infinities.
* **LAPACK/BLAS** (Lapack): dgetrf_, dgetf2_, dlaswp_, dgetri_, dtrtri_, dtrti2_ and the BLAS routines they call, with the arguments they have below `invert`
  (square matrices in column order, leading dimension L, no transposition other than used); ilaenv's answer 64 is a constant, dlamch's smallest number an arbitrary
  real; argument checks by xerbla, which do not trigger, are left out. The HAVE_ATLAS branch is not modelled; `free` neither (ipiv is leaked).
* **kissfft/FFT/FFTReal/DCT**: no FIXED_POINT, SIMD or OpenMP; input and output arrays distinct; `floor(sqrt(n))` is exact;
  do-while loops as counted loops.
* **PhaseVocoder**: exact atan2 without signed zero; in C109 (doubles) the measured phases are inputs. C120 (doubles) has the whole class; atan2 of the C library is a parameter, required to be finite, at most 4 and, unless both arguments are zero, right up to 2^-50.
* **FFT, FFTReal and DCT in doubles** (C110, C111, C112): cos and sin of the C library are parameters, required to be within 2^-52 of the true values; no fused multiply-add or extended precision. The square root is correctly rounded. Of the callers of the transforms only PhaseVocoder is covered in doubles (C120).
* **CosineDistance and Correlation in doubles** (C121, C122): values are finite (no NaN or infinity in the data); the constants 1e-20 and 2.2204e-016 are the doubles nearest to them; sqrt is correctly rounded. C121 leaves out vectors whose sum of squares is below 2^-400 or above 2^400. Input and output of doAutoUnBiased do not overlap.
* **Polyfit**: the determinant, which nothing reads, is omitted.
* **DFProcess/PeakPicking/norms**: all-zero input (0/0) is `UB` in C35, C58-C60 and follows NaN arithmetic in C91 (std::sort of an array of NaN leaves it unchanged; of a mixture is `UB`, which C91 shows not to happen); pow of non-negative reals, orders >= 1; `break` as skipping the rest.
* **DetectionFunction**: 0/0 in whitening is `UB`; log10 of 0 exceeds no threshold.
* **ConstantQ/Chromagram**: positive frequencies and BPO >= 1; whole-octave bin counts exact; overflow of 2*FFTLength not
  modelled; the unused private unityNormalise not modelled.
* **Segmentation**: PCA is a parameter in C39 (instantiated in C66); `rand()` is any stream; the unused branches of cluster_segment and the
  segment() overloads for C callers are left out.
* **Feature extraction for segmentation**: the object as a whole with its decimator, constant-Q, MFCC, FFT and window members, memory from `new` being arbitrary;
  the histories considered are those a client can produce (`life` in Seg/ExtractResults.v). Leaks and the destructor are left out.
* **PCA**: the convergence test `fabs(e)+dd == dd` is a parameter of given relative accuracy; everything else exact; `exit` is `Throw`.
* **Tonal**: `pow(x, 0.5)` is sqrt; the frame duration left uninitialised by TCSGram's constructor is a parameter; conversion to a
  64-bit long outside its range is `UB`; printDebug, clear, reserve and maxTCS not modelled.
* **MFCC**: calloc succeeds; a pow without finite result is `UB`; the field ceps, which nothing reads, is omitted.
* **BeatSpectrum**: fewer than 2^31 frames.
* **Pitch**: exact reals instead of float; conversion to int outside its range is `UB`.
* **Windows**: Kaiser for length >= 2.

* **Wavelets**: literals are rounded to doubles; the two output vectors are distinct; the filtering, which the library leaves to its user, is exact.

Not modelled at all: the routines of ext/ (CBLAS, CLAPACK) that the library does not call.

## Testing the theorems

`seeded/LOG.jsonl` records mutants of the model: a realistic bug is written into a copy of the model, everything that depends
on it is rebuilt and the theorems that no longer prove are listed. A mutant that falsifies a claim but survives makes
the theorem too weak; it is then tightened.
