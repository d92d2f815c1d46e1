{"id": "C01", "title": "Filter computes its difference equation over the whole stream", "statement": "For a Filter built from coefficients (a,b) of order >= 1 (or FIR), the concatenation of the outputs of any sequence of process() calls equals, sample by sample and in the same order of arithmetic operations, the direct-form difference equation y[s] = sum_i b[i] x[s-i] - sum_{i>=1} a[i] y[s-i] evaluated over the concatenation of the inputs with zeros before the start. The internal buffering never shows, and no access leaves a buffer.", "quantifier": "all coefficient vectors accepted by the constructor, all input streams, all ways of cutting the stream into blocks (including empty blocks), any arithmetic (so IEEE doubles bit for bit)", "why_tests_cant": "The circular offset wraps only every 21 samples and interacts with order and block cuts; a test fixes one order, one stream and one cut.", "anchors": ["dsp/signalconditioning/Filter.cpp: Filter::Filter, Filter::process"]}
{"id": "C02", "title": "Filter::reset is indistinguishable from a new filter", "statement": "After any history of process() calls, reset() followed by any further sequence of process() calls gives exactly the outputs a newly constructed filter with the same coefficients gives.", "quantifier": "all coefficient vectors, all histories before the reset, all streams after it", "why_tests_cant": "Ranges over all histories; stale state can hide at any offset.", "anchors": ["dsp/signalconditioning/Filter.cpp: Filter::reset, Filter::process"]}
{"id": "C03", "title": "Filter never accesses memory outside its buffers", "statement": "For every pair of coefficient vectors the constructor accepts, no sequence of process()/reset() calls reads or writes outside the filter's own buffers.", "quantifier": "all accepted coefficient vectors (including a single (a,b) pair, i.e. order 0), all call sequences", "why_tests_cant": "The offending write for order-0 IIR happens only on the 21st sample and may not crash.", "anchors": ["dsp/signalconditioning/Filter.cpp: Filter::Filter, Filter::process"]}
{"id": "C04", "title": "FiltFilt is a pure zero-phase function of its input", "statement": "Each FiltFilt::process call returns forward-backward filtering of its input extended by point reflection over 3*order samples at each end (zeros where the input is too short), and two calls with the same input on one object return the same output.", "quantifier": "all coefficients of order >= 1, all inputs of any length, all earlier calls on the object", "why_tests_cant": "Depends on the state left by earlier calls; tests build a fresh object each time.", "anchors": ["dsp/signalconditioning/FiltFilt.cpp: FiltFilt::process"]}
{"id": "C05", "title": "MedianFilter returns the percentile of the last size pushed values", "statement": "After any sequence of push()/reset() calls, get()/getAt(p) is the order statistic at index min(size-1, int(size*p/100)) of the multiset of the last size pushed values (zeros standing for values not yet pushed since construction or reset, NaNs counted as 0).", "quantifier": "all sizes >= 1, all percentiles in [0,100], all push histories", "why_tests_cant": "The filter keeps two arrays updated incrementally with binary searches; a corrupt sorted array appears only for specific duplicates patterns and histories.", "anchors": ["maths/MedianFilter.h: MedianFilter::push, MedianFilter::get, MedianFilter::getAt, MedianFilter::drop, MedianFilter::put, MedianFilter::reset"]}
{"id": "C06", "title": "MedianFilter::filter is centred and length preserving", "statement": "MedianFilter::filter(size, in) returns a vector of the same length as in whose k-th element is the median of the window of size values centred on in[k], with zeros outside the input.", "quantifier": "all sizes >= 1, all input vectors of any length (including shorter than half the window)", "why_tests_cant": "Off-by-one latency handling at both ends for every relation of size to length.", "anchors": ["maths/MedianFilter.h: MedianFilter::filter"]}
{"id": "C07", "title": "Framer covers the source with zero-padded hops", "statement": "After configure and setSource, the k-th call of getFrame returns source samples k*hop .. k*hop+frameLength-1, zero beyond the end of the source, for every k below getMaxNoFrames() = ceil(length/hop), without accessing memory outside source or frame.", "quantifier": "all frame lengths, hops >= 1, source lengths and contents, every frame index", "why_tests_cant": "All relations between frame, hop and length (last partial frames).", "anchors": ["dsp/signalconditioning/Framer.cpp: Framer::configure, Framer::getFrame, Framer::setSource, Framer::getMaxNoFrames"]}
{"id": "C08", "title": "Framer can be reused for another source", "statement": "Calling setSource again makes the Framer deliver the frames of the new source from its beginning, without out-of-bounds access.", "quantifier": "all pairs of sources and all numbers of frames taken from the first", "why_tests_cant": "Ranges over call histories; memory errors may go unnoticed.", "anchors": ["dsp/signalconditioning/Framer.cpp: Framer::setSource, Framer::getFrame", "dsp/tempotracking/TempoTrack.cpp: TempoTrack::process"]}
{"id": "C09", "title": "Decimator output is the decimated order-7 IIR response of the whole stream", "statement": "For a supported factor f in {2,4,8,...}, the outputs of successive process() calls, concatenated, are every f-th sample of the order-7 recursive anti-alias filter's response to the concatenated input; so the result depends on the stream only, not on the block length, whenever blocks are multiples of f.", "quantifier": "all supported factors, all streams, all block lengths that are multiples of the factor", "why_tests_cant": "All streams and all cuts.", "anchors": ["dsp/rateconversion/Decimator.cpp: Decimator::doAntiAlias, Decimator::process, Decimator::initialise"]}
{"id": "C10", "title": "Decimator may be run in place", "statement": "The header promises src and dst may be the same or overlap: process() returns the same output values whether dst is a separate buffer or overlaps src.", "quantifier": "all factors, all relative offsets of dst to src, all inputs", "why_tests_cant": "All overlap offsets.", "anchors": ["dsp/rateconversion/Decimator.cpp: Decimator::process", "dsp/rateconversion/Decimator.h"]}
{"id": "C11", "title": "Resampler output sample j is a fixed windowed-sinc sum of the input", "statement": "The j-th sample ever produced by a Resampler is sum_k filter[...]*x[...] with the filter centred on input time (j - latency)*source/target; the value and position do not depend on how the input stream was divided into process() calls.", "quantifier": "all rate pairs (integers >= 1), all prototype filters, all input streams, all ways of cutting them into blocks", "why_tests_cant": "The phase/buffer bookkeeping must be right for every coprime ratio and every cut; tests sample a few.", "anchors": ["dsp/rateconversion/Resampler.cpp: Resampler::initialise, Resampler::process, Resampler::reconstructOne"]}
{"id": "C12", "title": "Resampler::process never writes more than ceil(n*target/source) samples", "statement": "Each process() call on n input samples writes and returns at most ceil(n*target/source) samples, and the total number returned after N input samples is ceil(N*target/source) or one more, for every call history.", "quantifier": "all rate pairs, all n >= 0, all call histories", "why_tests_cant": "Number theory over all coprime pairs and histories; an excess write by one sample is a silent heap overflow.", "anchors": ["dsp/rateconversion/Resampler.cpp: Resampler::process"]}
{"id": "C13", "title": "Resampler::resample returns a latency-compensated signal of the right length", "statement": "resample(source,target,data,n) returns exactly ceil(n*target/source) samples, output j being the filter centred on input time j*source/target, and performs no out-of-range access or negative-length copy.", "quantifier": "all rate pairs, all n >= 0", "why_tests_cant": "Trimming arithmetic for all ratios.", "anchors": ["dsp/rateconversion/Resampler.cpp: Resampler::resample"]}
{"id": "C14", "title": "princarg wraps to one turn and keeps the angle", "statement": "MathUtilities::princarg(x) differs from x by an integer multiple of 2*pi and lies in a half-open interval of length 2*pi; the documented interval is [-pi, pi).", "quantifier": "all real x", "why_tests_cant": "All reals; end points are measure zero and never hit by tests.", "anchors": ["maths/MathUtilities.cpp: MathUtilities::mod, MathUtilities::princarg", "maths/MathUtilities.h"]}
{"id": "C15", "title": "power-of-two helpers", "statement": "isPowerOfTwo(x) holds exactly for x = 2^k; nextPowerOfTwo is the least power of two >= x (1 for x<1), previousPowerOfTwo the greatest <= x (1 for x<1), nearestPowerOfTwo the closest of the two with ties to the higher; no int overflow for x <= 2^30.", "quantifier": "all int values (32 bit)", "why_tests_cant": "2^32 inputs; overflow is undefined behaviour that tests may not show.", "anchors": ["maths/MathUtilities.cpp: MathUtilities::isPowerOfTwo, nextPowerOfTwo, previousPowerOfTwo, nearestPowerOfTwo"]}
{"id": "C16", "title": "circShift rotates", "statement": "circShift(data, length, shift) rotates the array right by shift positions for shift >= 0: result[(i+shift) mod length] = original[i]; contents are permuted, nothing is lost.", "quantifier": "all lengths >= 1, all shifts >= 0, all contents", "why_tests_cant": "All lengths and shifts, including shifts beyond the length.", "anchors": ["maths/MathUtilities.cpp: MathUtilities::circShift"]}
{"id": "C17", "title": "normalise reaches its norm or leaves the data alone", "statement": "normalise with UnitSum makes the values sum to 1 unless their sum is 0, in which case they are unchanged; with UnitMax makes the maximum absolute value 1 unless all values are 0, in which case they are unchanged; with None nothing changes; ratios between values are kept. The pointer and vector overloads agree.", "quantifier": "all vectors of reals", "why_tests_cant": "All vectors.", "anchors": ["maths/MathUtilities.cpp: MathUtilities::normalise"]}
{"id": "C18", "title": "BlockAllocator never hands out overlapping memory", "statement": "For any sequence of allocate/deallocate calls in which only live pointers are deallocated, every pointer returned is distinct from, and does not overlap, any live element, and lies inside an owned block.", "quantifier": "all element sizes >= 1, all block sizes >= 1, all histories of calls", "why_tests_cant": "All histories; a corrupt free list shows only after particular interleavings of allocate/deallocate.", "anchors": ["thread/BlockAllocator.h: BlockAllocator"]}
{"id": "C19", "title": "AsynchronousTask: awaitTask returns only after the task has completed", "statement": "If the owner calls startTask then awaitTask, awaitTask returns only when performTask has run to completion exactly once for that start, whatever the scheduling of the two threads.", "quantifier": "all interleavings, any number of start/await rounds", "why_tests_cant": "Scheduler-dependent; tests see few interleavings.", "anchors": ["thread/AsynchronousTask.h: AsynchronousTask::startTask, awaitTask, run", "thread/Thread.cpp: Condition::wait, Condition::signal"]}
{"id": "C20", "title": "AsynchronousTask never deadlocks under the documented protocol", "statement": "With each startTask followed by awaitTask, and destruction after that, no reachable state is stuck: awaitTask is always eventually enabled and the destructor's join succeeds.", "quantifier": "all interleavings, any number of rounds", "why_tests_cant": "Lost wake-ups are schedule dependent.", "anchors": ["thread/AsynchronousTask.h: AsynchronousTask", "thread/Thread.cpp"]}
{"id": "C21", "title": "GetKeyMode always returns a valid key", "statement": "GetKeyMode::process returns a key number in 1..24 for every sequence of frames, and the smoothed chroma it uses is the mean of the last min(frames seen, buffer) frames.", "quantifier": "all frame contents, all numbers of frames before, all buffer sizes", "why_tests_cant": "Ring buffers wrap after hundreds of frames; all contents.", "anchors": ["dsp/keydetection/GetKeyMode.cpp: GetKeyMode::process, GetKeyMode::krumCorr, GetKeyMode::getKeyStrengths"]}
{"id": "C22", "title": "TempoTrackV2::calculateBeats yields strictly increasing in-range beats and terminates", "statement": "The beats returned are strictly increasing, lie in [0, df length), and the back-trace terminates.", "quantifier": "all detection functions, all beat periods >= 1 covering the df, all alpha and tightness", "why_tests_cant": "All inputs; termination.", "anchors": ["dsp/tempotracking/TempoTrackV2.cpp: TempoTrackV2::calculateBeats"]}
{"id": "C23", "title": "TempoTrackV2 beats maximise the cumulative score", "statement": "The score computed by calculateBeats for each frame is the maximum over all admissible predecessor chains of the recursively weighted sum, and the returned beats are a chain attaining it.", "quantifier": "all detection functions and beat periods", "why_tests_cant": "Optimality over exponentially many chains.", "anchors": ["dsp/tempotracking/TempoTrackV2.cpp: TempoTrackV2::calculateBeats"]}
{"id": "C24", "title": "TempoTrackV2 Viterbi decoding returns a best period path", "statement": "The beat-period path decoded from the comb-filter matrix maximises the product of observation and transition weights among all state paths.", "quantifier": "all matrices and weightings with nonnegative entries", "why_tests_cant": "Optimality over all paths.", "anchors": ["dsp/tempotracking/TempoTrackV2.cpp: TempoTrackV2::viterbi_decode"]}
{"id": "C25", "title": "DownBeat audio buffer holds exactly the pushed blocks", "statement": "After any history of pushAudioBlock and resetAudioBuffer calls getBufferedAudio returns the decimation of the whole pushed stream, restricted to the blocks pushed since construction or the last reset, in order and nothing else, and no write leaves a buffer.", "quantifier": "all histories of pushes and resets; the documented factors (powers of two up to 64) and more generally any factor up to 8 or multiple of 8, dividing the block size; any arithmetic", "why_tests_cant": "Reallocation occurs at specific counts.", "anchors": ["dsp/tempotracking/DownBeat.cpp: DownBeat::pushAudioBlock, getBufferedAudio, resetAudioBuffer"]}
{"id": "C26", "title": "DownBeat downbeats are every bpb-th beat", "statement": "findDownBeats returns beat indices d, d+T, d+2T, ... below the number of beats, with T the beats-per-bar (4 if unset) 0 <= d < T and d the first phase of largest mean spectral change, and never reads audio outside the given length (without audio it returns nothing).", "quantifier": "all audio, all lists of nonnegative beat times in any order, all beats-per-bar", "why_tests_cant": "All inputs, out-of-range reads.", "anchors": ["dsp/tempotracking/DownBeat.cpp: DownBeat::findDownBeats"]}
{"id": "C27", "title": "HMM viterbi_decode returns a most probable state sequence", "statement": "The state sequence written by viterbi_decode maximises log p0 + sum log a + sum log b among all state sequences of that length.", "quantifier": "all models (N >= 1 states), all observation sequences of length T >= 1", "why_tests_cant": "Exponentially many sequences.", "anchors": ["hmm/hmm.c: viterbi_decode"]}
{"id": "C28", "title": "HMM forward-backward posteriors are normalised", "statement": "After forward_backwards, for each time the state posteriors gamma sum to 1 and are nonnegative, for each time before the last the pair posteriors xi sum to 1, and their marginals over the next state give gamma.", "quantifier": "all models with positive total likelihood, all observation sequences", "why_tests_cant": "All models; scaling hides errors numerically.", "anchors": ["hmm/hmm.c: forward_backwards"]}
{"id": "C29", "title": "Baum-Welch keeps the model stochastic", "statement": "After baum_welch, the initial distribution and every row of the transition matrix are nonnegative and sum to 1.", "quantifier": "all posteriors with nonzero occupancy", "why_tests_cant": "All inputs and every iteration.", "anchors": ["hmm/hmm.c: baum_welch, hmm_train"]}
{"id": "C30", "title": "FFT computes the discrete Fourier transform", "statement": "FFT::process(false, ...) of size n returns X[k] = sum_j x[j] exp(-2*pi*i*j*k/n), for every n >= 1 (prime factors of any size).", "quantifier": "all n >= 1, all complex inputs (exact arithmetic)", "why_tests_cant": "All sizes and factorizations; the code has special radices 2,3,4,5 and a generic one.", "anchors": ["dsp/transforms/FFT.cpp: FFT::process", "ext/kissfft/kiss_fft.c: kf_work, kf_factor, kf_bfly2, kf_bfly3, kf_bfly4, kf_bfly5, kf_bfly_generic"]}
{"id": "C31", "title": "FFT inverse undoes forward", "statement": "FFT::process(true, FFT::process(false, x)) = x for every complex x and every size.", "quantifier": "all n >= 1, all inputs (exact arithmetic)", "why_tests_cant": "All sizes.", "anchors": ["dsp/transforms/FFT.cpp: FFT::process", "ext/kissfft/kiss_fft.c"]}
{"id": "C32", "title": "FFTReal agrees with the complex transform and inverts", "statement": "FFTReal::forward of a real signal of even size n equals the complex DFT in all n bins (conjugate half filled in) and FFTReal::inverse(forward(x)) = x; odd sizes are rejected with std::invalid_argument.", "quantifier": "all even n >= 2, all real inputs (exact arithmetic)", "why_tests_cant": "All sizes, packing/unpacking tricks at DC/Nyquist/middle bins.", "anchors": ["dsp/transforms/FFT.cpp: FFTReal::forward, FFTReal::inverse", "ext/kissfft/tools/kiss_fftr.c"]}
{"id": "C33", "title": "DCT is a type-II DCT and inverts", "statement": "DCT::forward returns X[k] = 2*sum x[j] cos(pi*k*(2j+1)/(2n)) and inverse(forward(x)) = x; the unitary versions are mutually inverse and preserve the energy sum x^2.", "quantifier": "all n >= 1, all real inputs (exact arithmetic)", "why_tests_cant": "All sizes.", "anchors": ["dsp/transforms/DCT.cpp: DCT::forward, DCT::inverse, forwardUnitary, inverseUnitary"]}
{"id": "C34", "title": "PhaseVocoder unwrapped phase", "statement": "The unwrapped phase returned for each bin is congruent to the measured phase modulo 2*pi (relative to earlier frames) and differs from the previous unwrapped value plus the expected hop advance by at most pi; over any frame sequence the accumulated unwrapped phase stays congruent to the measured phase.", "quantifier": "all frame sequences, all sizes and hops", "why_tests_cant": "Accumulates over arbitrarily many frames.", "anchors": ["dsp/phasevocoder/PhaseVocoder.cpp: PhaseVocoder::unwrapPhases, FFTShift"]}
{"id": "C35", "title": "PeakPicking onsets are in range and ordered", "statement": "The onsets returned by PeakPicking::process are strictly increasing indices of the detection function, each a strict local maximum of the smoothed function with positive value, and inputs shorter than 4 return no onset and leave the data alone.", "quantifier": "all detection functions and parameters", "why_tests_cant": "All inputs.", "anchors": ["dsp/onsets/PeakPicking.cpp: PeakPicking::process, PeakPicking::quadEval"]}
{"id": "C36", "title": "Autocorrelation output is strictly positive", "statement": "Correlation::doAutoUnBiased writes, for each lag, sum of lagged products divided by the number of terms, floored at a positive epsilon, so each output is > 0 and >= the true value.", "quantifier": "all lengths and inputs", "why_tests_cant": "All inputs.", "anchors": ["maths/Correlation.cpp: Correlation::doAutoUnBiased"]}
{"id": "C37", "title": "CosineDistance is a bounded symmetric dissimilarity", "statement": "distance(v,w) is in [0,2] up to the epsilon regularisation, symmetric, 0 on positively proportional vectors up to that regularisation, and 1 for mismatched sizes.", "quantifier": "all vectors of reals", "why_tests_cant": "All vectors (Cauchy-Schwarz).", "anchors": ["maths/CosineDistance.cpp: CosineDistance::distance"]}
{"id": "C38", "title": "KLDivergence is nonnegative and symmetrised", "statement": "distanceGaussian is nonnegative, zero on identical arguments and symmetric; distanceDistribution with symmetrised=true is symmetric and nonnegative for equal-sum distributions.", "quantifier": "all means, positive variances, positive distributions", "why_tests_cant": "All inputs (analysis inequality).", "anchors": ["maths/KLDivergence.cpp: KLDivergence::distanceGaussian, distanceDistribution"]}
{"id": "C39", "title": "Segmentation partitions the timeline", "statement": "The segments produced are contiguous, start at 0, end at number-of-features times hop, have positive length, adjacent segments have different types, and each type is one of the nsegtypes types documented as {0,...,nsegtypes-1}.", "quantifier": "all feature sequences, all cluster counts", "why_tests_cant": "All assignment sequences.", "anchors": ["dsp/segmentation/ClusterMeltSegmenter.cpp: ClusterMeltSegmenter::makeSegmentation", "dsp/segmentation/cluster_melt.c: cluster_melt", "dsp/segmentation/Segmenter.h"]}
{"id": "C40", "title": "ConstantQ is a linear map of the spectrum and stays in its buffers", "statement": "ConstantQ::process maps the FFT data linearly to K complex bins as the sparse-kernel product, leaves nothing from the previous call, and writes only the K output bins.", "quantifier": "all kernels, all FFT frames, both overloads", "why_tests_cant": "All inputs; a one-past-the-end write is silent.", "anchors": ["dsp/chromagram/ConstantQ.cpp: ConstantQ::process"]}
{"id": "C41", "title": "Window shapes are symmetric/periodic and bounded", "statement": "Window<T> of any type and size n >= 1 has n coefficients, w[i] = w[n-i] for 0 < i < n (periodic symmetry), Hann and Hamming values lie in [0,1]; cut multiplies elementwise; KaiserWindow is symmetric w[i] = w[n-1-i] with values in (0,1].", "quantifier": "all sizes and types", "why_tests_cant": "All sizes, odd and even.", "anchors": ["base/Window.h: Window::encache, Window::cut", "base/KaiserWindow.cpp: KaiserWindow::init"]}
{"id": "C42", "title": "Quadratic fit solves the least-squares problem", "statement": "When TPolyFit::PolyFit2 succeeds, the coefficients it returns satisfy the normal equations, so that no other polynomial of the same degree has a smaller sum of squared residuals.", "quantifier": "all point sets and degrees for which the system is solvable", "why_tests_cant": "All data sets.", "anchors": ["maths/Polyfit.h: TPolyFit::PolyFit2, GaussJordan, Square"]}
{"id": "C43", "title": "DecimatorB output is the iterated half-band cascade of the whole stream", "statement": "For a factor that is a power of two >= 2 dividing the block length, the outputs of successive DecimatorB::process() calls, concatenated, are the concatenated input passed log2(factor) times through 'order-6 recursive filter, keep every second sample', each stage's filter running over its whole stream; other factors leave the output untouched.", "quantifier": "all factors, block lengths, streams, block cuts; any arithmetic", "why_tests_cant": "The per-stage delay lines and shared scratch buffers interact over blocks and stages.", "anchors": ["dsp/rateconversion/DecimatorB.cpp: DecimatorB::initialise, DecimatorB::doAntiAlias, DecimatorB::doProcess, DecimatorB::process"]}
{"id": "C44", "title": "Decimator anti-alias filters are stable with unit gain at DC", "statement": "For each of the shipped coefficient tables the filter's response to every bounded input is bounded by a fixed multiple of the input bound for all time, and a constant input is passed with gain 1 up to 1e-6.", "quantifier": "all bounded input streams of any length; each shipped coefficient table", "why_tests_cant": "Boundedness for every input and all time is a statement about the poles; a finite run cannot settle it.", "anchors": ["dsp/rateconversion/Decimator.cpp: Decimator::initialise", "dsp/rateconversion/DecimatorB.cpp: DecimatorB::initialise"]}
{"id": "C45", "title": "gcd and factorial", "statement": "gcd(a,b) is the greatest common divisor for every a >= 0, b >= 1 and terminates; factorial(n) = n! in exact arithmetic.", "quantifier": "all positive ints; all n", "why_tests_cant": "All inputs.", "anchors": ["maths/MathUtilities.cpp: MathUtilities::gcd, MathUtilities::factorial"]}
{"id": "C46", "title": "getMax finds the first maximum", "statement": "getMax returns the least index at which the largest value occurs, and that value; getFrameMinMax returns the least and greatest value; nothing outside the given length is read when it is at least 1.", "quantifier": "all arrays of length >= 1", "why_tests_cant": "All arrays, ties included.", "anchors": ["maths/MathUtilities.cpp: MathUtilities::getMax, MathUtilities::getFrameMinMax"]}
{"id": "C47", "title": "median is the mean of the middle order statistics", "statement": "median(src,len) is the order statistic of rank len/2 for odd len and the mean of the two middle ones for even len; src is not modified.", "quantifier": "all arrays", "why_tests_cant": "All arrays, both parities.", "anchors": ["maths/MathUtilities.cpp: MathUtilities::median"]}
{"id": "C48", "title": "adaptiveThreshold subtracts the local mean", "statement": "adaptiveThreshold replaces each value by max(0, value - mean of the original values from 8 before to 7 after it as far as they exist); it uses the original values, not already thresholded ones.", "quantifier": "all vectors", "why_tests_cant": "All lengths, including shorter than the window.", "anchors": ["maths/MathUtilities.cpp: MathUtilities::adaptiveThreshold, MathUtilities::mean"]}
{"id": "C49", "title": "round rounds half away from zero", "statement": "round(x) is an integer at distance at most 1/2 from x and, at distance exactly 1/2, the one farther from 0.", "quantifier": "all real x", "why_tests_cant": "All x.", "anchors": ["maths/MathUtilities.cpp: MathUtilities::round"]}
{"id": "C50", "title": "AsynchronousTask: the shared flags are never touched without the lock", "statement": "In every execution under the documented protocol, whenever the owner or the worker reads or writes the flags they share, that thread holds the same mutex; so there is no data race on them.", "quantifier": "all interleavings, any number of rounds, pthreads and Windows implementations", "why_tests_cant": "A data race shows only under particular schedules and memory models.", "anchors": ["thread/AsynchronousTask.h: AsynchronousTask::startTask, run, ~AsynchronousTask", "thread/Thread.cpp: Condition"]}
{"id": "C51", "title": "GetKeyMode's key strengths explain its key", "statement": "After any sequence of frames getKeyStrengths returns 24 values in [-1,1], the value for each key being the best Pearson correlation of the mean of the last frames with the three transpositions of that key's profile, and the best key of a frame is a strongest one.", "quantifier": "all frame contents and numbers of frames, all buffer sizes >= 1", "why_tests_cant": "All inputs; correlation bounds are analytic.", "anchors": ["dsp/keydetection/GetKeyMode.cpp: GetKeyMode::getKeyStrengths, GetKeyMode::krumCorr"]}
{"id": "C52", "title": "TempoTrackV2 beat periods lie between 20 and 107 frames and suffice for beat tracking", "statement": "calculateBeatPeriod on more than 640 values fills every beat period with a whole number of frames between 20 and 107, following a best path through its own fit values, appends for each the tempo 60*rate/increment/period, and stays inside the buffers when beat_period is as long as the data; on at most 640 values it changes nothing. calculateBeats on these periods always succeeds with increasing in-range beats.", "quantifier": "all detection functions, both weightings, all positive input tempi", "why_tests_cant": "All contents and lengths, and the composition of two stages.", "anchors": ["dsp/tempotracking/TempoTrackV2.cpp: TempoTrackV2::calculateBeatPeriod, TempoTrackV2::get_rcf, TempoTrackV2::viterbi_decode"]}
{"id": "C53", "title": "The detection function smoothing of TempoTrackV2 adds no delay", "statement": "Smoothing the detection function is linear, by a kernel which is symmetric and positive semidefinite and depends only on the length: it is the same two-pole filter run forwards and backwards from rest.", "quantifier": "all detection functions of any length", "why_tests_cant": "All inputs; symmetry of an operator.", "anchors": ["dsp/tempotracking/TempoTrackV2.cpp: TempoTrackV2::filter_df"]}
{"id": "C54", "title": "DownBeat spectral differences", "statement": "getBeatSD returns one value for each beat passed to findDownBeats less one (as documented), each a Jensen-Shannon divergence, hence between 0 and ln 2.", "quantifier": "all audio, all lists of nonnegative beat times", "why_tests_cant": "Range over all inputs.", "anchors": ["dsp/tempotracking/DownBeat.cpp: DownBeat::measureSpecDiff, getBeatSD", "dsp/tempotracking/DownBeat.h: getBeatSD"]}
{"id": "C55", "title": "HMM re-estimation never lowers the likelihood", "statement": "One round of forward_backwards and baum_welch gives initial and transition probabilities under which the observations (with the same state densities) are at least as likely as before.", "quantifier": "all models with stochastic or substochastic rows, all state densities with positive total likelihood, any number of states and observations", "why_tests_cant": "Monotonicity of expectation maximisation over all inputs.", "anchors": ["hmm/hmm.c: forward_backwards, baum_welch"]}
{"id": "C56", "title": "HMM initialisation and training keep all probabilities positive and normalised", "statement": "hmm_init returns, whatever rand() returns, positive initial and transition probabilities summing to one, means within a quarter standard deviation of the data mean and a diagonal covariance of sample variances; hmm_train ends after at most fifty rounds and keeps the probabilities positive and summing to one.", "quantifier": "all observation sequences of at least two vectors, all numbers of states, all values of rand()", "why_tests_cant": "Every iteration on every input.", "anchors": ["hmm/hmm.c: hmm_init, hmm_train"]}
{"id": "C57", "title": "HMM re-estimated means and covariance are meaningful", "statement": "baum_welch writes means within the range of the data in each dimension (for each state with nonzero occupancy) and a symmetric positive semidefinite covariance; gauss is the exponential of loggauss.", "quantifier": "all observations, all posteriors", "why_tests_cant": "All inputs.", "anchors": ["hmm/hmm.c: baum_welch, gauss, loggauss"]}
{"id": "C58", "title": "DFProcess output is the zero-phase filtered function less its running median", "statement": "DFProcess::process subtracts the minimum, divides by the norm of the configured order, filters forwards and backwards and subtracts, at each time, the median of the values from winPre before to winPost after it (as far as they exist) and the threshold, clipping at 0 if configured; it stays within its buffers.", "quantifier": "all detection functions (not all zero), filters, window extents and calls on one object; data of any length", "why_tests_cant": "Running medians with truncated windows at both ends for every length and window.", "anchors": ["dsp/signalconditioning/DFProcess.cpp: DFProcess::process, medianFilter, removeDCNormalize"]}
{"id": "C59", "title": "Peak picking does not depend on loudness", "statement": "Multiplying the detection function by any positive constant gives the same onsets, the same smoothed function and the same later behaviour of the object.", "quantifier": "all detection functions, all positive factors, all configurations and histories", "why_tests_cant": "Relational property over all inputs.", "anchors": ["dsp/onsets/PeakPicking.cpp: PeakPicking::process", "dsp/signalconditioning/DFProcess.cpp: DFProcess::process"]}
{"id": "C60", "title": "Norms satisfy their defining equations", "statement": "getAlphaNorm is the power mean of the given order, getLpNorm the p-norm; normaliseLp returns a vector of p-norm exactly 1, proportional to the input unless the input's norm is below the threshold (then constant), and returns the input for order 0 or empty data.", "quantifier": "all vectors, all orders at least 1, all positive thresholds", "why_tests_cant": "All inputs and orders.", "anchors": ["maths/MathUtilities.cpp: getAlphaNorm, getLpNorm, normaliseLp"]}
{"id": "C61", "title": "Constant-Q bins measure the frequencies they stand for", "statement": "Bin k of the constant-Q transform is the correlation of the (time-reversed) signal with a Hamming-windowed complex exponential lying wholly inside the frame, whose frequency is at most min*2^(k/BPO) and less than one part in its length below it; only the constant part of the signal is left out, and thresholding changes the result by no more than threshold/N times the sum of the spectrum's magnitudes.", "quantifier": "all configurations with positive frequencies and BPO >= 1, all signals and spectra, all bins", "why_tests_cant": "An error bound and an identity over all signals and configurations.", "anchors": ["dsp/chromagram/ConstantQ.cpp: ConstantQ::sparsekernel, ConstantQ::process, ConstantQ::initialise"]}
{"id": "C62", "title": "A chroma frame depends on nothing but its input frame, and not on its level", "statement": "Chromagram::process returns BPO values, each the sum over all octaves of the magnitudes of the bins of one pitch class, normalised as configured (nonnegative; sum or maximum 1, or all zero); the same frame gives the same result whatever was processed before, a frame of samples gives what the spectrum of its windowed rotated version gives, and when normalising, multiplying the input by any nonzero constant changes nothing.", "quantifier": "all configurations, frames and histories of calls of both overloads", "why_tests_cant": "Relational property over all inputs and call histories.", "anchors": ["dsp/chromagram/Chromagram.cpp: Chromagram::initialise, Chromagram::process", "maths/MathUtilities.cpp: normalise"]}
{"id": "C63", "title": "Histogram clustering is deterministic annealing with a proper distance", "statement": "The distance of two histograms is symmetric, not negative, zero only for equal histograms and at most (sum of both) ln 2; cluster_melt performs rounds of first-best assignment and reference update until stable (20 or 5 rounds per temperature), always writes types 1..k, and its result depends neither on uninitialised memory nor on what the array held before.", "quantifier": "all non-negative histograms, temperature schedules, numbers of clusters, neighbour limits and values of rand(); the last part for any arithmetic", "why_tests_cant": "Properties of every annealing run, including relational ones.", "anchors": ["dsp/segmentation/cluster_melt.c: kldist, cluster_melt"]}
{"id": "C64", "title": "State histograms count what they should", "statement": "The histogram of a frame counts the states of the frames around it within half the histogram length, those at both ends repeat the nearest complete one, and all are scaled to norm 1 as the code says.", "quantifier": "all state sequences of at least the window length, all numbers of states", "why_tests_cant": "All sequences and positions including the edges.", "anchors": ["dsp/segmentation/cluster_segmenter.c: create_histograms"]}
{"id": "C65", "title": "Constant-Q features for segmentation are normalised", "statement": "Frames become decibel values of norm 1 with a level between 0 and 1 relative to the loudest frame, which gets exactly 1; chroma features are magnitudes added over whole octaves.", "quantifier": "all feature matrices, numbers of coefficients and bins", "why_tests_cant": "All inputs.", "anchors": ["dsp/segmentation/cluster_segmenter.c: mpeg7_constq, cq2chroma"]}
{"id": "C66", "title": "PCA projects onto orthonormal eigenvectors of the scatter matrix", "statement": "pca_project either exits for want of convergence or leaves, in the first ncomponents columns, the coordinates of the centred rows along orthonormal axes which are eigenvectors of the scatter matrix up to an explicit error proportional to the accuracy of the convergence test; the remaining of the m columns are centred, further columns are untouched; no access is out of bounds and nothing is divided 0/0.", "quantifier": "all data matrices of any size, numbers of columns m >= 1 and components <= m, any content of uninitialised memory, any convergence test of relative accuracy eps", "why_tests_cant": "Whole-algorithm correctness of Householder reduction and implicit QL for matrices of every size.", "anchors": ["maths/pca/pca.c: covcol, tred2, tqli, pca_project"]}
{"id": "C67", "title": "Principal components are uncorrelated and keep distances", "statement": "The components have mean zero, the scalar product of two different components is zero up to the error and that of one with itself is its eigenvalue; distances between rows never grow and are kept exactly if all components are kept.", "quantifier": "all data, sizes and numbers of components", "why_tests_cant": "Relational properties of all rows and components.", "anchors": ["maths/pca/pca.c: pca_project"]}
{"id": "C68", "title": "Principal components come in order of decreasing variance", "statement": "The first component returned is the one of greatest variance, so that keeping the first few keeps the most.", "quantifier": "all data and numbers of components", "why_tests_cant": "Needs a counterexample search over data or a proof about the QL algorithm, which does not sort.", "anchors": ["maths/pca/pca.c: tqli, pca_project"]}
{"id": "C69", "title": "Onset detection functions return what they are named after", "statement": "For every sequence of frames, of samples or of bins in any mixture, each call returns the configured function (high-frequency content, spectral difference, phase deviation, complex difference, broadband rise count) of the spectra of this frame and the one or two before, silence standing for frames before the first; frames with the same spectra give the same values; the magnitudes reported are those used; measured and unwrapped phases agree up to whole turns.", "quantifier": "all even frame lengths, configurations, call sequences and contents of fresh memory", "why_tests_cant": "Stateful function of unbounded call sequences.", "anchors": ["dsp/onsets/DetectionFunction.cpp: processTimeDomain, processFrequencyDomain, runDF, HFC, specDiff, phaseDev, complexSD, broadband"]}
{"id": "C70", "title": "Adaptive whitening keeps magnitudes between 0 and 1", "statement": "With whitening, every reported magnitude lies between 0 and 1, is at least the magnitude divided by the loudest so far, and is 1 when the bin is at its loudest above the floor; the level followed falls back geometrically; multiplying the input and the floor by the same factor changes nothing.  A floor of 0 with silence at the start is undefined.", "quantifier": "all frame sequences, floors and relaxation coefficients", "why_tests_cant": "Invariant of unbounded histories.", "anchors": ["dsp/onsets/DetectionFunction.cpp: whiten, getSpectrumMagnitude"]}
{"id": "C71", "title": "Detection functions respond to level and steadiness as expected", "statement": "Without whitening a gain multiplies high-frequency content, spectral difference and complex difference and leaves phase deviation and the broadband count unchanged; phase deviation is at most pi per bin and 0 exactly when all phases advance as before; the complex difference is at least the total change of magnitude and 0 exactly when every bin is as predicted; the broadband count is a whole number of bins.", "quantifier": "all frame sequences, gains and configurations", "why_tests_cant": "Relational and universally quantified.", "anchors": ["dsp/onsets/DetectionFunction.cpp: runDF"]}
{"id": "C72", "title": "The tonal centroid places chroma on the circles of fifths and thirds", "statement": "transform2TCS returns the chroma-weighted sums of points on three circles (fifths, major thirds, minor thirds; radii 1, 0.6, 1.1); transposing the chroma by k semitones turns each point by k steps and leaves the magnitude unchanged; a fifth, major third and minor third are single steps on their circles; the values are bounded by the chroma's total.", "quantifier": "all twelve-bin chroma vectors and all transpositions", "why_tests_cant": "Relational property over all real vectors.", "anchors": ["dsp/tonal/TonalEstimator.cpp: TonalEstimator::TonalEstimator, transform2TCS", "dsp/tonal/TonalEstimator.h: TCSVector::magnitude"]}
{"id": "C73", "title": "The harmonic change function is the distance between smoothed centroids before and after a frame", "statement": "ChangeDetectionFunction::process returns one value per frame: the Euclidean distance between the Gaussian-smoothed tonal centroid of the frame before and the one after; transposing the whole piece leaves it unchanged.", "quantifier": "all sequences of frames and smoothing widths >= 0, all transpositions", "why_tests_cant": "Relational property over all sequences.", "anchors": ["dsp/tonal/ChangeDetectionFunction.cpp: setFilterWidth, process"]}
{"id": "C74", "title": "The harmonic change function scales with gain, reverses with time and looks only nearby", "statement": "A gain multiplies the function by its absolute value; the function of the reversed piece is the reversed function; the value at a frame depends only on frames at most the smoothing width plus one away, and is 0 where these are all equal.", "quantifier": "all sequences of frames, widths, gains and positions", "why_tests_cant": "Relational and locality properties over all inputs.", "anchors": ["dsp/tonal/ChangeDetectionFunction.cpp: process"]}
{"id": "C75", "title": "A piece whose harmony never changes shows no change, and smoothing does not amplify", "statement": "process is defined for every input; for a constant piece all values are 0; with a filter width of 0 frames pass unchanged.", "quantifier": "all constant pieces, widths and contents of uninitialised memory", "why_tests_cant": "Needs a proof, or a refutation for every piece and for uninitialised data.", "anchors": ["dsp/tonal/ChangeDetectionFunction.cpp: setFilterWidth, process", "dsp/tonal/TCSgram.cpp: addTCSVector"]}
{"id": "C76", "title": "A TCSGram keeps its frames and their times", "statement": "After adding vectors, getTCSVector gives them back in order (a zero vector for any other index), getTime is the whole number of milliseconds at which the frame starts and never decreases, getDuration is that of all frames.", "quantifier": "all sequences of vectors and frame durations for which the times fit 64 bits", "why_tests_cant": "Unbounded sequences of calls.", "anchors": ["dsp/tonal/TCSgram.cpp: addTCSVector, getTCSVector, getTime, getDuration, setFrameDuration"]}
{"id": "C77", "title": "Chroma normalisation removes level", "statement": "ChromaVector::normalizeL1 gives a vector whose absolute values sum to 1, proportional to the input, the same for any gain; only near-silence becomes exact silence.", "quantifier": "all twelve-bin vectors and positive gains", "why_tests_cant": "All real inputs.", "anchors": ["dsp/tonal/TonalEstimator.h: ChromaVector::normalizeL1"]}
{"id": "C78", "title": "MFCCs are the cosine transform of mel-band levels, whatever was processed before", "statement": "Each call of MFCC::process writes nceps coefficients (one more with C0) and nothing else: the orthonormal cosine transform of the (powers of) decimal logarithms of the outputs of 40 triangular filters applied to the magnitudes below half the sampling rate; samples are windowed and transformed first; the result depends only on these magnitudes, not on earlier calls or on polarity; silence gives zeros. For odd sizes the constructor throws.", "quantifier": "all even FFT sizes, configurations, spectra, frames and call histories", "why_tests_cant": "Functional correctness over all inputs and unbounded call histories.", "anchors": ["dsp/mfcc/MFCC.cpp: MFCC::MFCC, MFCC::process"]}
{"id": "C79", "title": "Level affects only coefficient 0 of the MFCCs", "statement": "Multiplying the input by a positive gain g adds sqrt(40) log10(g) to coefficient 0 and leaves all others unchanged.", "quantifier": "all spectra, positive gains and configurations", "why_tests_cant": "Relational property; fails for some sampling rates for every input.", "anchors": ["dsp/mfcc/MFCC.cpp: MFCC::MFCC, MFCC::process"]}
{"id": "C80", "title": "MFCCs keep the energy of the band levels and determine them", "statement": "The squares of coefficients 0 to 39 sum to the squares of the 40 levels, fewer sum to no more; they determine the band outputs; coefficients from 41 on repeat earlier ones with the sign changed.", "quantifier": "all spectra", "why_tests_cant": "Universally quantified identities.", "anchors": ["dsp/mfcc/MFCC.cpp: MFCC::MFCC, MFCC::process"]}
{"id": "C81", "title": "The mel filters cover their range without gaps", "statement": "The corner frequencies increase strictly; each filter is positive exactly between its corners with its peak in the middle corner; every bin strictly between the lowest and highest corner is heard by one or two neighbouring filters.", "quantifier": "all frequencies, sampling rates and FFT sizes", "why_tests_cant": "All real frequencies.", "anchors": ["dsp/mfcc/MFCC.cpp: MFCC::MFCC"]}
{"id": "C82", "title": "Decimator passes the band it keeps and attenuates what would alias", "statement": "Decimating a sum of tones by 2, 4 or 8 gives, after a settling time that depends only on the total amplitude and the tolerance, the sum of the same tones at the decimated rate, each with a gain and phase shift depending only on its frequency. The gain is never above 1.00001; it is at least 0.9998 up to 0.8 of the new Nyquist frequency and at most 0.10005 from the new Nyquist frequency upwards. Other factors are not filtered: every f-th sample is taken as it is, and a tone at the output rate comes out as a constant at full strength.", "quantifier": "all numbers, amplitudes, frequencies and phases of tones, all block lengths that are multiples of the factor, all numbers of blocks", "why_tests_cant": "A continuum of frequencies and unbounded time: tests can only probe single frequencies for finite times.", "anchors": ["dsp/rateconversion/Decimator.cpp: Decimator::initialise, Decimator::doAntiAlias, Decimator::process", "dsp/rateconversion/Decimator.h"]}
{"id": "C83", "title": "DecimatorB passes the band it keeps and attenuates what would alias", "statement": "Decimating a sum of tones by 2^k gives, after settling, the sum of the same tones at the decimated rate, with gains depending only on frequency: at most 1.00001^k everywhere, at least 0.9893^k up to 0.8 of the new Nyquist frequency, at most 0.70712 * 1.00001^(k-1) (3 dB) from the new Nyquist frequency upwards, and at most 0.0052 * 1.00001^(k-1) (45 dB) where the frequency lies in the upper quarter of the band of some stage.", "quantifier": "all factors 2^k with 1 <= k <= 30, all tones, block lengths and numbers of blocks", "why_tests_cant": "A continuum of frequencies and unbounded time.", "anchors": ["dsp/rateconversion/DecimatorB.cpp: DecimatorB::initialise, DecimatorB::doAntiAlias, DecimatorB::doProcess"]}
{"id": "C84", "title": "BeatSpectrum measures self-similarity at each lag", "statement": "For n frames BeatSpectrum::process returns n/2 values without leaving its arrays, whatever the frames. Value k is proportional to the total cosine distance between each of the first n/2 frames and the frame k+1 later; all values are positive and the largest is exactly 1. If the frames repeat with period p, so do the values, and if all frames have equal norm the lowest value is the one for lag p.", "quantifier": "all numbers of frames, frame lengths and values (the first sentence, and the repetition of the values, in any arithmetic)", "why_tests_cant": "Quantifies over all feature matrices and all periods.", "anchors": ["dsp/rhythm/BeatSpectrum.cpp: BeatSpectrum::process", "maths/CosineDistance.cpp: CosineDistance::distance"]}
{"id": "C85", "title": "Pitch and frequency conversions are inverse", "statement": "getPitchForFrequency returns a pitch and cents that getFrequencyForPitch maps back to the same frequency. From half a semitone below pitch 0 upwards the cents lie in [-50, 50), so the pitch is the nearest one; every pitch >= 0 with cents in that range is returned unchanged by converting to a frequency and back; a higher frequency never gets a lower pitch and twice the frequency gets 12 more with the same cents.", "quantifier": "all positive float frequencies and concert pitches, all cents", "why_tests_cant": "All real frequencies; the rounding step has corner cases near every half semitone.", "anchors": ["base/Pitch.cpp: Pitch::getFrequencyForPitch, Pitch::getPitchForFrequency"]}
{"id": "C86", "title": "TempoTrack finds beats in every stretch of the detection function", "statement": "For every detection function TempoTrack::process terminates without leaving its arrays. Splitting the positions into blocks of lagLength, each block that the detection function reaches contains at least one beat; within a block beats are equally spaced, the first less than one spacing after the start and the last less than one before the end; all beats are in increasing order and none lies beyond the last block.", "quantifier": "all detection functions up to 2^31-1 values, all window parameters and filters, all contents of uninitialised memory", "why_tests_cant": "Memory safety and termination for unbounded inputs and parameters.", "anchors": ["dsp/tempotracking/TempoTrack.cpp: TempoTrack::process, tempoMM, findMeter, phaseMM, beatPredict, createPhaseExtractor, stepDetect, constDetect"]}
{"id": "C87", "title": "TempoTrack reports one tempo per block, none or one between 30 and 180", "statement": "With a tempo vector given, process appends one value per block of lagLength: 0 as long as no tempo in the range was found, otherwise 5168 divided by a whole period between 1 and lagLength-1, between 30 and 180.", "quantifier": "all detection functions, filters, and window parameters with lag >= 3, window >= 4 lag + 3 and not 6p + 2 for a period p", "why_tests_cant": "Unbounded inputs.", "anchors": ["dsp/tempotracking/TempoTrack.cpp: TempoTrack::process, TempoTrack::tempoMM"]}
{"id": "C88", "title": "TempoTrack ignores level and looks ahead one window only", "statement": "Multiplying the detection function by a positive number changes neither beats nor tempi. The beats in the first K blocks and their tempi depend only on the detection function up to the end of the window that starts with block K.", "quantifier": "all detection functions, gains, K, filters, and window parameters as in the property before", "why_tests_cant": "Relational properties over pairs of unbounded runs.", "anchors": ["dsp/tempotracking/TempoTrack.cpp: TempoTrack::process", "dsp/signalconditioning/DFProcess.cpp: DFProcess::process"]}
{"id": "C89", "title": "A TempoTrack object can process several detection functions", "statement": "A second call of process on the same object gives the beats of its detection function.", "quantifier": "all pairs of detection functions", "why_tests_cant": "Depends on state left by unbounded earlier use.", "anchors": ["dsp/tempotracking/TempoTrack.cpp: TempoTrack::process", "dsp/signalconditioning/Framer.cpp: Framer::setSource, Framer::getFrame"]}
{"id": "C90", "title": "TempoTrack recovers after silence", "statement": "After a window of the detection function that is zero throughout, tempi follow the rest of the detection function.", "quantifier": "all detection functions with a silent window", "why_tests_cant": "Pairs of unbounded runs; NaN spreading through filter state.", "anchors": ["dsp/tempotracking/TempoTrack.cpp: TempoTrack::process", "dsp/signalconditioning/DFProcess.cpp: DFProcess::process", "maths/MathUtilities.cpp: MathUtilities::getAlphaNorm"]}
{"id": "C91", "title": "Smoothing and peak picking recover after silence", "statement": "DFProcess and PeakPicking accept detection functions that are zero throughout; later calls on other detection functions are not affected.", "quantifier": "all sequences of calls, filters of order at least 1 and parameters", "why_tests_cant": "Unbounded call histories; NaN spreading through filter state.", "anchors": ["dsp/signalconditioning/DFProcess.cpp: DFProcess::process", "dsp/onsets/PeakPicking.cpp: PeakPicking::process", "dsp/signalconditioning/FiltFilt.cpp: FiltFilt::process", "maths/MathUtilities.cpp: MathUtilities::getAlphaNorm"]}
{"id": "C92", "title": "A block of samples becomes one feature vector", "statement": "On an initialised ClusterMeltSegmenter each extractFeatures with a block of at least a window (exactly a window where the sampling rate is reduced) appends exactly one vector: per feature the average, over the half-overlapping frames of the decimated block that end before its last sample (at least one, zero padded), of the magnitude of a constant-Q bin of the windowed frame, or of a cepstral coefficient. It does not depend on uninitialised memory. A user would also expect it to depend on that block only, to use all of a longer block, and to average all frames that fit.", "quantifier": "all feature types, sampling rates, parameters, histories of initialise, extractFeatures and segment, blocks, contents of uninitialised memory", "why_tests_cant": "Unbounded histories, block lengths and parameters; uninitialised memory.", "anchors": ["dsp/segmentation/ClusterMeltSegmenter.cpp: extractFeatures, extractFeaturesConstQ, extractFeaturesMFCC, initialise", "dsp/rateconversion/Decimator.cpp: Decimator::process", "dsp/chromagram/ConstantQ.cpp: ConstantQ::process", "dsp/mfcc/MFCC.cpp: MFCC::process"]}
{"id": "C93", "title": "Short blocks, and blocks for a segmenter that is not initialised, change nothing", "statement": "extractFeatures leaves the object as it was for a block shorter than the window, before initialise, and after segment until the next initialise.", "quantifier": "all objects reached by any history, all blocks", "why_tests_cant": "Quantifies over all histories.", "anchors": ["dsp/segmentation/ClusterMeltSegmenter.cpp: extractFeaturesConstQ, extractFeaturesMFCC, segment"]}
{"id": "C94", "title": "A segmenter can be initialised for any rate, also anew", "statement": "initialise succeeds for every rate at which the lowest frequency has a kernel of more than one sample, keeps features and segmentation, and the object then works at that rate; between the internal rate and nine times it the rate worked at lies between half and twice the internal one. This holds for any earlier use of the object.", "quantifier": "all parameters, rates and earlier histories", "why_tests_cant": "Unbounded histories; failure depends on pairs of rates.", "anchors": ["dsp/segmentation/ClusterMeltSegmenter.cpp: initialise, getWindowsize", "dsp/rateconversion/Decimator.cpp: Decimator::process"]}
{"id": "C95", "title": "From samples to segments", "statement": "A new segmenter that is initialised, given n blocks, and asked to segment returns a segmentation of n hops: contiguous segments from 0, none empty, neighbours of different type, types being those of a clustering of the frames; it then holds no features and can be used again.", "quantifier": "all parameters, rates, numbers of blocks and samples, random numbers, contents of uninitialised memory", "why_tests_cant": "The whole pipeline over unbounded inputs.", "anchors": ["dsp/segmentation/ClusterMeltSegmenter.cpp: initialise, extractFeatures, segment", "dsp/segmentation/Segmenter.cpp"]}
{"id": "C96", "title": "Constant-Q and chroma features follow the level", "statement": "Multiplying all samples by g multiplies these features by |g|; none is negative. A user would also expect the window to emphasise the middle of a frame.", "quantifier": "all blocks, histories, gains and parameters", "why_tests_cant": "Relational over pairs of unbounded inputs.", "anchors": ["dsp/segmentation/ClusterMeltSegmenter.cpp: extractFeaturesConstQ", "base/Window.h: Window", "dsp/transforms/FFT.cpp: FFTReal::forward"]}
{"id": "C97", "title": "Wavelet filters are made with the length the wavelet has", "statement": "For every wavelet type createDecompositionFilters replaces the contents of both vectors by filters of the same, fixed length (2N for Daubechies and symlets, 6N for coiflets, those of the biorthogonal pairs, 102 for Meyer), whatever they held before, without failing an assertion; every type has a name and no two the same.", "quantifier": "all wavelet types, previous vector contents", "why_tests_cant": "Arbitrary previous contents; the rest is a finite table checked exhaustively.", "anchors": ["dsp/wavelet/Wavelet.cpp: Wavelet::createDecompositionFilters, Wavelet::getWaveletName", "dsp/wavelet/Wavelet.h: Wavelet::Type"]}
{"id": "C98", "title": "Nothing is lost by decomposing with a wavelet", "statement": "For every wavelet type there are two filters of the same length that rebuild any bounded signal, one filter length less one later, from what the low-pass and high-pass filters leave of it at half the rate, with an error of at most 2e-10 of its largest value (4e-8 for Symlet 30 and Coiflet 5, 6.25e-6 for Meyer, 2.9e-5 for Daubechies 40).", "quantifier": "all wavelet types, all bounded signals (two-sided infinite), all times", "why_tests_cant": "All signals; the filters that rebuild are not in the code.", "anchors": ["dsp/wavelet/Wavelet.cpp: Wavelet::createDecompositionFilters"]}
{"id": "C99", "title": "Orthogonal wavelets keep the energy", "statement": "For Haar, Daubechies, symlets, coiflets and Meyer the energies of the two half-rate parts of a finite signal add up to its energy, with the relative accuracy of the preceding property. (For the biorthogonal types this is false.)", "quantifier": "all orthogonal wavelet types, all finite signals", "why_tests_cant": "All signals of all lengths.", "anchors": ["dsp/wavelet/Wavelet.cpp: Wavelet::createDecompositionFilters"]}
{"id": "C100", "title": "Wavelets pass constants and block polynomials", "statement": "The low-pass filter of every wavelet multiplies constant signals by the square root of two (within 1e-13); the high-pass filter blocks every polynomial of a degree less than the order of the wavelet (N, 2N for coiflets, the first index for biorthogonal types), within 5.6e-11 of the sum of its coefficients per filter length (5.6e-10 for Coiflet 5, 2.8e-6 for Meyer).", "quantifier": "all wavelet types, all constants, all polynomials of the degree", "why_tests_cant": "All polynomials, all positions.", "anchors": ["dsp/wavelet/Wavelet.cpp: Wavelet::createDecompositionFilters"]}
{"id": "C101", "title": "Inverting a matrix gives its inverse", "statement": "For every invertible square matrix with at least one row, of any size, invert stores the inverse (on both sides, and unique) and returns the absolute value of the determinant, whatever the result held before and whatever the memory it allocates holds; a matrix is invertible exactly if its determinant is not zero.", "quantifier": "all sizes >= 1 (also above the block size of LAPACK), all matrices, previous contents, uninitialised memory", "why_tests_cant": "All sizes and all pivot orders, blocked and unblocked code.", "anchors": ["hmm/hmm.c: invert", "ext/clapack/src/dgetrf.c: dgetrf_", "ext/clapack/src/dgetf2.c: dgetf2_", "ext/clapack/src/dgetri.c: dgetri_", "ext/clapack/src/dtrtri.c: dtrtri_", "ext/cblas/src"]}
{"id": "C102", "title": "Singular matrices are reported", "statement": "invert ends the program with a message if the matrix is singular, as its error branch says. (It does not: the branch is never taken. The determinant returned is zero exactly for singular matrices.)", "quantifier": "all sizes >= 1, all matrices", "why_tests_cant": "Absence of an exit over all inputs.", "anchors": ["hmm/hmm.c: invert", "ext/clapack/src/dgetrf.c: dgetrf_"]}
{"id": "C103", "title": "Training never degenerates on data that span the space", "statement": "If the observations do not all lie in one hyperplane, the covariance after hmm_init and after every iteration of hmm_train is symmetric and positive definite, so it is always inverted, training is never given up for invalid numbers, and the model it ends with has such a covariance too.", "quantifier": "all data not in a hyperplane, numbers of states, random numbers, iterations", "why_tests_cant": "An invariant of the iterations over all real data.", "anchors": ["hmm/hmm.c: hmm_init, hmm_train, baum_welch, invert"]}
{"id": "C104", "title": "Features that do not vary give one segment", "statement": "If the feature vectors handed to a segmenter all agree in one coefficient (in particular if they are all the same), segment() returns one segment from the first frame to the last, whatever the other coefficients are and whatever rand() returns.", "quantifier": "all feature sequences constant in a coefficient, settings, random numbers, for at least four times as many frames as are counted as neighbours or at most one more than that", "why_tests_cant": "Over all features and random numbers; goes through training, decoding and annealing.", "anchors": ["dsp/segmentation/ClusterMeltSegmenter.cpp: setFeatures, segment", "dsp/segmentation/cluster_segmenter.c: cluster_segment", "dsp/segmentation/cluster_melt.c: cluster_melt", "hmm/hmm.c: hmm_init, hmm_train, viterbi_decode"]}
{"id": "C105", "title": "Training never makes the model worse", "statement": "For data that do not all lie in one hyperplane, no iteration of hmm_train lowers the density of the observations under the model (summed over all state sequences, with the Gaussian densities of the current means and covariance), and the model returned gives them at least the density they had under the model passed in. The log likelihood recorded in an iteration is the logarithm of that density.", "quantifier": "all data not in a hyperplane, numbers of states and dimensions, initial models with positive probabilities and positive definite covariance, iterations", "why_tests_cant": "An inequality between sums over all state sequences, over all real data and models. The covariance is computed about the old means, so it is not the textbook re-estimation.", "anchors": ["hmm/hmm.c: hmm_train, forward_backwards, baum_welch, loggauss, invert"]}
{"id": "C106", "title": "Training stops when it no longer improves the model", "statement": "hmm_train ends once the likelihood grows by less than 0.0001 of what it grew before. (It does not: unless all observations together have a larger density than the first alone had in the second iteration, all fifty iterations are made, even if none of them changes the model.)", "quantifier": "all data not in a hyperplane, numbers of states, initial models", "why_tests_cant": "Depends on the order of likelihoods over all iterations.", "anchors": ["hmm/hmm.c: hmm_train, forward_backwards"]}
{"id": "C107", "title": "Rounding errors of the decimators do not build up", "statement": "Decimator and DecimatorB, computed in IEEE doubles with rounded coefficients, never produce an infinity or NaN from finite samples of magnitude at most M, and however long the stream each output sample stays within 2e-8 M (factor 8), 1.25e-10 M (factor 4), 4e-12 M (other factors), k 2^k M / 2e13 (DecimatorB, k halvings) of the exact response of the filter with the coefficients as written.", "quantifier": "all streams of any length, block lengths, sample values up to 2^890 (2^850) in magnitude, factors, either sample type", "why_tests_cant": "A recursive filter feeds its rounding errors back; no finite test shows that they stay bounded for ever.", "anchors": ["dsp/rateconversion/Decimator.cpp: Decimator::doAntiAlias, Decimator::process", "dsp/rateconversion/DecimatorB.cpp: DecimatorB::doAntiAlias, DecimatorB::process"]}
{"id": "C108", "title": "princarg wraps angles also in floating point", "statement": "Computed in IEEE doubles, MathUtilities::princarg(x) differs from x by whole turns of the true 2*pi and lies in the documented range [-pi, pi], up to the rounding error of a few units of 2^-53 (|x| + 4), for every finite x.", "quantifier": "all finite doubles", "why_tests_cant": "There are 2^64 arguments; a test with a tolerance neither shows where the range is left nor how the error grows with the argument.", "anchors": ["maths/MathUtilities.cpp: MathUtilities::mod, MathUtilities::princarg"]}
{"id": "C109", "title": "Unwrapped phases stay accurate over long streams", "statement": "In IEEE doubles PhaseVocoder never returns an infinite or NaN unwrapped phase, and in frame t (from 0) the unwrapped phase of each bin is congruent to the measured phase modulo the true 2*pi, and within half a turn of its predecessor plus the bin's advance, up to 12 hop (t+1) (t+21) units of 2^-53; as long as 8 hop times the number of frames stays below 2^48.", "quantifier": "all frame sizes below 2^31, hop sizes up to 2^20, sequences of frames, measured phases", "why_tests_cant": "The running phase grows without limit and every frame adds rounding errors, of its own size and of M_PI; no finite run bounds their sum.", "anchors": ["dsp/phasevocoder/PhaseVocoder.cpp: PhaseVocoder::reset, PhaseVocoder::unwrapPhases", "maths/MathUtilities.cpp: MathUtilities::princarg"]}
{"id": "C110", "title": "The FFT is accurate in floating point", "statement": "In IEEE doubles, with a C library whose cos and sin are within 2^-52, FFT::process never returns an infinity or NaN for samples of modulus at most M, and each output differs from the exact transform by at most 44 w n M 2^-53 (forward) or 44 w M 2^-53 (inverse), where w is one more than the sum of the prime factors of n (2 log2 n + 1 for a power of 2). Forward then inverse gives the samples back within 108 w n M 2^-53. The rest of the output buffers is untouched and earlier calls do not matter.", "quantifier": "all sizes n up to 2^30, accurate libraries, earlier calls, buffers, samples with modulus bound M from 2^-900 to 2^860 (2^820 for the round trip)", "why_tests_cant": "Every size has its own factorisation and order of operations, and rounding errors depend on all samples; tests compare a few transforms with a tolerance.", "anchors": ["dsp/transforms/FFT.cpp: FFT::process", "ext/kissfft/kiss_fft.c: kiss_fft, kiss_fft_alloc, kf_work, kf_factor, kf_bfly2, kf_bfly3, kf_bfly4, kf_bfly5, kf_bfly_generic"]}
{"id": "C111", "title": "The real FFT is accurate in floating point", "statement": "In IEEE doubles, with a C library whose cos and sin are within 2^-52, FFTReal::forward, forwardMagnitude and inverse never return an infinity or NaN for samples of magnitude at most B (bins of modulus at most M), and each output differs from the exact transform by at most 124 w n B 2^-53 (forward), 181 w n B 2^-53 (forwardMagnitude) or 176 w M 2^-53 (inverse, of the conjugate-symmetric spectrum the bins 0..n/2 stand for), where w is one more than the sum of the prime factors of n. Forward then inverse gives the samples back within 352 w n B 2^-53. The rest of the output buffers is untouched and earlier calls do not matter.", "quantifier": "all even sizes n up to 2^30, accurate libraries, earlier calls, buffers, samples with bound B from 2^-900 to 2^800 (from 2^-400 to 2^450 for the magnitudes)", "why_tests_cant": "The packing into a half-size transform adds rounding errors of its own at every bin; they depend on all samples and on the factorisation of the size; tests compare a few transforms with a tolerance.", "anchors": ["dsp/transforms/FFT.cpp: FFTReal::forward, FFTReal::forwardMagnitude, FFTReal::inverse", "ext/kissfft/tools/kiss_fftr.c: kiss_fftr_alloc, kiss_fftr, kiss_fftri"]}
{"id": "C112", "title": "The cosine transform is accurate in floating point", "statement": "In IEEE doubles, with a C library whose cos and sin are within 2^-52, the four transforms of DCT never return an infinity or NaN for data of magnitude at most B, and differ from the exact transforms by an error proportional to B alone, whatever the object was used for before: 496 w n B 2^-53 (forward), 176 w B 2^-53 (inverse), 253 w sqrt(2n) B 2^-53 (forwardUnitary), 366 w sqrt(n) B 2^-53 (inverseUnitary), where w is one more than the sum of the prime factors of 4n; forward then inverse gives the data back within 849 w n B 2^-53.", "quantifier": "all sizes n up to 2^28, accurate libraries, sequences of earlier calls, buffers, data with bound B from 2^-800 to 2^800 (2^700 for inverseUnitary and the round trip)", "why_tests_cant": "The transform of size 4n has rounding errors at every sample that depend on all the data; a stale buffer is visible only after particular sequences of calls with data of very different magnitudes.", "anchors": ["dsp/transforms/DCT.cpp: DCT::DCT, DCT::forward, DCT::forwardUnitary, DCT::inverse, DCT::inverseUnitary", "dsp/transforms/FFT.cpp: FFTReal::forward, FFTReal::inverse"]}
{"id": "C113", "title": "Sums and means are accurate in floating point", "statement": "In IEEE doubles MathUtilities::sum and both mean functions never return an infinity or NaN for finite values whose magnitudes add up to at most 2^999, and differ from the exact sum by at most (n-1) 2^-53 times the sum of the magnitudes, from the exact mean by at most (n+1) 2^-53 times the mean magnitude plus 2^-1075. For no values both are 0.", "quantifier": "all counts n below 2^31, start positions, finite values", "why_tests_cant": "Rounding errors depend on all values and their order; tests add up a few.", "anchors": ["maths/MathUtilities.cpp: MathUtilities::sum, MathUtilities::mean"]}
{"id": "C114", "title": "normalise is accurate in floating point", "statement": "In IEEE doubles MathUtilities::normalise with NormaliseUnitSum divides finite values by their sum unless that is 0: the results are within about n units in the last place of the exact ones, and add up to 1 within 1.002 n 2^-53; non-negative values go to [0, 1]. With NormaliseUnitMax every result has magnitude at most 1, one has magnitude exactly 1, and each is the correctly rounded quotient; all-zero data stay as they are. Values beyond the given length are untouched.", "quantifier": "all lengths below 2^31, finite values whose magnitudes add up to at most 2^999 (any finite values for NormaliseUnitMax)", "why_tests_cant": "The sum is itself rounded, and whether it is 0 may depend on rounding; tests use a few small vectors.", "anchors": ["maths/MathUtilities.cpp: MathUtilities::normalise"]}
{"id": "C115", "title": "round gives the nearest integer in floating point", "statement": "Computed in IEEE doubles, MathUtilities::round(x) is the integer nearest to x, the one farther from zero if there are two, for every finite x.", "quantifier": "all finite doubles", "why_tests_cant": "There are 2^64 arguments, and the ones that go wrong are isolated.", "anchors": ["maths/MathUtilities.cpp: MathUtilities::round"]}
{"id": "C116", "title": "adaptiveThreshold is accurate in floating point", "statement": "In IEEE doubles MathUtilities::adaptiveThreshold replaces every value by the amount by which it exceeds the mean of the up to 8 values before it, itself and the up to 7 after it, or 0 if it does not, within 20 B 2^-53 + 2^-1074 for finite values of magnitude at most B; results are never negative, infinite or NaN.", "quantifier": "all data lengths, bounds B up to 2^900, values", "why_tests_cant": "Every position has a window of its own, and whether a value near the mean is cut depends on rounding; tests use a few vectors.", "anchors": ["maths/MathUtilities.cpp: MathUtilities::adaptiveThreshold, MathUtilities::mean"]}
{"id": "C117", "title": "factorial is accurate in floating point", "statement": "Computed in IEEE doubles, MathUtilities::factorial(x) is exactly x! for x up to 22, within 7 units of 2^-53 relative to x! up to 170, infinity above that, and 0 for negative x.", "quantifier": "all int arguments below the largest", "why_tests_cant": "Each argument has rounding errors of its own and overflow must persist for all larger ones; tests check a few exactly representable factorials.", "anchors": ["maths/MathUtilities.cpp: MathUtilities::factorial"]}
{"id": "C118", "title": "Rounding errors of stable filters do not build up", "statement": "In IEEE doubles each sample Filter writes satisfies the difference equation of the samples read and written before it up to 1.002 (n+1) 2^-53 times the sum of the magnitudes of its n + n-1 terms (plus n 2^-1072). If the impulse response of the recursive part sums to at most G in magnitude, the output stays within G times that error of the exact response, never infinite or NaN, however long the stream and however it is cut into calls.", "quantifier": "all finite coefficients the constructor accepts (order 0 IIR excepted), sequences of calls, samples up to a bound, as long as nothing exceeds 2^990 and the filter is not so close to instability that the error of one step times 1 + 2 G sum|a| exceeds 1", "why_tests_cant": "A recursive filter feeds its rounding errors back; no finite test shows that they stay bounded for ever, nor for which coefficients.", "anchors": ["dsp/signalconditioning/Filter.cpp: Filter::Filter, Filter::process"]}
{"id": "C119", "title": "Resampled samples are accurate in floating point", "statement": "In IEEE doubles every sample Resampler writes is finite and within 1.002 (n+1) 2^-53 times the interpolation of the magnitudes (plus an underflow term of (scale n + 1) 2^-1073) of the exact interpolation with the same n-point kernel, whatever the sizes of the blocks.", "quantifier": "all positive int rates, kernels with at least as many points as the reduced rates, finite kernel values and samples with products below 2^990, sequences of calls", "why_tests_cant": "Every output phase has its own sum of products; tests compare a few tones with a tolerance.", "anchors": ["dsp/rateconversion/Resampler.cpp: Resampler::process, Resampler::reconstructOne"]}
{"id": "C120", "title": "The phase vocoder is accurate in floating point", "statement": "In IEEE doubles, frame after frame from a new or reset phase vocoder: for samples of magnitude up to B the magnitudes are within 181 w n B 2^-53 of those of the transform of the frame with its halves exchanged, and the bin which magnitude and phase stand for is within 141 w n B 2^-53 of it (w is one more than the sum of the prime factors of the frame size n); for given bins with parts up to M the bounds are 5 M 2^-53 and 17 M 2^-53. The unwrapped phases are congruent to the phases returned and within half a turn of the previous ones plus the expected advance, up to 12 hop (t+1)(t+21) 2^-53 in frame t. Magnitudes and phases of a frame do not suffer from earlier frames, not even of NaN, and no call leaves its arrays.", "quantifier": "all even frame sizes up to 2^30, hops up to 2^20, sequences of frames of both kinds (2^48 / (8 hop) of them at most), B from 2^-400 to 2^450, and all cos, sin and atan2 functions which are accurate to a few units in the last place", "why_tests_cant": "Errors of the transform, of atan2 and of the accumulated unwrapped phase combine over unboundedly many frames; tests compare a few short signals with a tolerance.", "anchors": ["dsp/phasevocoder/PhaseVocoder.cpp: PhaseVocoder::processTimeDomain, PhaseVocoder::processFrequencyDomain, PhaseVocoder::reset"]}
{"id": "C121", "title": "The cosine distance is accurate in floating point", "statement": "In IEEE doubles the distance of two vectors of n finite values is finite, within (2.1 n + 6) 2^-53 of one minus their scalar product divided by the product of their norms plus 1e-20, and so between 0 and 2 up to that; for vectors of different sizes it is 1.", "quantifier": "all pairs of vectors of finite doubles", "why_tests_cant": "The error depends on the length and on every value; extreme norms and nearly parallel vectors are not among the tested ones.", "anchors": ["maths/CosineDistance.cpp: CosineDistance::distance"]}
{"id": "C122", "title": "The autocorrelation is accurate in floating point", "statement": "In IEEE doubles, for n values of magnitude up to B, doAutoUnBiased writes for every lag i < n a finite positive number: either one within 1.002 (n-i+1) 2^-53 B^2 (plus 2^-1073) of the mean of the n-i products of values i apart, or the constant 2.2204e-16 when that mean is at most that error. Places of the output past n are left alone.", "quantifier": "all lengths in int range, finite values with n B^2 at most 2^990, outputs of at least n places which do not overlap the input", "why_tests_cant": "The bound is over all signals and lags, including means near zero where rounding decides which of the two results appears.", "anchors": ["maths/Correlation.cpp: Correlation::doAutoUnBiased"]}
{"id": "C123", "title": "The median is accurate in floating point", "statement": "In IEEE doubles the median of an odd number of finite values is exactly the middle one in order; that of an even number is finite, lies between the two middle ones and is within a relative 2^-53 (plus 2^-1075) of their mean. It does not depend on the sorting algorithm.", "quantifier": "all non-empty arrays of finite doubles, all sorting functions which return an ordered permutation", "why_tests_cant": "All arrays in all orders; overflow and underflow of the sum of the middle values happen only at the ends of the range.", "anchors": ["maths/MathUtilities.cpp: MathUtilities::median"]}
