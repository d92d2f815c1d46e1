(** C11, C12, C13: Resampler (dsp/rateconversion/Resampler.cpp). *)
From Coq Require Import List ZArith Reals Lia Bool.
From Verif.Base Require Import Imp Sums RealOps Dbl.
From Verif.Maths Require Import IntModel.
From Verif.Rate Require Import ResamplerModel ResamplerSpec ResamplerProofs.
From Verif.Windows Require Import WindowModel WindowSpec ResamplerFilter.
Import ListNotations.
Open Scope Z_scope.

(** C11, C12: for any arithmetic (so bit for bit in doubles), any positive rates and any filter at
    least as long as the reduced rates, every sequence of process() calls succeeds; output sample j
    is the interpolation of the whole input at output time j - latency; each call writes at most
    ceil(n*target/source) samples and nothing beyond; the total is the ceiling of N*target/source or
    one more. *)
Theorem C11_C12_resampler_stream_partial :
  forall (T : Type) (zero : T) add mul source target k scale,
    1 <= source <= INT_MAX -> 1 <= target <= INT_MAX ->
    reduced_target source target <= zlen k -> reduced_source source target <= zlen k ->
  forall calls, room source target calls ->
    exists r0 r outs lat,
      resampler_new zero source target k scale = OK r0 /\
      resampler_run zero add mul r0 calls = OK (r, outs) /\
      r_latency r0 = lat /\ is_latency source target k lat /\
      within zero source target calls outs /\
      (forall c, is_ceil (zlen (fed calls) * target) source c -> c <= zlen (written outs) <= c + 1) /\
      forall j, 0 <= j < zlen (written outs) ->
        interpolated zero add mul source target k scale (fed calls) (j - lat) (zn zero (written outs) j).
Proof. exact @resampler_stream. Qed.
Print Assumptions C11_C12_resampler_stream_partial.

Theorem C11_interpolated_unique :
  forall (T : Type) (zero : T) add mul s t k sc x j v v',
    interpolated zero add mul s t k sc x j v -> interpolated zero add mul s t k sc x j v' -> v = v'.
Proof. exact @interpolated_unique. Qed.
Print Assumptions C11_interpolated_unique.

(** Hence the values do not depend on how the stream was cut. *)
Theorem C11_resampler_cut_independent :
  forall (T : Type) (zero : T) add mul source target k scale,
    1 <= source <= INT_MAX -> 1 <= target <= INT_MAX ->
    reduced_target source target <= zlen k -> reduced_source source target <= zlen k ->
  forall calls calls', room source target calls -> room source target calls' -> fed calls = fed calls' ->
    exists r0 r outs r' outs',
      resampler_new zero source target k scale = OK r0 /\
      resampler_run zero add mul r0 calls = OK (r, outs) /\
      resampler_run zero add mul r0 calls' = OK (r', outs') /\
      forall j, 0 <= j < zlen (written outs) -> j < zlen (written outs') ->
        zn zero (written outs) j = zn zero (written outs') j.
Proof.
  intros T zero add mul source target k scale Hs Ht Ha Hb calls calls' Hr Hr' Hf.
  destruct (resampler_stream zero add mul source target k scale Hs Ht Ha Hb calls Hr)
    as (r0 & r & outs & lat & E0 & E1 & E2 & _ & _ & _ & E6).
  destruct (resampler_stream zero add mul source target k scale Hs Ht Ha Hb calls' Hr')
    as (r0' & r' & outs' & lat' & E0' & E1' & E2' & _ & _ & _ & E6').
  rewrite E0 in E0'. injection E0' as <-.
  exists r0, r, outs, r', outs'. splits; auto. intros j H1 H2.
  specialize (E6 j ltac:(lia)). specialize (E6' j ltac:(lia)). rewrite <- E2', E2 in E6'. rewrite Hf in E6.
  exact (interpolated_unique _ _ _ _ _ _ _ _ _ _ _ E6 E6').
Qed.
Print Assumptions C11_resampler_cut_independent.

(** The overload returning a vector returns exactly the samples the other one writes. *)
Theorem C12_process_vector_overload :
  forall (T : Type) (zero : T) add mul source target k scale,
    1 <= source <= INT_MAX -> 1 <= target <= INT_MAX ->
    reduced_target source target <= zlen k -> reduced_source source target <= zlen k ->
  forall calls blk, room source target calls ->
    exists r0 r outs r' out o n, resampler_new zero source target k scale = OK r0 /\
      resampler_run zero add mul r0 calls = OK (r, outs) /\
      resampler_process_vec zero add mul r blk (zlen blk) = OK (r', out) /\
      resampler_process zero add mul r blk (repeat zero (Z.to_nat (cdiv (zlen blk * target) source))) (zlen blk) = OK (r', o, n) /\
      out = firstn (Z.to_nat n) o.
Proof. exact @process_vec_same. Qed.
Print Assumptions C12_process_vector_overload.

(** C13: resample() for any filter at least as long as the reduced rates. *)
Theorem C13_resample_partial :
  forall (T : Type) (zero : T) add mul source target k scale,
    1 <= source <= INT_MAX -> 1 <= target <= INT_MAX ->
    reduced_target source target <= zlen k -> reduced_source source target <= zlen k ->
  forall data n, 0 <= n <= zlen data ->
    exists out, resample zero add mul source target k scale data n = OK out /\
      is_ceil (n * target) source (zlen out) /\
      forall j, 0 <= j < zlen out ->
        interpolated zero add mul source target k scale (firstn (Z.to_nat n) data) j (zn zero out j).
Proof. exact @resample_ok. Qed.
Print Assumptions C13_resample_partial.

(** The default constructor over exact reals: its filter is a Kaiser-windowed sinc, and the above
    holds for all pairs of rates whose reduced values are at most 200001. *)
Theorem C11_C12_default_resampler_partial :
  forall source target calls,
    1 <= source <= INT_MAX -> 1 <= target <= INT_MAX ->
    reduced_source source target <= 200001 -> reduced_target source target <= 200001 ->
    room source target calls ->
    exists k r0 r outs lat,
      windowed_sinc k (default_p2p source target) default_beta /\
      resampler_make source target 100 0.02 = OK r0 /\ r_latency r0 = lat /\ is_latency source target k lat /\
      resampler_run 0%R Rplus Rmult r0 calls = OK (r, outs) /\
      within 0%R source target calls outs /\
      (forall c, is_ceil (zlen (fed calls) * target) source c -> c <= zlen (written outs) <= c + 1) /\
      forall j, 0 <= j < zlen (written outs) ->
        interpolated 0%R Rplus Rmult source target k
          (IZR (reduced_target source target) / default_p2p source target)%R (fed calls) (j - lat) (zn 0%R (written outs) j).
Proof. exact default_resampler. Qed.
Print Assumptions C11_C12_default_resampler_partial.

Theorem C13_default_resample_partial :
  forall source target data n,
    1 <= source <= INT_MAX -> 1 <= target <= INT_MAX ->
    reduced_source source target <= 200001 -> reduced_target source target <= 200001 ->
    0 <= n <= zlen data ->
    exists k out,
      windowed_sinc k (default_p2p source target) default_beta /\
      resample_make source target data n = OK out /\ is_ceil (n * target) source (zlen out) /\
      forall j, 0 <= j < zlen out ->
        interpolated 0%R Rplus Rmult source target k
          (IZR (reduced_target source target) / default_p2p source target)%R (firstn (Z.to_nat n) data) j (zn 0%R out j).
Proof. exact default_resample. Qed.
Print Assumptions C13_default_resample_partial.

(** Without that bound it is false: from 300001 Hz to 1 Hz the cap on the filter length makes
    process() throw std::logic_error. *)
Theorem C11_resampler_all_rates_refuted :
  exists calls r0, room 300001 1 calls /\ resampler_make 300001 1 100 0.02 = OK r0 /\
    resampler_run 0%R Rplus Rmult r0 calls = Throw.
Proof. exact default_resampler_throws. Qed.
Print Assumptions C11_resampler_all_rates_refuted.

(** The count expression int(ceil(double(n)*target/source)), rounded to double at each step, is
    the exact ceiling whenever the product is below 2^53. *)
Theorem C12_ceil_in_double :
  forall n t s, 0 <= n -> 0 <= t -> n * t < two53 -> 0 < s < two53 ->
    is_ceil (n * t) s (ceil_expr n t s).
Proof. exact ceil_expr_exact. Qed.
Print Assumptions C12_ceil_in_double.

(** Concrete case, integers: the example of the comment in the source, rates 3 -> 2, filter of
    length 7. *)
Example C11_case :
  exists r, (r <- resampler_new 0 3 2 [1; 2; 3; 4; 5; 6; 7] 1 ;;
   resampler_run 0 Z.add Z.mul r [([100; 10; 1], [-1; -1]); ([5], [-1; -1]); ([0; 0; 7], [-1; -1; -1])]) =
   OK (r, [([0; 700], 2); ([460; -1], 1); ([170; 22; -1], 2)]) /\ r_latency r = 2.
Proof. eexists. split; vm_compute; reflexivity. Qed.

Example C13_case :
  resample 0 Z.add Z.mul 3 2 [1; 2; 3; 4; 5; 6; 7] 1 [100; 10; 1; 5] 4 = OK [460; 170; 22].
Proof. vm_compute. reflexivity. Qed.

(** 44100 -> 48000 meets the hypotheses of the default-constructor theorems. *)
Example C11_rates : reduced_source 44100 48000 = 147 /\ reduced_target 44100 48000 = 160.
Proof. split; reflexivity. Qed.
