(** C119: Resampler in IEEE doubles. *)
From Coq Require Import ZArith Reals List.
From Flocq Require Import Core.
From Verif.Base Require Import Imp RealOps Double.
From Verif.Maths Require Import IntModel DoubleModel.
From Verif.Signal Require Import FilterDoubleSpec FilterDoubleCases.
From Verif.Rate Require Import ResamplerModel ResamplerSpec ResamplerDouble.
Import ListNotations.
Open Scope R_scope.

(** v is the exact interpolation with the same kernel, w the same of the magnitudes of the samples,
    the kernel and the scale. *)
Theorem C119_resampler : forall source target k scale calls M K, (1 <= source <= INT_MAX)%Z -> (1 <= target <= INT_MAX)%Z ->
  (reduced_target source target <= zlen k)%Z -> (reduced_source source target <= zlen k <= 2147483647)%Z -> room source target calls ->
  0 <= M -> 0 <= K -> finite_within M (fed calls) -> finite_within K k -> finite scale ->
  IZR (zlen k) * (M * K) <= bpow radix2 990 -> Rabs (dval scale) * (1 + IZR (zlen k) * (M * K)) <= bpow radix2 990 ->
  exists r0 r outs, resampler_new d0 source target k scale = OK r0 /\ resampler_run d0 dadd dmul r0 calls = OK (r, outs) /\
    within d0 source target calls outs /\ is_latency source target k (r_latency r0) /\
    (forall c, is_ceil (zlen (fed calls) * target) source c -> (c <= zlen (written outs) <= c + 1)%Z) /\
    forall j, (0 <= j < zlen (written outs))%Z -> exists v w,
      interpolated 0 Rplus Rmult source target (map dval k) (dval scale) (map dval (fed calls)) (j - r_latency r0) v /\
      interpolated 0 Rplus Rmult source target (magnitudes k) (Rabs (dval scale)) (magnitudes (fed calls)) (j - r_latency r0) w /\
      finite (zn d0 (written outs) j) /\
      Rabs (dval (zn d0 (written outs) j) - v) <= 1002 / 1000 * (IZR (zlen k) + 1) * uro * w + (Rabs (dval scale) * IZR (zlen k) + 1) * bpow radix2 (-1073).
Proof. exact resampler_doubles. Qed.
Print Assumptions C119_resampler.

(** From 22050 to 44100 Hz with the kernel 1, 2, 1. *)
Example C119_case : reduced_target 22050 44100 = 2%Z /\ reduced_source 22050 44100 = 1%Z /\ zlen tri_k = 3%Z /\ finite_within 2 tri_k /\
  room 22050 44100 [([dint 1; dint (-1)], [d0; d0; d0; d0])] /\ finite_within 1 (fed [([dint 1; dint (-1)], [d0; d0; d0; d0])]) /\ finite (dint 1) /\
  IZR 3 * (1 * 2) <= bpow radix2 990 /\ Rabs (dval (dint 1)) * (1 + IZR 3 * (1 * 2)) <= bpow radix2 990.
Proof. exact tri_case. Qed.
