(** C118: Filter in IEEE doubles. *)
From Coq Require Import ZArith Reals List.
From Flocq Require Import Core.
From Verif.Base Require Import Imp RealOps Double.
From Verif.Signal Require Import FilterModel FilterSpec FilterDoubleSpec FilterDoubleStable FilterDoubleCases.
Import ListNotations.
Open Scope R_scope.

(** Every step: the sample written satisfies the difference equation of the samples read and written
    before up to step_error times the sum of the magnitudes of its terms. *)
Theorem C118_local : forall a b calls, accepted a b -> fir_or_order1 a b -> room calls -> (zlen b <= 2147483647)%Z ->
  coefficients_finite a -> coefficients_finite b ->
  exists f f' outs, filter_new d0 a b = OK f /\ filter_run d0 dadd dsub dmul f calls = OK (f', outs) /\ Forall2 rest_untouched calls outs /\
    let x := concat (map fst calls) in let y := produced calls outs in zlen y = zlen x /\
    forall s, (0 <= s < zlen x)%Z -> (forall i, (0 <= i < zlen b)%Z -> finite (zn d0 x (s - i))) -> (forall i, (0 <= i < zlen a - 1)%Z -> finite (zn d0 y (s - (i + 1)))) ->
      load_at a b x y s <= bpow radix2 990 ->
      finite (zn d0 y s) /\ Rabs (dval (zn d0 y s) - exact_at a b x y s) <= step_error (zlen b) * load_at a b x y s + step_tiny (zlen b).
Proof. exact filter_local_doubles. Qed.
Print Assumptions C118_local.

(** Whole streams of any length, for a filter whose recursive part has an absolutely summable impulse
    response h, with sum at most G (for FIR filters h is the unit impulse, G = 1). *)
Theorem C118_stable : forall a b calls, accepted a b -> fir_or_order1 a b -> room calls -> (zlen b <= 2147483647)%Z ->
  coefficients_finite a -> coefficients_finite b ->
  forall h G M, recursive_response a h -> (forall n, rsum n (fun k => Rabs (h k)) <= G) ->
    0 <= M -> finite_within M (concat (map fst calls)) ->
    let peak := 2 * G * (weight_sum b * M + step_tiny (zlen b)) in
    step_error (zlen b) * (1 + 2 * tail_sum a * G) <= 1 -> weight_sum b * M + tail_sum a * peak <= bpow radix2 990 ->
  exists f f' outs z, filter_new d0 a b = OK f /\ filter_run d0 dadd dsub dmul f calls = OK (f', outs) /\ Forall2 rest_untouched calls outs /\
    is_response 0 Rplus Rminus Rmult (map dval a) (map dval b) (map dval (concat (map fst calls))) z /\
    zlen (produced calls outs) = zlen z /\
    forall s, (0 <= s < zlen z)%Z -> finite (zn d0 (produced calls outs) s) /\
      Rabs (dval (zn d0 (produced calls outs) s) - zn 0 z s) <= G * (step_error (zlen b) * (weight_sum b * M + tail_sum a * peak) + step_tiny (zlen b)).
Proof. exact filter_stable_doubles. Qed.
Print Assumptions C118_stable.

(** y[t] = x[t] + y[t-1] / 2 with samples up to 1. *)
Example C118_case : accepted half_a half_b /\ fir_or_order1 half_a half_b /\ coefficients_finite half_a /\ coefficients_finite half_b /\
  recursive_response half_a half_h /\ (forall n, rsum n (fun k => Rabs (half_h k)) <= 2) /\
  weight_sum half_b = 1 /\ tail_sum half_a = / 2 /\ step_error 2 * (1 + 2 * / 2 * 2) <= 1 /\
  1 * 1 + / 2 * (2 * 2 * (1 * 1 + step_tiny 2)) <= bpow radix2 990.
Proof. exact half_case. Qed.
