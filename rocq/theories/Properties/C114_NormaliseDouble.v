(** C114: normalise in IEEE doubles. *)
From Coq Require Import ZArith Reals List.
From Flocq Require Import Core.
From Flocq.IEEE754 Require Import BinarySingleNaN.
From Verif.Base Require Import Imp RealOps Double.
From Verif.Maths Require Import DoubleModel RealModel RealSpec StatDouble StatDoubleSpec StatDoubleProofs StatNormDouble StatThresholdDouble StatRoundDouble StatDoubleCases.
Import ListNotations.
Open Scope R_scope.

(** The full claim for NormaliseUnitSum is for all data with a sum that is not 0; that fails for
    values of both signs (C114_mixed_refuted). *)
Theorem C114_unit_sum_partial : forall n x, (1 <= n <= 2147483647)%Z -> all_finite n x -> total n (val x) <= bpow radix2 999 ->
  (forall j, (0 <= j < n)%Z -> 0 <= dval (zn d0 x j)) -> (exists j, (0 <= j < n)%Z /\ 0 < dval (zn d0 x j)) ->
  exists y, dnormalise x n NormaliseUnitSum = OK y /\ zlen y = zlen x /\
    (forall j, (0 <= j < n)%Z -> finite (zn d0 y j) /\ 0 <= dval (zn d0 y j) <= 1 /\
       Rabs (dval (zn d0 y j) - dval (zn d0 x j) / rsum n (val x)) <= 1001 / 1000 * IZR n * uro * (dval (zn d0 x j) / rsum n (val x)) + bpow radix2 (-1075)) /\
    (forall j, (n <= j < zlen x)%Z -> zn d0 y j = zn d0 x j) /\
    Rabs (rsum n (val y) - 1) <= 1002 / 1000 * IZR n * uro.
Proof. exact normalise_sum_doubles. Qed.
Print Assumptions C114_unit_sum_partial.

Theorem C114_zeros : forall n x, (0 <= n <= 2147483647)%Z -> all_finite n x -> (forall j, (0 <= j < n)%Z -> dval (zn d0 x j) = 0) ->
  dnormalise x n NormaliseUnitSum = OK x.
Proof. exact normalise_sum_zero. Qed.
Print Assumptions C114_zeros.

Theorem C114_mixed_refuted : exists x, all_finite 3 x /\ zlen x = 3%Z /\ rsum 3 (val x) = 100 /\ dnormalise x 3 NormaliseUnitSum = OK x.
Proof. exact normalise_mixed_refuted. Qed.
Print Assumptions C114_mixed_refuted.

Theorem C114_unit_max : forall n x, (0 <= n)%Z -> all_finite n x ->
  exists y M, dnormalise x n NormaliseUnitMax = OK y /\ zlen y = zlen x /\
    (forall j, (0 <= j < n)%Z -> Rabs (dval (zn d0 x j)) <= M) /\
    (M = 0 -> y = x) /\
    (M <> 0 -> (exists j, (0 <= j < n)%Z /\ Rabs (dval (zn d0 x j)) = M /\ Rabs (dval (zn d0 y j)) = 1) /\
       forall j, (0 <= j < n)%Z -> finite (zn d0 y j) /\ Rabs (dval (zn d0 y j)) <= 1 /\
         Rabs (dval (zn d0 y j) - dval (zn d0 x j) / M) <= uro * Rabs (dval (zn d0 x j) / M) + bpow radix2 (-1075)) /\
    (forall j, (n <= j < zlen x)%Z -> zn d0 y j = zn d0 x j).
Proof. exact normalise_max_doubles. Qed.
Print Assumptions C114_unit_max.

(** The values 1, 3, 0. *)
Example C114_case : all_finite 3 ramp /\ total 3 (val ramp) <= bpow radix2 999 /\ (forall j, (0 <= j < 3)%Z -> 0 <= dval (zn d0 ramp j) <= 3) /\ 0 < dval (zn d0 ramp 1).
Proof. exact ramp_case. Qed.
