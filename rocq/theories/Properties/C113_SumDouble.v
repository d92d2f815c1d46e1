(** C113: sum and mean in IEEE doubles. *)
From Coq Require Import ZArith Reals List.
From Flocq Require Import Core.
From Flocq.IEEE754 Require Import BinarySingleNaN.
From Verif.Base Require Import Imp RealOps Double.
From Verif.Maths Require Import DoubleModel RealModel RealSpec StatDouble StatDoubleSpec StatDoubleProofs StatNormDouble StatThresholdDouble StatRoundDouble StatDoubleCases.
Import ListNotations.
Open Scope R_scope.

(** uro = 2^-53; total = the sum of the magnitudes. *)
Theorem C113_sum : forall n x, (0 <= n <= 2147483647)%Z -> all_finite n x -> total n (val x) <= bpow radix2 999 ->
  exists s, dsum x n = OK s /\ finite s /\ (n = 0%Z -> s = d0) /\
    ((1 <= n)%Z -> Rabs (dval s - rsum n (val x)) <= IZR (n - 1) * uro * total n (val x)).
Proof. exact sum_doubles. Qed.
Print Assumptions C113_sum.

Theorem C113_mean : forall n x, (0 <= n <= 2147483647)%Z -> all_finite n x -> total n (val x) <= bpow radix2 999 ->
  exists m, dmean x n = OK m /\ finite m /\ (n = 0%Z -> m = d0) /\
    ((1 <= n)%Z -> Rabs (dval m - rsum n (val x) / IZR n) <= IZR (n + 1) * uro * (total n (val x) / IZR n) + bpow radix2 (-1075)).
Proof. exact mean_doubles. Qed.
Print Assumptions C113_mean.

Theorem C113_mean_range : forall start n x, (0 <= start)%Z -> (0 <= n <= 2147483647)%Z -> (start + n <= zlen x)%Z ->
  (forall j, (start <= j < start + n)%Z -> finite (zn d0 x j)) -> total n (fun j => dval (zn d0 x (start + j))) <= bpow radix2 999 ->
  exists m, dmean_range x start n = OK m /\ finite m /\ (n = 0%Z -> m = d0) /\
    ((1 <= n)%Z -> Rabs (dval m - rsum n (fun j => dval (zn d0 x (start + j))) / IZR n) <=
       IZR (n + 1) * uro * (total n (fun j => dval (zn d0 x (start + j))) / IZR n) + bpow radix2 (-1075)).
Proof. exact mean_range_doubles. Qed.
Print Assumptions C113_mean_range.

(** Values of both signs, 2^60, 100 and -2^60, meet the hypotheses. *)
Example C113_case : all_finite 3 mixed /\ total 3 (val mixed) <= bpow radix2 999 /\ dval (zn d0 mixed 2) < 0.
Proof. exact mixed_case. Qed.
