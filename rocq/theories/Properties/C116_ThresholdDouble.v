(** C116: adaptiveThreshold in IEEE doubles. *)
From Coq Require Import ZArith Reals List.
From Flocq Require Import Core.
From Flocq.IEEE754 Require Import BinarySingleNaN.
From Verif.Base Require Import Imp RealOps Double.
From Verif.Maths Require Import DoubleModel RealModel RealSpec StatDouble StatDoubleSpec StatDoubleProofs StatNormDouble StatThresholdDouble StatRoundDouble StatDoubleCases.
Import ListNotations.
Open Scope R_scope.

(** local_mean is the mean of the up to 8 values before, the value itself and the up to 7 values after. *)
Theorem C116_threshold : forall B x, 0 <= B <= bpow radix2 900 ->
  (forall j, (0 <= j < zlen x)%Z -> finite (zn d0 x j) /\ Rabs (dval (zn d0 x j)) <= B) ->
  exists y, dadaptive x = OK y /\ zlen y = zlen x /\ forall i, (0 <= i < zlen x)%Z ->
    finite (zn d0 y i) /\ 0 <= dval (zn d0 y i) /\
    Rabs (dval (zn d0 y i) - Rmax 0 (dval (zn d0 x i) - local_mean (map dval x) i)) <= 20 * uro * B + bpow radix2 (-1074).
Proof. exact adaptive_doubles. Qed.
Print Assumptions C116_threshold.

(** The values 1, 3, 0, with B = 3. *)
Example C116_case : forall j, (0 <= j < zlen ramp)%Z -> finite (zn d0 ramp j) /\ Rabs (dval (zn d0 ramp j)) <= 3.
Proof. exact ramp_bounded. Qed.
