(** C117: factorial in IEEE doubles. *)
From Coq Require Import ZArith Reals List.
From Flocq Require Import Core.
From Flocq.IEEE754 Require Import BinarySingleNaN.
From Verif.Base Require Import Imp RealOps Double.
From Verif.Maths Require Import DoubleModel RealModel RealSpec StatDouble StatDoubleSpec StatDoubleProofs StatNormDouble StatThresholdDouble StatRoundDouble StatDoubleCases.
Import ListNotations.
Open Scope R_scope.

Theorem C117_factorial : forall x, (0 <= x <= 170)%Z ->
  exists f, dfactorial x = OK f /\ finite f /\ Rabs (dval f - IZR (fact_Z (Z.to_nat x))) <= 7 * uro * IZR (fact_Z (Z.to_nat x)) /\
    ((x <= 22)%Z -> dval f = IZR (fact_Z (Z.to_nat x))).
Proof. exact factorial_doubles. Qed.
Print Assumptions C117_factorial.

Theorem C117_infinite : forall x, (171 <= x < 2147483647)%Z -> dfactorial x = OK (B754_infinity false).
Proof. exact factorial_inf. Qed.
Print Assumptions C117_infinite.

Theorem C117_negative : forall x, (x < 0)%Z -> dfactorial x = OK d0.
Proof. exact factorial_neg. Qed.
Print Assumptions C117_negative.

Example C117_case : fact_Z 5 = 120%Z /\ fact_Z 22 = 1124000727777607680000%Z.
Proof. split; reflexivity. Qed.
