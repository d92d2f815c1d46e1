(** C115: round in IEEE doubles. *)
From Coq Require Import ZArith Reals List.
From Flocq Require Import Core.
From Flocq.IEEE754 Require Import BinarySingleNaN.
From Verif.Base Require Import Imp RealOps Double.
From Verif.Maths Require Import DoubleModel RealModel RealSpec StatDouble StatDoubleSpec StatDoubleProofs StatNormDouble StatThresholdDouble StatRoundDouble StatDoubleCases.
Import ListNotations.
Open Scope R_scope.

(** The full claim is for all finite x; it fails for 1/2 - 2^-54 and from 2^52 + 1 on. *)
Theorem C115_round_partial : forall x, finite x -> Rabs (dval x) <= 4503599627370495 -> Rabs (dval x) <> / 2 - / 18014398509481984 ->
  finite (dround x) /\ exists r, dval (dround x) = IZR r /\ nearest_away (dval x) r.
Proof. exact round_doubles. Qed.
Print Assumptions C115_round_partial.

Theorem C115_half_refuted : exists x, finite x /\ 0 < dval x < / 2 /\ dval (dround x) = 1.
Proof. exact round_half_refuted. Qed.
Print Assumptions C115_half_refuted.

Theorem C115_large_refuted : exists x, finite x /\ dval x = 4503599627370497 /\ dval (dround x) = 4503599627370498.
Proof. exact round_large_refuted. Qed.
Print Assumptions C115_large_refuted.

(** Half way between two integers, on either side of zero. *)
Example C115_case : nearest_away (5 / 2) 3 /\ ~ nearest_away (5 / 2) 2 /\ nearest_away (- (5 / 2)) (-3).
Proof. exact away_cases. Qed.
