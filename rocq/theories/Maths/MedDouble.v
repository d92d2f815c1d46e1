(** Model of median of maths/MathUtilities.cpp in IEEE doubles. *)
From Coq Require Import ZArith List.
From Flocq.IEEE754 Require Import BinarySingleNaN.
From Verif.Base Require Import Imp Double.
From Verif.Maths Require Import DoubleModel.
Import ListNotations.
Open Scope Z_scope.

Section Median.
  (** std::sort, which the C++ standard does not determine where values are equivalent (+0 and -0). *)
  Context (sort : list double -> list double).

  (** median, MathUtilities.cpp:84-98. *)
  Definition dmedian (src : list double) (len : Z) : res double :=
    if len =? 0 then OK d0 else
    scratch <- for_up 0 len (fun i s => v <- aget src i ;; OK (s ++ [v])) [] ;;
    let scratch := sort scratch in
    let middle := Z.quot len 2 in
    if Z.rem len 2 =? 0 then
      u <- aget scratch middle ;; v <- aget scratch (middle - 1) ;; OK (ddiv (dadd u v) (dint 2))
    else aget scratch middle.
End Median.
