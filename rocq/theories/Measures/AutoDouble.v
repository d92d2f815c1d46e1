(** Model of maths/Correlation.cpp in IEEE doubles. *)
From Coq Require Import ZArith List.
From Flocq.IEEE754 Require Import BinarySingleNaN.
From Verif.Base Require Import Imp Double.
From Verif.Maths Require Import DoubleModel.
Import ListNotations.
Open Scope Z_scope.

(** EPS = 2.2204e-016, MathAliases.h:23: the double nearest to it. *)
Definition dEPS : double := dmake 9007012456789634 (-105).

(** Correlation::doAutoUnBiased, Correlation.cpp:33-54; src and dst do not overlap.  The comparison
    is false of NaN. *)
Definition dauto (src dst : list double) (length : Z) : res (list double) :=
  for_up 0 length (fun i dst =>
    tmp <- for_up i length (fun j tmp =>
      a <- aget src (j - i) ;; b <- aget src j ;; OK (dadd tmp (dmul a b))) d0 ;;
    let outVal := ddiv tmp (dint (length - i)) in
    aset dst i (if Bleb outVal d0 then dEPS else outVal)) dst.
