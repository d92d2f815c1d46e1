(** Model of mod and princarg of maths/MathUtilities.cpp in IEEE doubles. *)
From Coq Require Import ZArith.
From Flocq.IEEE754 Require Import BinarySingleNaN.
From Verif.Base Require Import Double.
Open Scope Z_scope.

(** M_PI of the C library, 3.14159265358979323846: the double nearest to it (dpi_literal). *)
Definition dpi : double := dmake 7074237752028440 (-51).
(** Conversion of an int. *)
Definition dint (n : Z) : double := dmake n 0.
(** floor of the C library. *)
Definition dfloor (x : double) : double :=
  match x with
  | B754_finite s m e _ =>
      let n := if s then Zneg m else Zpos m in
      dint (if 0 <=? e then n * 2 ^ e else n / 2 ^ (- e))
  | _ => x
  end.
(** mod, MathUtilities.cpp:25-31. *)
Definition dmod (x y : double) : double :=
  let a := dfloor (ddiv x y) in
  dsub x (dmul y a).
(** princarg, MathUtilities.cpp:33-40. *)
Definition dprincarg (ang : double) : double := dadd (dmod (dadd ang dpi) (dmul (dint (-2)) dpi)) dpi.
