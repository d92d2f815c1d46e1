(** Least-squares fitting of polynomials. *)
From Coq Require Import Reals ZArith List.
From Verif.Base Require Import Imp RealOps.
Open Scope R_scope.

(** The polynomial with coefficients [c], constant term first. *)
Definition poly (c : list R) (t : R) : R := rsum (zlen c) (fun j => zn 0 c j * t ^ Z.to_nat j).

(** Sum of the squared residuals at the points (x, y). *)
Definition residual (x y c : list R) : R :=
  rsum (zlen x) (fun i => (poly c (zn 0 x i) - zn 0 y i) * (poly c (zn 0 x i) - zn 0 y i)).

(** Sum of the squared deviations from the mean. *)
Definition total (y : list R) : R :=
  let mean := rsum (zlen y) (zn 0 y) / IZR (zlen y) in
  rsum (zlen y) (fun i => (zn 0 y i - mean) * (zn 0 y i - mean)).

(** At least n different numbers occur in x. *)
Definition distinct (n : Z) (x : list R) : Prop := exists l, NoDup l /\ zlen l = n /\ incl l x.
