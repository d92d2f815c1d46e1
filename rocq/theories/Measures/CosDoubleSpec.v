(** The cosine distance of the values of doubles. *)
From Coq Require Import ZArith Reals List.
From Verif.Base Require Import Imp RealOps Double.
Open Scope R_scope.

Definition dot (n : Z) (v w : list double) : R := rsum n (fun j => dval (zn d0 v j) * dval (zn d0 w j)).
(** One minus the cosine of the angle, with the 1e-20 which CosineDistance adds to the product of the norms. *)
Definition exact_cosine (n : Z) (v w : list double) : R := 1 - dot n v w / (sqrt (dot n v v * dot n w w) + / 100000000000000000000).
