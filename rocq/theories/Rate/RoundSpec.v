(** Vocabulary for results about computations in doubles. *)
From Coq Require Import List ZArith Reals.
From Verif.Base Require Import Imp Double.
Import ListNotations.
Open Scope R_scope.

(** Every entry is a finite double of magnitude at most M (no infinity, no NaN). *)
Definition all_finite (M : R) (x : list double) : Prop :=
  forall t, (0 <= t < zlen x)%Z -> finite (zn d0 x t) /\ Rabs (dval (zn d0 x t)) <= M.
(** The doubles x are finite and within e of the numbers z. *)
Definition computes (e : R) (x : list double) (z : list R) : Prop :=
  zlen x = zlen z /\ forall t, (0 <= t < zlen x)%Z -> finite (zn d0 x t) /\ Rabs (dval (zn d0 x t) - zn 0 z t) <= e.
