(** Real-valued signals. *)
From Coq Require Import List ZArith Reals.
From Verif.Base Require Import Imp.
Open Scope R_scope.

Definition bounded (M : R) (x : list R) : Prop := forall t, (0 <= t < zlen x)%Z -> Rabs (zn 0 x t) <= M.
Definition constant (M : R) (x : list R) : Prop := forall t, (0 <= t < zlen x)%Z -> zn 0 x t = M.
