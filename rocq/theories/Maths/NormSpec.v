(** Norms by their defining equations. *)
From Coq Require Import List ZArith Reals.
From Verif.Base Require Import Imp RealOps.
Open Scope R_scope.

(** N is the p-norm of the values f 0 .. f (n-1). *)
Definition is_lp_norm (n p : Z) (f : Z -> R) (N : R) : Prop :=
  0 <= N /\ N ^ Z.to_nat p = rsum n (fun i => Rabs (f i) ^ Z.to_nat p).

(** N is their power mean. *)
Definition is_power_mean (n p : Z) (f : Z -> R) (N : R) : Prop :=
  0 <= N /\ IZR n * N ^ Z.to_nat p = rsum n (fun i => Rabs (f i) ^ Z.to_nat p).
