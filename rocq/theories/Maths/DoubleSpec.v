(** Angles up to whole turns and an error. *)
From Coq Require Import ZArith Reals.
Open Scope R_scope.

Definition near_angle (e x y : R) : Prop := exists k : Z, Rabs (x - (y + IZR k * (2 * PI))) <= e.
