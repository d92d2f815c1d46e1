From Coq Require Import List ZArith Reals Lia.
From Verif.Base Require Import Imp RealOps.
Open Scope R_scope.

Notation Rn := (zn 0%R).

(** Angles equal up to whole turns. *)
Definition same_angle (x y : R) : Prop := exists k : Z, x = y + IZR k * (2 * PI).

(** [d'] is [d] with its first n values divided by c. *)
Definition divided_by (n : Z) (c : R) (d d' : list R) : Prop :=
  zlen d' = zlen d /\
  forall i, (0 <= i < zlen d)%Z -> Rn d' i = if (i <? n)%Z then Rn d i / c else Rn d i.

(** m is the largest of the values f 0 .. f (n-1). *)
Definition is_max (n : Z) (f : Z -> R) (m : R) : Prop :=
  (exists i, (0 <= i < n)%Z /\ f i = m) /\ forall i, (0 <= i < n)%Z -> f i <= m.
Definition is_min (n : Z) (f : Z -> R) (m : R) : Prop :=
  (exists i, (0 <= i < n)%Z /\ f i = m) /\ forall i, (0 <= i < n)%Z -> m <= f i.

(** The mean of the values from 8 before to 7 after position i, as far as they exist. *)
Definition local_mean (d : list R) (i : Z) : R :=
  let first := (Z.max 0 (i - 8))%Z in let last := (Z.min (zlen d - 1) (i + 7))%Z in
  (rsum (last - first + 1)%Z (fun k => Rn d (first + k)%Z) / IZR (last - first + 1))%R.
