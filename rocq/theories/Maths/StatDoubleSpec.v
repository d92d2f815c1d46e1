(** What the statistics of MathUtilities are held to in IEEE doubles. *)
From Coq Require Import ZArith Reals List.
From Flocq Require Import Core.
From Verif.Base Require Import Imp RealOps Double.
From Verif.Maths Require Import DoubleModel.
Open Scope R_scope.

(** The exact values of an array of doubles. *)
Notation val x := (fun j => dval (zn d0 x j)).
(** Its first n values are finite. *)
Definition all_finite (n : Z) (x : list double) : Prop := (n <= zlen x)%Z /\ forall j, (0 <= j < n)%Z -> finite (zn d0 x j).
(** The sum of the magnitudes of n values. *)
Definition total (n : Z) (f : Z -> R) : R := rsum n (fun j => Rabs (f j)).
(** 1 .. n multiplied. *)
Fixpoint fact_Z (n : nat) : Z := match n with O => 1%Z | S m => (Z.of_nat (S m) * fact_Z m)%Z end.
(** The integer nearest to x, the one farther from zero if there are two. *)
Definition nearest_away (x : R) (r : Z) : Prop :=
  Rabs (IZR r - x) <= / 2 /\ (Rabs (IZR r - x) = / 2 -> Rabs x <= Rabs (IZR r)).
