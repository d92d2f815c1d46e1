(** What a filter is held to in IEEE doubles. *)
From Coq Require Import List ZArith Reals.
From Flocq Require Import Core.
From Verif.Base Require Import Imp RealOps Double.
Import ListNotations.
Open Scope R_scope.

(** Finite doubles of magnitude at most M. *)
Definition finite_within (M : R) (x : list double) : Prop :=
  forall t, (0 <= t < zlen x)%Z -> finite (zn d0 x t) /\ Rabs (dval (zn d0 x t)) <= M.
Definition coefficients_finite (c : list double) : Prop := forall i, (0 <= i < zlen c)%Z -> finite (zn d0 c i).
(** The sum of the magnitudes of coefficients; of those after the first. *)
Definition weight_sum (c : list double) : R := rsum (zlen c) (fun i => Rabs (dval (zn d0 c i))).
Definition tail_sum (c : list double) : R := rsum (zlen c - 1) (fun i => Rabs (dval (zn d0 c (i + 1)))).
(** What the difference equation gives exactly at time s for inputs x and outputs y, and the sum of the
    magnitudes of its terms. *)
Definition exact_at (a b x y : list double) (s : Z) : R :=
  rsum (zlen b) (fun i => dval (zn d0 b i) * dval (zn d0 x (s - i))) -
  rsum (zlen a - 1) (fun i => dval (zn d0 a (i + 1)) * dval (zn d0 y (s - (i + 1)))).
Definition load_at (a b x y : list double) (s : Z) : R :=
  rsum (zlen b) (fun i => Rabs (dval (zn d0 b i) * dval (zn d0 x (s - i)))) +
  rsum (zlen a - 1) (fun i => Rabs (dval (zn d0 a (i + 1)) * dval (zn d0 y (s - (i + 1))))).
(** h is the impulse response of the recursive part, 1 / (1 + a1 z^-1 + ...). *)
Definition recursive_response (a : list double) (h : Z -> R) : Prop :=
  (forall n, (n < 0)%Z -> h n = 0) /\ h 0%Z = 1 /\
  forall n, (1 <= n)%Z -> h n = - rsum (zlen a - 1) (fun i => dval (zn d0 a (i + 1)) * h (n - (i + 1))%Z).
(** The relative error of one step of a filter with n coefficients. *)
Definition step_error (n : Z) : R := 1002 / 1000 * (IZR n + 1) * uro.
Definition step_tiny (n : Z) : R := IZR n * bpow radix2 (-1072).
