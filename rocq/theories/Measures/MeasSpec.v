(** What the distances are meant to be. *)
From Coq Require Import Reals ZArith List Bool.
From Verif.Base Require Import Imp Sums RealOps.
Open Scope R_scope.

(** Mean of the products at distance [lag], over the [n - lag] pairs there are. *)
Definition autocorr (n : Z) (x : Z -> R) (lag : Z) : R := rsum (n - lag) (fun j => x j * x (j + lag)%Z) / IZR (n - lag).

Definition dot (n : Z) (x y : Z -> R) : R := rsum n (fun i => x i * y i).
Definition norm (n : Z) (x : Z -> R) : R := sqrt (dot n x x).

(** Kullback-Leibler divergence of the normal distributions with means m, m' and variances v, v'. *)
Definition kl_normal (m v m' v' : R) : R := (ln (v' / v) + v / v' + (m - m') * (m - m') / v' - 1) / 2.
