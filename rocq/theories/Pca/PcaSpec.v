(** What principal components are. *)
From Coq Require Import List ZArith Reals.
From Verif.Base Require Import RealOps Matrix.
Open Scope R_scope.

Definition delta (i j : Z) : R := if (i =? j)%Z then 1 else 0.

(** Columns and rows of the m x m matrix are orthonormal. *)
Definition orthonormal (m : Z) (z : Z -> Z -> R) : Prop :=
  (forall a b, (0 <= a < m)%Z -> (0 <= b < m)%Z -> rsum m (fun k => z k a * z k b) = delta a b) /\
  (forall k j, (0 <= k < m)%Z -> (0 <= j < m)%Z -> rsum m (fun a => z k a * z j a) = delta k j).

(** Data of n rows: column means, centred data, scatter matrix (n times the covariance). *)
Definition column_mean (n : Z) (x : Z -> Z -> R) (j : Z) : R := rsum n (fun i => x i j) / IZR n.
Definition centred (n : Z) (x : Z -> Z -> R) (i j : Z) : R := x i j - column_mean n x j.
Definition scatter (n : Z) (x : Z -> Z -> R) (j k : Z) : R := rsum n (fun i => centred n x i j * centred n x i k).

(** Frobenius norm of an n x m matrix. *)
Definition norm_F (n m : Z) (x : Z -> Z -> R) : R := sqrt (rsum n (fun k => rsum m (fun a => x k a * x k a))).

(** S z = z diag(lambda) up to an error of Frobenius norm at most [err]. *)
Definition eigenbasis (m : Z) (S z : Z -> Z -> R) (lambda : Z -> R) (err : R) : Prop :=
  orthonormal m z /\
  norm_F m m (fun k a => rsum m (fun j => S k j * z j a) - lambda a * z k a) <= err.

(** What is used of the test fabs(e) + dd == dd: it succeeds at e = 0, and only if e is at most eps dd. *)
Definition rounding_test (negligible : R -> R -> bool) (eps : R) : Prop :=
  0 <= eps /\ (forall dd, 0 <= dd -> negligible 0 dd = true) /\
  (forall x dd, 0 <= x -> 0 <= dd -> negligible x dd = true -> x <= eps * dd).

(** The first nc columns: centred rows along the last axes, last axis first; then centred columns up to m; the rest as it was. *)
Open Scope Z_scope.
Definition principal (data data' : list (list R)) (n m w nc : Z) (z : Z -> Z -> R) : Prop :=
  shape n w data' /\
  (forall i k, 0 <= i < n -> 0 <= k < nc ->
    ent 0%R data' i k = rsum m (fun j => centred n (ent 0%R data) i j * z j (m - 1 - k)%Z)%R) /\
  (forall i k, 0 <= i < n -> nc <= k < m -> ent 0%R data' i k = centred n (ent 0%R data) i k) /\
  (forall i k, 0 <= i < n -> m <= k < w -> ent 0%R data' i k = ent 0%R data i k).
