(** What inverting a matrix means, without reference to the algorithm.  A matrix is a function of
    row and column, both counted from 0. *)
From Coq Require Import ZArith Reals.
From Verif.Base Require Import RealOps.
Open Scope Z_scope.

Definition delta (i j : Z) : R := if i =? j then 1%R else 0%R.

(** B is the inverse of A, on both sides. *)
Definition inverse_of (n : Z) (A B : Z -> Z -> R) : Prop :=
  forall i j, 0 <= i < n -> 0 <= j < n ->
    rsum n (fun k => A i k * B k j)%R = delta i j /\ rsum n (fun k => B i k * A k j)%R = delta i j.
Definition invertible (n : Z) (A : Z -> Z -> R) : Prop := exists B, inverse_of n A B.

(** The determinant, expanded along the first column. *)
Fixpoint det (n : nat) (A : Z -> Z -> R) : R :=
  match n with
  | O => 1
  | S m => rsum (Z.of_nat (S m)) (fun i =>
             (if Z.even i then 1 else -1) * A i 0%Z *
             det m (fun r c => A (if r <? i then r else r + 1)%Z (c + 1)%Z))
  end%R.

(** v^T A v, and positive definiteness. *)
Definition quadratic (n : Z) (A : Z -> Z -> R) (v : Z -> R) : R := rsum n (fun i => rsum n (fun j => v i * A i j * v j))%R.
Definition posdef (n : Z) (A : Z -> Z -> R) : Prop :=
  forall v, (exists i, 0 <= i < n /\ v i <> 0%R) -> (0 < quadratic n A v)%R.
