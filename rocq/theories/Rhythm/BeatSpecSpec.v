(** Self-similarity of a sequence of feature vectors at a lag. *)
From Coq Require Import Reals ZArith List Bool.
From Verif.Base Require Import Imp Sums RealOps.
From Verif.Measures Require Import MeasSpec.
Import ListNotations.
Open Scope R_scope.

(** Cosine distance with its regularisation; 1 for vectors of different length. *)
Definition cos_dist (v w : list R) : R :=
  if (zlen v =? zlen w)%Z
  then let n := zlen v in 1 - dot n (zn 0 v) (zn 0 w) / (norm n (zn 0 v) * norm n (zn 0 w) + 1e-20)
  else 1.

(** Total distance of the first n frames from the frames [lag] later. *)
Definition lag_dist (m : list (list R)) (n lag : Z) : R := rsum n (fun i => cos_dist (zn [] m i) (zn [] m (i + lag))).

Definition periodic (p : Z) (m : list (list R)) : Prop := forall i, (0 <= i)%Z -> (i + p < zlen m)%Z -> zn [] m (i + p) = zn [] m i.
