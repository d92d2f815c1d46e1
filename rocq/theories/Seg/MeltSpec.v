(** Specification of histogram clustering (dsp/segmentation/cluster_melt.c), over the reals. *)
From Coq Require Import List ZArith Reals Bool.
From Verif.Base Require Import RealOps.
Import ListNotations.
Open Scope Z_scope.

(** Divergence of two non-negative vectors from their mean, 0 ln 0 being 0. *)
Definition xln (x q : R) : R := if Rltb 0 x then (x * ln (x / q))%R else 0%R.
Definition from_mean (x y : R) : R := (xln x ((x + y) / 2) + xln y ((x + y) / 2))%R.
Definition divergence (m : Z) (x y : Z -> R) : R := rsum m (fun i => from_mean (x i) (y i)).

(** Number of frames at most [limit] away from frame i which are in another cluster than number [j]. *)
Definition others (n limit : Z) (c : Z -> Z) (i j : Z) : R :=
  rsum n (fun b => if (Z.abs (b - i) <=? limit) && negb (c b =? j) then 1%R else 0%R).

Section Clustering.
  (** n histograms of m values, k clusters, weight of the neighbours. *)
  Variables (m n k limit : Z) (lambda : R) (h : Z -> Z -> R).

  (** Log probability of cluster j given histogram i alone, with references cl. *)
  Definition loglik (beta : R) (cl : Z -> Z -> R) (i j : Z) : R :=
    (- beta * divergence m (cl j) (h i) - ln (rsum k (fun j => exp (- beta * divergence m (cl j) (h i)))))%R.
  Definition score (beta : R) (cl : Z -> Z -> R) (c : Z -> Z) (i j : Z) : R :=
    (loglik beta cl i j - lambda * others n limit c i (j + 1))%R.

  (** The first of the best. *)
  Definition first_best (f : Z -> R) (j : Z) : Prop :=
    0 <= j < k /\ (forall q, 0 <= q < k -> (f q <= f j)%R) /\ (forall q, 0 <= q < j -> (f q < f j)%R).

  (** Frame i is in cluster number j + 1 for the best j. *)
  Definition assigned (beta : R) (cl : Z -> Z -> R) (c c' : Z -> Z) : Prop :=
    forall i, 0 <= i < n -> first_best (score beta cl c i) (c' i - 1).
  (** References are means of the histograms weighted with the exponentials of the scores. *)
  Definition centred (beta : R) (cl : Z -> Z -> R) (c : Z -> Z) (cl' : Z -> Z -> R) : Prop :=
    forall j b, 0 <= j < k -> 0 <= b < m ->
      cl' j b = (rsum n (fun i => exp (score beta cl c i j) * h i b) / rsum n (fun i => exp (score beta cl c i j)))%R.

  (** At most [fuel] rounds, until the assignment does not change. *)
  Inductive rounds (beta : R) : nat -> (Z -> Z -> R) -> (Z -> Z) -> (Z -> Z -> R) -> (Z -> Z) -> Prop :=
  | rounds_out : forall cl c, rounds beta 0 cl c cl c
  | rounds_stable : forall f cl c c', assigned beta cl c c' -> (forall i, 0 <= i < n -> c' i = c i) -> rounds beta (S f) cl c cl c'
  | rounds_next : forall f cl c c' cl' cl'' c'', assigned beta cl c c' -> ~ (forall i, 0 <= i < n -> c' i = c i) ->
      centred beta cl c cl' -> rounds beta f cl' c' cl'' c'' -> rounds beta (S f) cl c cl'' c''.

  (** One temperature after the other. *)
  Inductive melts : nat -> list R -> (Z -> Z -> R) -> (Z -> Z) -> (Z -> Z -> R) -> (Z -> Z) -> Prop :=
  | melts_end : forall f cl c, melts f [] cl c cl c
  | melts_next : forall f beta bs cl c cl' c' cl'' c'', rounds beta f cl c cl' c' -> melts 5 bs cl' c' cl'' c'' ->
      melts f (beta :: bs) cl c cl'' c''.
End Clustering.
