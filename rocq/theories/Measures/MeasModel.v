(** Model of maths/Correlation.cpp, maths/CosineDistance.cpp and maths/KLDivergence.cpp.
    Vectors are shorter than 2^31 (the conversions of size() to int are not modelled);
    the buffers of doAutoUnBiased do not overlap; log10 is an exact function. *)
From Coq Require Import Reals ZArith List Bool.
From Verif.Base Require Import Imp Sums RealOps Arith.
Import ListNotations.
Open Scope Z_scope.

(** EPS, MathAliases.h:23. *)
Definition EPS : R := 2.2204e-16%R.

(** Correlation::doAutoUnBiased, Correlation.cpp:33-54. *)
Definition doAutoUnBiased (src dst : list R) (length : Z) : res (list R) :=
  for_up 0 length (fun i dst =>
    tmp <- for_up i length (fun j tmp =>
      a <- aget src (j - i) ;; b <- aget src j ;; OK (tmp + a * b)%R) 0%R ;;
    let outVal := (tmp / IZR (length - i))%R in
    aset dst i (if Rle_dec outVal 0 then EPS else outVal)) dst.

Section Cosine.
  Context {T : Type} (A : arith T) (fabs : T -> T) (small : T).

  (** CosineDistance::distance, CosineDistance.cpp:24-48 (the fields it leaves behind are
      reset by the next call and not modelled). *)
  Definition cosine (v1 v2 : list T) : res T :=
    if negb (zlen v1 =? zlen v2) then OK (a_of A 1)
    else
      '(dSum1, dDen1, dDen2) <- for_up 0 (zlen v1) (fun i '(s, d1, d2) =>
        a <- aget v1 i ;; b <- aget v2 i ;;
        OK (a_add A s (a_mul A a b), a_add A d1 (a_mul A a a), a_add A d2 (a_mul A b b))) (a_of A 0, a_of A 0, a_of A 0) ;;
      let dDenTot := a_add A (a_sqrt A (fabs (a_mul A dDen1 dDen2))) small in
      OK (a_sub A (a_of A 1) (a_div A dSum1 dDenTot)).
End Cosine.

(** double small = 1e-20 *)
Definition small : R := 1e-20%R.
Definition cosine_distance : list R -> list R -> res R := cosine Rarith Rabs small.

(** KLDivergence::distanceGaussian, KLDivergence.cpp:22-45. *)
Definition distanceGaussian (m1 v1 m2 v2 : list R) : res R :=
  let sz := zlen m1 in
  d <- for_up 0 sz (fun k d =>
    a <- aget v1 k ;; b <- aget v2 k ;; x <- aget m1 k ;; y <- aget m2 k ;;
    let kv1 := (a + small)%R in
    let kv2 := (b + small)%R in
    let km := ((x - y) + small)%R in
    let d := (d + (kv1 / kv2 + kv2 / kv1))%R in
    OK (d + km * (1 / kv1 + 1 / kv2) * km)%R) (-2 * IZR sz)%R ;;
  OK (d / 2)%R.

Section Distribution.
  Context {T : Type} (A : arith T) (log10 : T -> T) (small : T).

  (** KLDivergence::distanceDistribution, KLDivergence.cpp:47-66; the recursive call has symmetrised = false. *)
  Definition dist_one (d1 d2 : list T) : res T :=
    for_up 0 (zlen d1) (fun i d =>
      a <- aget d1 i ;; b <- aget d2 i ;;
      OK (a_add A d (a_mul A a (log10 (a_div A (a_add A a small) (a_add A b small)))))) (a_of A 0).
  Definition dist_gen (d1 d2 : list T) (symmetrised : bool) : res T :=
    d <- dist_one d1 d2 ;;
    if symmetrised then e <- dist_one d2 d1 ;; OK (a_add A d e) else OK d.
End Distribution.

Definition log10 (x : R) : R := (ln x / ln 10)%R.
Definition distanceDistribution : list R -> list R -> bool -> res R := dist_gen Rarith log10 small.
