(** Model of the norms of maths/MathUtilities.{h,cpp}, double replaced by exact reals. *)
From Coq Require Import List ZArith Reals Lia Bool.
From Verif.Base Require Import Imp RealOps.
Import ListNotations.
Open Scope Z_scope.

(** C pow(x, p) for x >= 0; pow(0, p) = 0 for p > 0, pow(0, 0) = 1 (pow(0, p) is infinite for p < 0,
    which is not modelled: no theorem uses a negative exponent). *)
Definition cpow (x p : R) : R := if Reqb x 0 then (if Reqb p 0 then 1 else 0)%R else Rpower x p.

(** C pow(x, p) for p an integer >= 0. *)
Definition cpown (x : R) (p : Z) : R := (x ^ Z.to_nat p)%R.

(** getAlphaNorm (pointer), MathUtilities.cpp:42-56; the overload for vectors, 58-73, is the same
    with len = data.size(). *)
Definition getAlphaNorm (data : list R) (len alpha : Z) : res R :=
  a <- for_up 0 len (fun i a => temp <- aget data i ;; OK (a + cpown (Rabs temp) alpha)%R) 0%R ;;
  let a := (a / IZR len)%R in
  OK (cpow a (1 / IZR alpha)).
Definition getAlphaNorm_vec (data : list R) (alpha : Z) : res R := getAlphaNorm data (zlen data) alpha.

(** getLpNorm, MathUtilities.cpp:304-311. *)
Definition getLpNorm (data : list R) (p : Z) : res R :=
  tot <- for_up 0 (zlen data) (fun i tot => v <- aget data i ;; OK (tot + Rabs (cpown v p))%R) 0%R ;;
  OK (cpow tot (1 / IZR p)).

(** normaliseLp, MathUtilities.cpp:313-328.  vector<double> out(n) holds zeros. *)
Definition normaliseLp (data : list R) (p : Z) (threshold : R) : res (list R) :=
  let n := zlen data in
  if (n =? 0) || (p =? 0) then OK data else
  norm <- getLpNorm data p ;;
  if Rltb norm threshold then OK (repeat (1 / cpow (IZR n) (1 / IZR p))%R (Z.to_nat n)) else
  for_up 0 n (fun i out => v <- aget data i ;; aset out i (v / norm)%R) (repeat 0%R (Z.to_nat n)).
