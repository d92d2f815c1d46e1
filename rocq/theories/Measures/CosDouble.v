(** maths/CosineDistance.cpp in IEEE doubles: the model of Measures/MeasModel.v, which is for any
    arithmetic, with that of binary64. *)
From Coq Require Import ZArith List.
From Flocq.IEEE754 Require Import BinarySingleNaN.
From Verif.Base Require Import Imp Arith Double.
From Verif.Maths Require Import DoubleModel.
From Verif.Fft Require Import FftrDouble.
From Verif.Measures Require Import MeasModel.
Import ListNotations.

Definition Darith : arith double := mkArith double dint dadd dsub dmul ddiv dsqrt Bltb.
(** double small = 1e-20, CosineDistance.cpp:28: the double nearest to it. *)
Definition dsmall : double := dmake 6646139978924579 (-119).
(** CosineDistance::distance, CosineDistance.cpp:24-48. *)
Definition dcosine (v1 v2 : list double) : res double := cosine Darith (@Babs 53 1024) dsmall v1 v2.
