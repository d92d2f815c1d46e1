(** The operations of C++ double as parameters.  Code modelled over an arbitrary [arith T]
    is modelled with its rounding, overflow and NaN behaviour, whatever these are;
    [Rarith] is the instance in which double is replaced by exact real arithmetic. *)
From Coq Require Import ZArith Reals.
From Verif.Base Require Import Imp Sums RealOps.

Record arith (T : Type) := mkArith {
  a_of : Z -> T;              (** conversion from int *)
  a_add : T -> T -> T;
  a_sub : T -> T -> T;
  a_mul : T -> T -> T;
  a_div : T -> T -> T;
  a_sqrt : T -> T;
  a_lt : T -> T -> bool       (** x < y; false when either is NaN *)
}.
Arguments a_of {T} _ _.
Arguments a_add {T} _ _ _.
Arguments a_sub {T} _ _ _.
Arguments a_mul {T} _ _ _.
Arguments a_div {T} _ _ _.
Arguments a_sqrt {T} _ _.
Arguments a_lt {T} _ _ _.

Definition Rarith : arith R := mkArith R IZR Rplus Rminus Rmult Rdiv sqrt Rltb.
