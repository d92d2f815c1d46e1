(** Model of the integer functions of maths/MathUtilities.cpp.
    C++ [int] is 32 bits; signed overflow is undefined behaviour ([UB]). *)
From Coq Require Import List ZArith Lia Bool.
From Verif.Base Require Import Imp.
Import ListNotations.
Open Scope Z_scope.

Definition INT_MIN : Z := - 2 ^ 31.
Definition INT_MAX : Z := 2 ^ 31 - 1.
Definition is_int (x : Z) : Prop := INT_MIN <= x <= INT_MAX.
(** The value of an int expression, undefined when it is out of range. *)
Definition int_ (x : Z) : res Z := if (INT_MIN <=? x) && (x <=? INT_MAX) then OK x else UB.

(** isPowerOfTwo, MathUtilities.cpp:355-361. *)
Definition isPowerOfTwo (x : Z) : bool :=
  if x <? 1 then false else if Z.land x (x - 1) =? 0 then true else false.

(** [while (x) { x >>= 1; n <<= 1; }] *)
Definition shift_loop (fuel : nat) (x n : Z) : res (Z * Z) :=
  while fuel (fun '(x, n) => negb (x =? 0))
    (fun '(x, n) => n <- int_ (n * 2) ;; OK (Z.shiftr x 1, n)) (x, n).

(** nextPowerOfTwo, MathUtilities.cpp:363-371.  32 iterations are enough for any int. *)
Definition nextPowerOfTwo (x : Z) : res Z :=
  if isPowerOfTwo x then OK x else
  if x <? 1 then OK 1 else
  '(_, n) <- shift_loop 32 x 1 ;; OK n.

(** previousPowerOfTwo, MathUtilities.cpp:373-382. *)
Definition previousPowerOfTwo (x : Z) : res Z :=
  if isPowerOfTwo x then OK x else
  if x <? 1 then OK 1 else
  '(_, n) <- shift_loop 32 (Z.shiftr x 1) 1 ;; OK n.

(** nearestPowerOfTwo, MathUtilities.cpp:384-392. *)
Definition nearestPowerOfTwo (x : Z) : res Z :=
  if isPowerOfTwo x then OK x else
  n0 <- previousPowerOfTwo x ;;
  n1 <- nextPowerOfTwo x ;;
  d0 <- int_ (x - n0) ;;
  d1 <- int_ (n1 - x) ;;
  OK (if d0 <? d1 then n0 else n1).

(** gcd, MathUtilities.cpp:405-414.  C++ [%] is [Z.rem]; division by zero is undefined, and so
    is INT_MIN % -1. *)
Fixpoint gcd_c (fuel : nat) (a b : Z) : res Z :=
  match fuel with
  | O => Diverge
  | S k =>
      if b =? 0 then UB else
      _ <- int_ (Z.quot a b) ;;
      let c := Z.rem a b in
      if c =? 0 then OK b else gcd_c k b c
  end.

(** compareInt, MathUtilities.cpp:230-233 (a qsort comparator; the difference may overflow). *)
Definition compareInt (a b : Z) : res Z := int_ (a - b).

(** circShift, MathUtilities.cpp:212-228. *)
Definition circShift {T} (data : list T) (length shift : Z) : res (list T) :=
  if length =? 0 then UB else
  let shift := Z.rem shift length in
  for_up 0 shift (fun _ d =>
    temp <- aget d (length - 1) ;;
    d <- for_down (length - 2) 0 (fun n d => v <- aget d n ;; aset d (n + 1) v) d ;;
    aset d 0 temp) data.
