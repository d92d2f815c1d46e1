(** Model of sum, mean, normalise, adaptiveThreshold, round and factorial of
    maths/MathUtilities.cpp in IEEE doubles.  As RealModel.v, with the operations of
    Base/Double.v. *)
From Coq Require Import ZArith List Bool.
From Flocq.IEEE754 Require Import BinarySingleNaN.
From Verif.Base Require Import Imp Double.
From Verif.Maths Require Import DoubleModel RealModel.
Import ListNotations.
Open Scope Z_scope.

(** x < y and x != y of doubles; fabs; unary minus. *)
Definition dltb (x y : double) : bool := Bltb x y.
Definition dneqb (x y : double) : bool := negb (Beqb x y).
Definition dabs (x : double) : double := Babs x.
Definition dminus (x : double) : double := Bopp x.
(** The literal 0.5. *)
Definition dpoint5 : double := dmake 1 (-1).

(** round, MathUtilities.cpp:75-82. *)
Definition dround (x : double) : double :=
  if dltb x d0 then dminus (dfloor (dadd (dminus x) dpoint5)) else dfloor (dadd x dpoint5).

(** sum, MathUtilities.cpp:100-110. *)
Definition dsum (src : list double) (len : Z) : res double :=
  for_up 0 len (fun i s => v <- aget src i ;; OK (dadd s v)) d0.

(** mean (pointer), MathUtilities.cpp:112-123. *)
Definition dmean (src : list double) (len : Z) : res double :=
  if len =? 0 then OK d0 else
  s <- dsum src len ;; OK (ddiv s (dint len)).

(** mean (vector, start, count), MathUtilities.cpp:125-138. *)
Definition dmean_range (src : list double) (start count : Z) : res double :=
  if count =? 0 then OK d0 else
  s <- for_up 0 count (fun i s => v <- aget src (start + i) ;; OK (dadd s v)) d0 ;;
  OK (ddiv s (dint count)).

(** normalise (pointer), MathUtilities.cpp:235-272; the vector overload (274-303) is the same with
    length = data.size(). *)
Definition dnormalise (data : list double) (length : Z) (type : norm_type) : res (list double) :=
  match type with
  | NormaliseNone => OK data
  | NormaliseUnitSum =>
      s <- for_up 0 length (fun i s => v <- aget data i ;; OK (dadd s v)) d0 ;;
      if dneqb s d0 then
        for_up 0 length (fun i d => v <- aget d i ;; aset d i (ddiv v s)) data
      else OK data
  | NormaliseUnitMax =>
      m <- for_up 0 length (fun i m => v <- aget data i ;;
             OK (if dltb m (dabs v) then dabs v else m)) d0 ;;
      if dneqb m d0 then
        for_up 0 length (fun i d => v <- aget d i ;; aset d i (ddiv v m)) data
      else OK data
  end.

(** adaptiveThreshold, MathUtilities.cpp:331-353. *)
Definition dadaptive (data : list double) : res (list double) :=
  let sz := zlen data in
  if sz =? 0 then OK data else
  let p_pre := 8 in let p_post := 7 in
  smoothed <- for_up 0 sz (fun i sm =>
    let first := Z.max 0 (i - p_pre) in
    let last := Z.min (sz - 1) (i + p_post) in
    m <- dmean_range data first (last - first + 1) ;; aset sm i m) (repeat d0 (Z.to_nat sz)) ;;
  for_up 0 sz (fun i d =>
    v <- aget d i ;; s <- aget smoothed i ;;
    d <- aset d i (dsub v s) ;;
    v <- aget d i ;;
    if dltb v d0 then aset d i d0 else OK d) data.

(** factorial, MathUtilities.cpp:394-403. *)
Definition dfactorial (x : Z) : res double :=
  if x <? 0 then OK d0 else
  for_up 1 (x + 1) (fun i f => OK (dmul f (dint i))) (dint 1).
