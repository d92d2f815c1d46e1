(** Model of the floating-point functions of maths/MathUtilities.cpp in exact real arithmetic
    (double is replaced by R; rounding, overflow and NaN are not modelled). *)
From Coq Require Import List ZArith Reals Lia Bool.
From Verif.Base Require Import Imp Sums RealOps.
Import ListNotations.
Open Scope Z_scope.

(** mod, MathUtilities.cpp:25-31. *)
Definition mod_ (x y : R) : R :=
  let a := IZR (Zfloor (x / y)) in
  let b := (x - y * a)%R in b.

(** princarg, MathUtilities.cpp:33-40. *)
Definition princarg (ang : R) : R := (mod_ (ang + PI) (-2 * PI) + PI)%R.

(** round, MathUtilities.cpp:75-82. *)
Definition round_ (x : R) : R :=
  if Rltb x 0 then (- IZR (Zfloor (- x + / 2)))%R else IZR (Zfloor (x + / 2)).

(** sum, MathUtilities.cpp:100-110. *)
Definition sum_ (src : list R) (len : Z) : res R :=
  for_up 0 len (fun i s => v <- aget src i ;; OK (s + v)%R) 0%R.

(** mean (pointer), MathUtilities.cpp:112-123. *)
Definition mean_ (src : list R) (len : Z) : res R :=
  if len =? 0 then OK 0%R else
  s <- sum_ src len ;; OK (s / IZR len)%R.

(** mean (vector, start, count), MathUtilities.cpp:125-138. *)
Definition mean_range (src : list R) (start count : Z) : res R :=
  if count =? 0 then OK 0%R else
  s <- for_up 0 count (fun i s => v <- aget src (start + i) ;; OK (s + v)%R) 0%R ;;
  OK (s / IZR count)%R.

(** getFrameMinMax, MathUtilities.cpp:140-163.  Returns ( *min, *max). *)
Definition getFrameMinMax (data : list R) (len : Z) : res (R * R) :=
  if len =? 0 then OK (0%R, 0%R) else
  d0 <- aget data 0 ;;
  for_up 0 len (fun i '(mn, mx) =>
    temp <- aget data i ;;
    let mn := if Rltb temp mn then temp else mn in
    let mx := if Rltb mx temp then temp else mx in
    OK (mn, mx)) (d0, d0).

(** getMax, MathUtilities.cpp:165-208 (pointer and vector overloads; the latter passes
    data.size()).  Returns (index, max). *)
Definition getMax (data : list R) (length : Z) : res (Z * R) :=
  m0 <- aget data 0 ;;
  for_up 0 length (fun i '(index, max) =>
    temp <- aget data i ;;
    OK (if Rltb max temp then (i, temp) else (index, max))) (0, m0).

(** std::sort: some ordering algorithm; insertion sort stands for it (on reals every sorting
    algorithm returns the same list). *)
Fixpoint insert_ (x : R) (l : list R) : list R :=
  match l with
  | [] => [x]
  | y :: t => if Rltb y x then y :: insert_ x t else x :: l
  end.
Definition sort_ (l : list R) : list R := fold_right insert_ [] l.

(** median, MathUtilities.cpp:84-98. *)
Definition median_ (src : list R) (len : Z) : res R :=
  if len =? 0 then OK 0%R else
  scratch <- for_up 0 len (fun i s => v <- aget src i ;; OK (s ++ [v])) [] ;;
  let scratch := sort_ scratch in
  let middle := Z.quot len 2 in
  if Z.rem len 2 =? 0 then
    u <- aget scratch middle ;; v <- aget scratch (middle - 1) ;; OK ((u + v) / 2)%R
  else aget scratch middle.

Inductive norm_type := NormaliseNone | NormaliseUnitSum | NormaliseUnitMax.

(** normalise (pointer), MathUtilities.cpp:235-272. *)
Definition normalise (data : list R) (length : Z) (type : norm_type) : res (list R) :=
  match type with
  | NormaliseNone => OK data
  | NormaliseUnitSum =>
      s <- for_up 0 length (fun i s => v <- aget data i ;; OK (s + v)%R) 0%R ;;
      if negb (Reqb s 0) then
        for_up 0 length (fun i d => v <- aget d i ;; aset d i (v / s)%R) data
      else OK data
  | NormaliseUnitMax =>
      m <- for_up 0 length (fun i m => v <- aget data i ;;
             OK (if Rltb m (Rabs v) then Rabs v else m)) 0%R ;;
      if negb (Reqb m 0) then
        for_up 0 length (fun i d => v <- aget d i ;; aset d i (v / m)%R) data
      else OK data
  end.

(** normalise (vector), MathUtilities.cpp:274-303: the same with data.size(). *)
Definition normalise_vec (data : list R) (type : norm_type) : res (list R) :=
  match type with
  | NormaliseNone => OK data
  | NormaliseUnitSum =>
      s <- for_up 0 (zlen data) (fun i s => v <- aget data i ;; OK (s + v)%R) 0%R ;;
      if negb (Reqb s 0) then
        for_up 0 (zlen data) (fun i d => v <- aget d i ;; aset d i (v / s)%R) data
      else OK data
  | NormaliseUnitMax =>
      m <- for_up 0 (zlen data) (fun i m => v <- aget data i ;;
             OK (if Rltb m (Rabs v) then Rabs v else m)) 0%R ;;
      if negb (Reqb m 0) then
        for_up 0 (zlen data) (fun i d => v <- aget d i ;; aset d i (v / m)%R) data
      else OK data
  end.

(** adaptiveThreshold, MathUtilities.cpp:331-353. *)
Definition adaptiveThreshold (data : list R) : res (list R) :=
  let sz := zlen data in
  if sz =? 0 then OK data else
  let p_pre := 8 in let p_post := 7 in
  smoothed <- for_up 0 sz (fun i sm =>
    let first := Z.max 0 (i - p_pre) in
    let last := Z.min (sz - 1) (i + p_post) in
    m <- mean_range data first (last - first + 1) ;; aset sm i m) (repeat 0%R (Z.to_nat sz)) ;;
  for_up 0 sz (fun i d =>
    v <- aget d i ;; s <- aget smoothed i ;;
    d <- aset d i (v - s)%R ;;
    v <- aget d i ;;
    if Rltb v 0 then aset d i 0%R else OK d) data.

(** factorial, MathUtilities.cpp:394-403. *)
Definition factorial_ (x : Z) : res R :=
  if x <? 0 then OK 0%R else
  for_up 1 (x + 1) (fun i f => OK (f * IZR i)%R) 1%R.
