(** Model of maths/MedianFilter.h (template class MedianFilter<T>). *)
From Coq Require Import List ZArith Lia Bool.
From Verif.Base Require Import Imp.
Import ListNotations.
Open Scope Z_scope.

Section Median.
  (** [ltb] is [<] of T, [neq x y] is [x != y] (so [neq x x = true] iff x is a NaN). *)
  Context {T : Type} (zero : T) (ltb : T -> T -> bool) (neq : T -> T -> bool).

  (** Members, MedianFilter.h:97-101 ([m_sortend] is the index m_size - 1). *)
  Record median := mkMedian { m_size : Z; m_frame : list T; m_sorted : list T; m_index : Z }.

  (** [std::lower_bound(first, last, v)] on the range [0, hi) of an array.
      The C++ library requires the range to be partitioned with respect to [x < v]
      (sorted ranges are); otherwise the result is unspecified, here [UB].  On a
      partitioned range the result is the first index whose element is not [< v]. *)
  Fixpoint first_not_less (v : T) (l : list T) : nat :=
    match l with
    | [] => 0%nat
    | x :: t => if ltb x v then S (first_not_less v t) else 0%nat
    end.
  Definition partitioned (v : T) (l : list T) : bool :=
    forallb (fun x => negb (ltb x v)) (skipn (first_not_less v l) l).
  Definition lower_bound (l : list T) (hi : Z) (v : T) : res Z :=
    let range := firstn (Z.to_nat hi) l in
    if partitioned v range then OK (Z.of_nat (first_not_less v range)) else UB.

  (** Clamping of the percentile index, MedianFilter.h:42-46 and 69-72.  [raw] is the value
      of the floating-point expression [int((m_size * p) / 100.f)]. *)
  Definition clamp_index (size raw : Z) : Z :=
    let ix := if size <=? raw then size - 1 else raw in
    if ix <? 0 then 0 else ix.

  (** reset, MedianFilter.h:76-79. *)
  Definition median_reset (m : median) : res median :=
    frame <- for_up 0 (m_size m) (fun i fr => aset fr i zero) (m_frame m) ;;
    sorted <- for_up 0 (m_size m) (fun i so => aset so i zero) (m_sorted m) ;;
    OK {| m_size := m_size m; m_frame := frame; m_sorted := sorted; m_index := m_index m |}.

  (** Constructor, MedianFilter.h:28-35.  [junk] stands for the indeterminate contents of
      [new T[size]] before reset(). *)
  Definition median_new (junk : T) (size raw : Z) : res median :=
    median_reset {| m_size := size; m_frame := repeat junk (Z.to_nat size);
                    m_sorted := repeat junk (Z.to_nat size); m_index := clamp_index size raw |}.

  (** drop, MedianFilter.h:112-123.  Returns also whether the warning was printed. *)
  Definition median_drop (size : Z) (sorted : list T) (value : T) : res (list T * bool) :=
    let sortend := size - 1 in
    point <- lower_bound sorted (sortend + 1) value ;;
    at_point <- aget sorted point ;;
    let warn := neq at_point value in
    let n := sortend - point in
    sorted <- for_up 0 n (fun i so => v <- aget so (point + (i + 1)) ;; aset so (point + i) v) sorted ;;
    sorted <- aset sorted sortend zero ;;
    OK (sorted, warn).

  (** put, MedianFilter.h:103-110. *)
  Definition median_put (size : Z) (sorted : list T) (value : T) : res (list T) :=
    let sortend := size - 1 in
    point <- lower_bound sorted sortend value ;;
    let n := sortend - point in
    sorted <- for_down n 1 (fun i so => v <- aget so (point + (i - 1)) ;; aset so (point + i) v) sorted ;;
    aset sorted point value.

  (** push, MedianFilter.h:48-59.  Returns also whether drop() warned. *)
  Definition median_push (m : median) (value : T) : res (median * bool) :=
    let value := if neq value value then zero else value in
    f0 <- aget (m_frame m) 0 ;;
    '(sorted, warn) <- median_drop (m_size m) (m_sorted m) f0 ;;
    frame <- for_up 0 (m_size m - 1) (fun i fr => v <- aget fr (i + 1) ;; aset fr i v) (m_frame m) ;;
    frame <- aset frame (m_size m - 1) value ;;
    sorted <- median_put (m_size m) sorted value ;;
    OK ({| m_size := m_size m; m_frame := frame; m_sorted := sorted; m_index := m_index m |}, warn).

  (** get, MedianFilter.h:61-63; getAt, 69-74. *)
  Definition median_get (m : median) : res T := aget (m_sorted m) (m_index m).
  Definition median_getAt (m : median) (raw : Z) : res T :=
    aget (m_sorted m) (clamp_index (m_size m) raw).

  (** A client history of push, reset and setPercentile (lines 42-46) calls. *)
  Inductive mop := MPush (v : T) | MReset | MSetPercentile (raw : Z).
  Definition median_step (m : median) (o : mop) : res (median * bool) :=
    match o with
    | MPush v => median_push m v
    | MReset => m <- median_reset m ;; OK (m, false)
    | MSetPercentile raw =>
        OK ({| m_size := m_size m; m_frame := m_frame m; m_sorted := m_sorted m;
               m_index := clamp_index (m_size m) raw |}, false)
    end.
  (** Runs a history; the boolean says whether any warning was printed. *)
  Fixpoint median_ops (m : median) (ops : list mop) : res (median * bool) :=
    match ops with
    | [] => OK (m, false)
    | o :: rest =>
        '(m, w) <- median_step m o ;;
        '(m, w') <- median_ops m rest ;; OK (m, w || w')
    end.

  (** Static filter(), MedianFilter.h:81-94.  The default percentile is 50.f, so the raw
      index is int((size * 50.f) / 100.f) = size / 2 (exact in float arithmetic while
      size * 50 < 2^24).  The [while] loop is run with fuel [length inp + 1]. *)
  Definition median_filter (junk : T) (size : Z) (inp : list T) : res (list T) :=
    m <- median_new junk size (size / 2) ;;
    '(m, out) <- for_up 0 (zlen inp) (fun i '(m, out) =>
        x <- aget inp i ;;
        '(m, _) <- median_push m x ;;
        md <- median_get m ;;
        OK (m, if size / 2 <=? i then out ++ [md] else out)) (m, []) ;;
    '(_, out) <- while (S (length inp)) (fun '(_, out) => zlen out <? zlen inp)
        (fun '(m, out) =>
           '(m, _) <- median_push m zero ;;
           md <- median_get m ;;
           OK (m, out ++ [md])) (m, out) ;;
    OK out.
End Median.
Arguments median : clear implicits.
Arguments MPush {T} v.
Arguments MReset {T}.
Arguments MSetPercentile {T} raw.
