(** Specification of order statistics by counting: no sorting algorithm involved. *)
From Coq Require Import List ZArith Lia Bool.
From Verif.Base Require Import Imp.
From Verif.Maths Require Import MedianModel.
Import ListNotations.
Open Scope Z_scope.

Section Spec.
  Context {T : Type} (zero : T) (ltb : T -> T -> bool) (neq : T -> T -> bool).

  (** What is assumed of the element type: on values that are not NaN, [<] is a strict weak
      order and [!=] is "one is less than the other"; zero is not a NaN.
      (True of int, float and double; +0.0 and -0.0 are equivalent, not identical.) *)
  Record ordered : Prop := {
    zero_ok : neq zero zero = false;
    lt_irr : forall x, neq x x = false -> ltb x x = false;
    lt_asym : forall x y, neq x x = false -> neq y y = false -> ltb x y = true -> ltb y x = false;
    lt_neg_trans : forall x y z, neq x x = false -> neq y y = false -> neq z z = false ->
      ltb x z = true -> ltb x y = true \/ ltb y z = true;
    neq_lt : forall x y, neq x x = false -> neq y y = false -> neq x y = ltb x y || ltb y x }.

  Definition count (p : T -> bool) (l : list T) : Z := zlen (filter p l).

  (** [v] is (up to [!=]) the element at index [k] (from 0) of the sorted contents of [l]:
      at most k elements are below v and more than k are not above it. *)
  Definition is_kth (k : Z) (l : list T) (v : T) : Prop :=
    count (fun x => ltb x v) l <= k < count (fun x => negb (ltb v x)) l.

  (** NaNs count as zero. *)
  Definition clean (v : T) : T := if neq v v then zero else v.

  (** The last [size] of the values [l], zeros standing before the first. *)
  Definition last_values (size : Z) (l : list T) : list T :=
    skipn (length l) (repeat zero (Z.to_nat size) ++ l).

  (** Values pushed since construction or the latest reset. *)
  Definition since_reset (ops : list (mop (T:=T))) : list T :=
    fold_left (fun acc o => match o with MPush v => acc ++ [clean v] | MReset => [] | _ => acc end)
      ops [].
  Definition current_raw (raw : Z) (ops : list (mop (T:=T))) : Z :=
    fold_left (fun acc o => match o with MSetPercentile r => r | _ => acc end) ops raw.

  (** Index selected by percentile: the raw index limited to 0 .. size-1. *)
  Definition limited (size raw : Z) : Z := Z.max 0 (Z.min raw (size - 1)).

  (** Input value at time t, zero outside the input. *)
  Definition centred_window (size : Z) (inp : list T) (k : Z) : list T :=
    ztab size (fun i => clean (zn zero inp (k + size / 2 - size + 1 + i))).
End Spec.
