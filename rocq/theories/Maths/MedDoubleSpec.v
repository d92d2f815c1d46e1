(** What std::sort is held to, and a sort to show that it can be met. *)
From Coq Require Import ZArith List Permutation Sorted.
From Flocq.IEEE754 Require Import BinarySingleNaN.
From Verif.Base Require Import Imp Double.
Import ListNotations.

(** Of finite doubles, [sort] returns a permutation in which no value is less than an earlier one. *)
Definition sorts (sort : list double -> list double) : Prop :=
  forall l, Forall finite l -> Permutation l (sort l) /\ StronglySorted (fun x y => Bltb y x = false) (sort l).

(** Insertion sort. *)
Fixpoint dinsert (x : double) (l : list double) : list double :=
  match l with [] => [x] | y :: t => if Bltb y x then y :: dinsert x t else x :: l end.
Definition disort (l : list double) : list double := fold_right dinsert [] l.
