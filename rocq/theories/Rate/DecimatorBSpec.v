(** Specification of repeated halving. *)
From Coq Require Import List ZArith Lia.
From Verif.Base Require Import Imp.
From Verif.Rate Require Import Df2tSpec.
Open Scope Z_scope.

Section Spec.
  Context {T : Type} (zero : T) (add sub mul : T -> T -> T) (b0 : T) (cs : list (T * T)).

  (** [z] is obtained from [x] by filtering and keeping every second sample, k times. *)
  Fixpoint halved (k : nat) (x z : list T) : Prop :=
    match k with
    | O => z = x
    | S k => exists y w, iir_response zero add sub mul b0 cs x y /\ every zero 2 y w /\ halved k w z
    end.
End Spec.
