(** Specification of a recursive filter evaluated in transposed direct form II, in the order
    of arithmetic used by Decimator and DecimatorB, and (over a ring) as the plain
    difference equation. *)
From Coq Require Import List ZArith Lia.
From Verif.Base Require Import Imp Sums.
Import ListNotations.
Open Scope Z_scope.

Section Spec.
  Context {T : Type} (zero : T) (add sub mul : T -> T -> T).

  (** What the samples up to time t contribute to the output at time t+1, through the
      coefficient pairs (b_k, a_k), (b_{k+1}, a_{k+1}), ...:
      (x[t] b_k - y[t] a_k) + ((x[t-1] b_{k+1} - y[t-1] a_{k+1}) + ...);
      nothing before time 0. *)
  Fixpoint contribution (cs : list (T * T)) (x y : list T) (t : Z) : T :=
    if t <? 0 then zero else
    match cs with
    | [] => zero
    | [(b, a)] => sub (mul (zn zero x t) b) (mul (zn zero y t) a)
    | (b, a) :: rest =>
        add (sub (mul (zn zero x t) b) (mul (zn zero y t) a)) (contribution rest x y (t - 1))
    end.

  (** [y] is the response to [x] of the filter with leading coefficient b0 and further
      coefficient pairs cs = [(b_1,a_1); (b_2,a_2); ...]. *)
  Definition iir_response (b0 : T) (cs : list (T * T)) (x y : list T) : Prop :=
    zlen y = zlen x /\
    forall t, 0 <= t < zlen x ->
      zn zero y t = add (mul (zn zero x t) b0) (contribution cs x y (t - 1)).

  (** [z] consists of every f-th sample of [y], from the first. *)
  Definition every (f : Z) (y z : list T) : Prop :=
    zlen z = zlen y / f /\ forall j, 0 <= j < zlen z -> zn zero z j = zn zero y (f * j).
End Spec.
