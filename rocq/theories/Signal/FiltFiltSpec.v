(** Specification of zero-phase (forward-backward) filtering with reflected ends. *)
From Coq Require Import List ZArith.
From Verif.Base Require Import Imp.
From Verif.Signal Require Import FilterSpec.
Import ListNotations.
Open Scope Z_scope.

Section Spec.
  Context {T : Type} (zero two : T) (add sub mul : T -> T -> T).

  (** [src] extended by [p] samples on both sides by point reflection about its end
      samples; zero where the source is too short to be reflected. *)
  Definition reflect_at (src : list T) (t : Z) : T :=
    let n := zlen src in
    if t <? 0 then
      (if - t <? n then sub (mul two (zn zero src 0)) (zn zero src (- t)) else zero)
    else if t <? n then zn zero src t
    else (if t - n + 1 <? n then sub (mul two (zn zero src (n - 1))) (zn zero src (2 * (n - 1) - t))
          else zero).
  Definition extended (p : Z) (src : list T) : list T :=
    ztab (zlen src + 2 * p) (fun k => reflect_at src (k - p)).

  (** [dst] is the zero-phase response of filter (a,b) to [src]. *)
  Definition zero_phase (a b src dst : list T) : Prop :=
    let p := 3 * (zlen b - 1) in
    exists y z,
      is_response zero add sub mul a b (extended p src) y /\
      is_response zero add sub mul a b (rev y) z /\
      dst = firstn (length src) (skipn (Z.to_nat p) (rev z)).
  (** Every call on one object, in order: call k is the response continued from the state left
      by the backward pass of call k-1. *)
  Fixpoint chained (a b xs ys : list T) (srcs rs : list (list T)) : Prop :=
    match srcs, rs with
    | [], [] => True
    | src :: srcs, r :: rs =>
        let p := 3 * (zlen b - 1) in
        exists y z,
          zlen y = zlen src + 2 * p /\
          is_response zero add sub mul a b (xs ++ extended p src) (ys ++ y) /\
          is_response zero add sub mul a b (rev y) z /\
          r = firstn (length src) (skipn (Z.to_nat p) (rev z)) /\
          chained a b (rev y) z srcs rs
    | _, _ => False
    end.

End Spec.
