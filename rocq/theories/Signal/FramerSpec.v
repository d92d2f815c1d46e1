(** What frames of a source are. *)
From Coq Require Import List ZArith Lia.
From Verif.Base Require Import Imp.
Import ListNotations.
Open Scope Z_scope.

Section Spec.
  Context {T : Type} (zero : T).

  (** [o] is buffer [d] with its first [len] places replaced by the samples of [src] from
      position [start], zero beyond the end of [src]. *)
  Definition holds_frame (src : list T) (start len : Z) (d o : list T) : Prop :=
    zlen o = zlen d /\
    forall i, 0 <= i < zlen d -> zn zero o i = if i <? len then zn zero src (start + i) else zn zero d i.

  (** Frame k starts at [first + k*hop]. *)
  Definition frames_from (src : list T) (first hop len : Z) (ds os : list (list T)) : Prop :=
    zlen os = zlen ds /\
    forall k, 0 <= k < zlen ds ->
      holds_frame src (first + k * hop) len (zn [] ds k) (zn [] os k).

  (** Smallest integer n with n*b >= a. *)
  Definition is_ceil (a b n : Z) : Prop := (n - 1) * b < a <= n * b.

  Definition big_enough (len : Z) (ds : list (list T)) : Prop := Forall (fun d => len <= zlen d) ds.
End Spec.
