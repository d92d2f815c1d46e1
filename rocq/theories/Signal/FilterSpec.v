(** Specification of a linear filter: the direct-form difference equation.
    Independent of the buffering in the code. *)
From Coq Require Import List ZArith.
From Verif.Base Require Import Imp Sums.
From Verif.Signal Require Import FilterModel.
Import ListNotations.
Open Scope Z_scope.

Section Spec.
  Context {T : Type} (zero : T) (add sub mul : T -> T -> T).

  (** Value of the difference equation at time [s], for input stream [x] and output
      stream [y] (both zero outside their range), in the textbook order of operations:
      sum_{i=0}^{N} b[i] x[s-i]  -  sum_{i=1}^{N} a[i] y[s-i]
      (no subtraction for a FIR filter, a = []). *)
  Definition diff_eq_at (a b x y : list T) (s : Z) : T :=
    let bsum := fsum zero add (zlen b) (fun i => mul (zn zero b i) (zn zero x (s - i))) in
    match a with
    | [] => bsum
    | _ => sub bsum (fsum zero add (zlen b - 1)
                       (fun i => mul (zn zero a (i + 1)) (zn zero y (s - (i + 1)))))
    end.

  (** [y] is the response of filter (a,b) to [x]. *)
  Definition is_response (a b x y : list T) : Prop :=
    zlen y = zlen x /\
    forall s, 0 <= s < zlen x -> zn zero y s = diff_eq_at a b x y s.

  (** Coefficients the constructor accepts. *)
  Definition accepted (a b : list T) : Prop :=
    (a = [] /\ b <> []) \/ (a <> [] /\ zlen a = zlen b).

  (** FIR, or order at least 1. *)
  Definition fir_or_order1 (a b : list T) : Prop := a = [] \/ 2 <= zlen b.

  (** *** Vocabulary for clients: a call is a pair (input block, output buffer). *)
  (** The samples written by the calls: the first [length inp] entries of each buffer. *)
  Definition produced (calls : list (list T * list T)) (outs : list (list T)) : list T :=
    concat (map (fun p => firstn (length (fst (fst p))) (snd p)) (combine calls outs)).

  (** Output buffer [out'] differs from [out] only in its first [length inp] entries. *)
  Definition rest_untouched (c : list T * list T) (out' : list T) : Prop :=
    zlen out' = zlen (snd c) /\ skipn (length (fst c)) out' = skipn (length (fst c)) (snd c).

  Definition room (calls : list (list T * list T)) : Prop :=
    forall inp out, In (inp, out) calls -> zlen inp <= zlen out.

  (** Same for histories mixing process and reset. *)
  Definition ops_room (ops : list (fop (T:=T))) : Prop :=
    forall inp out, In (FProcess inp out) ops -> zlen inp <= zlen out.

End Spec.
