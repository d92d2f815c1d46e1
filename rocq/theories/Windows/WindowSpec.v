(** What window functions are. *)
From Coq Require Import List ZArith Reals Lia.
From Verif.Base Require Import Imp RealOps.
Import ListNotations.
Open Scope R_scope.

Notation Wn := (zn 0%R).

(** Periodic: w[i] = w[n-i] for 0 < i < n. *)
Definition periodic (w : list R) : Prop :=
  forall i, (0 < i < zlen w)%Z -> Wn w i = Wn w (zlen w - i).
(** Symmetric: w[i] = w[n-1-i]. *)
Definition symmetric (w : list R) : Prop :=
  forall i, (0 <= i < zlen w)%Z -> Wn w i = Wn w (zlen w - 1 - i).
Definition in_unit (w : list R) : Prop := forall i, (0 <= i < zlen w)%Z -> 0 <= Wn w i <= 1.

(** [c] is the elementwise product of the first n elements. *)
Definition product_of (n : Z) (a b c : list R) : Prop :=
  forall i, (0 <= i < n)%Z -> Wn c i = Wn a i * Wn b i.

Definition sinc (x : R) : R := if Req_EM_T x 0 then 1 else sin x / x.

(** The first 20 terms of the power series of the modified Bessel function I_0. *)
Definition I0_20 (x : R) : R := rsum 20 (fun i => ((x / 2) ^ Z.to_nat i / INR (fact (Z.to_nat i))) ^ 2).

(** Kaiser window value at offset d from the middle of a window reaching to offset h. *)
Definition kaiser_at (beta h d : R) : R := I0_20 (beta * sqrt (1 - (d / h) ^ 2)) / I0_20 beta.
