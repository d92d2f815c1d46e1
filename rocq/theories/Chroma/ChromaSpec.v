(** What a chroma frame is. *)
From Coq Require Import Reals ZArith List Bool.
From Verif.Base Require Import Imp RealOps.
From Verif.Maths Require Import RealModel RealSpec.
From Verif.Fft Require Import Cplx FftSpec.
From Verif.Chroma Require Import CqSpec.
Open Scope R_scope.

(** Pitch class i: the magnitudes of its bins in all octaves added up. *)
Definition pitch_class (bpo octaves : Z) (bin : Z -> cplx) (i : Z) : R :=
  rsum octaves (fun o => cabs (bin (o * bpo + i)%Z)).

(** [d] is proportional to [raw], with sum or maximum 1 as asked for; all zeros stay zeros. *)
Definition is_normalised (t : norm_type) (n : Z) (raw d : Z -> R) : Prop :=
  match t with
  | NormaliseNone => forall i, (0 <= i < n)%Z -> d i = raw i
  | NormaliseUnitSum =>
      (forall i, (0 <= i < n)%Z -> raw i = 0 /\ d i = 0) \/
      (rsum n d = 1 /\ exists m, 0 < m /\ forall i, (0 <= i < n)%Z -> raw i = m * d i)
  | NormaliseUnitMax =>
      (forall i, (0 <= i < n)%Z -> raw i = 0 /\ d i = 0) \/
      (is_max n d 1 /\ exists m, 0 < m /\ forall i, (0 <= i < n)%Z -> raw i = m * d i)
  end.

(** A frame of samples, windowed. *)
Definition windowed (n : Z) (x : Z -> R) (t : Z) : cplx := cre (x t * hamming n t).
