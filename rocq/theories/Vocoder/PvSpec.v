(** What a phase vocoder is specified to return. *)
From Coq Require Import Reals ZArith Bool.
From Verif.Maths Require Import RealSpec.
Open Scope R_scope.

(** Magnitude and argument of the complex number re + i im. *)
Definition polar (re im mag th : R) : Prop :=
  0 <= mag /\ re = mag * cos th /\ im = mag * sin th /\ - PI < th <= PI /\ (mag = 0 -> th = 0).

(** The phase by which bin k of a size n transform advances during hop samples. *)
Definition advance (n hop k : Z) : R := 2 * PI * IZR hop * IZR k / IZR n.

(** [un'] is the value congruent to the measured phase [th'] which lies within half a turn of
    the previous value plus the advance. *)
Definition unwraps (n hop k : Z) (un th' un' : R) : Prop :=
  same_angle un' th' /\ - PI < un' - (un + advance n hop k) <= PI.

(** Rotating the frame by half its length multiplies bin k by (-1)^k. *)
Definition alternate (k : Z) : R := if Z.even k then 1 else -1.
