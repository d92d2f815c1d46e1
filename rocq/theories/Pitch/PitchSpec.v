(** Equal temperament. *)
From Coq Require Import Reals ZArith.
Open Scope R_scope.

(** Position of a frequency on the scale of semitones where concert A is 69. *)
Definition semitones (f a : R) : R := 69 + 12 * (ln (f / a) / ln 2).

(** The range of positive finite floats. *)
Definition float_range (x : R) : Prop := / 2 ^ 149 <= x <= 2 ^ 128.
