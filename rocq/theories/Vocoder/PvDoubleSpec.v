(** Unwrapped phases up to an error. *)
From Coq Require Import ZArith Reals List.
From Verif.Base Require Import Imp Double.
From Verif.Maths Require Import DoubleSpec.
From Verif.Vocoder Require Import PvSpec.
Import ListNotations.
Open Scope R_scope.

(** Frames of at least m phases, finite and of magnitude at most 4, and output arrays for as many. *)
Definition phase_frames (m : Z) (frames : list (list double * list double)) : Prop :=
  Forall (fun f => (m <= zlen (fst f))%Z /\ (m <= zlen (snd f))%Z /\
    forall k, (0 <= k < m)%Z -> finite (zn d0 (fst f) k) /\ Rabs (dval (zn d0 (fst f) k)) <= 4) frames.

(** [v] is the unwrapped phase of bin [k] which follows [prev] when the measured phase is [th]:
    congruent to [th] and within half a turn of the previous value plus the advance, up to [e]. *)
Definition unwraps_within (e : R) (n hop k : Z) (prev th v : R) : Prop :=
  near_angle e v th /\ Rabs (v - (prev + advance n hop k)) <= PI + e.

(** The error allowed in frame t (from 0): 12 hop (t+1) (t+21) units of 2^-53. *)
Definition tolerance (hop t : Z) : R := 12 * uro * IZR hop * IZR ((t + 1) * (t + 21)).

(** The outputs of bin k, frame after frame from frame t on, are finite and unwrap the measured phases. *)
Fixpoint tracks (n hop k t : Z) (prev : R) (frames : list (list double * list double)) (outs : list (list double)) : Prop :=
  match frames, outs with
  | [], [] => True
  | (theta, _) :: fs, o :: os =>
      finite (zn d0 o k) /\
      unwraps_within (tolerance hop t) n hop k prev (dval (zn d0 theta k)) (dval (zn d0 o k)) /\
      tracks n hop k (t + 1) (dval (zn d0 o k)) fs os
  | _, _ => False
  end.
