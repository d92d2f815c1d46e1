(** What the tonal centroid and the harmonic change function should be. *)
From Coq Require Import List ZArith Reals Bool.
From Verif.Base Require Import Imp RealOps.
Import ListNotations.
Open Scope Z_scope.

(** Transposing a chroma vector up by k semitones. *)
Definition transposed (k : Z) (c : list R) : list R := ztab 12 (fun p => zn 0%R c ((p - k) mod 12)).

(** The three circles: fifths, major thirds, minor thirds; what one semitone turns, and their radii. *)
Definition semitone (r : Z) : R := (match r with 0%Z => 7 / 6 * PI | 1%Z => 2 / 3 * PI | _ => 3 / 2 * PI end)%R.
Definition radius (r : Z) : R := (match r with 0%Z => 1 | 1%Z => 6 / 10 | _ => 11 / 10 end)%R.

(** (s, c) is the sum of the unit vectors of the pitch classes on circle r, weighted by the chroma. *)
Definition on_circle (r : Z) (c : list R) : R * R :=
  (radius r * rsum 12 (fun p => zn 0 c p * sin (IZR p * semitone r)),
   radius r * rsum 12 (fun p => zn 0 c p * cos (IZR p * semitone r)))%R.

(** A point given as (r sin t, r cos t) turned by the angle a. *)
Definition turned (a : R) (p : R * R) : R * R :=
  (fst p * cos a + snd p * sin a, snd p * cos a - fst p * sin a)%R.

Definition point (v : list R) (r : Z) : R * R := (zn 0%R v (2 * r), zn 0%R v (2 * r + 1)).

Definition norm1 (c : list R) : R := rsum 12 (fun p => Rabs (zn 0%R c p)).
Definition norm2 (v : list R) : R := sqrt (rsum 6 (fun i => zn 0 v i * zn 0 v i))%R.

(** Width of the smoothing: w frames on each side, full width at half maximum (2w+1)/2. *)
Definition spread (w : Z) : R := (IZR (2 * w + 1) / 4.7096)%R.
Definition bell (w d : Z) : R :=
  (exp (- (IZR d * IZR d) / (2 * (spread w * spread w))) / (spread w * sqrt (2 * PI)))%R.

(** The frames vs smoothed over time; beyond the ends of the piece everything is 0. *)
Definition smoothed (w : Z) (vs : list (list R)) (p i : Z) : R :=
  if (0 <=? p) && (p <? zlen vs) then
    rsum (2 * w + 1) (fun e => bell w (e - w) * zn 0 (zn [] vs (p + (e - w))) i)%R
  else 0%R.

(** The harmonic change: how far apart the smoothed frames before and after are. *)
Definition change (w : Z) (vs : list (list R)) (p : Z) : R :=
  sqrt (rsum 6 (fun i => (smoothed w vs (p + 1) i - smoothed w vs (p - 1) i) *
                         (smoothed w vs (p + 1) i - smoothed w vs (p - 1) i)))%R.
