(** Vocabulary for what GetKeyMode computes, independent of its buffers. *)
From Coq Require Import List ZArith Reals Lia Bool.
From Verif.Base Require Import Imp Sums RealOps.
Import ListNotations.
Open Scope Z_scope.

(** The last [min n (length l)] elements. *)
Definition last_n {A} (n : Z) (l : list A) : list A := skipn (length l - Z.to_nat n) l.

(** [m] is the element that stands at position [k] (from 0) when [l] is sorted. *)
Definition ranks (k : Z) (l : list Z) (m : Z) : Prop :=
  In m l /\ zlen (filter (fun x => x <? m) l) <= k < zlen (filter (fun x => x <=? m) l).

(** The lower median. *)
Definition lower_median (l : list Z) (m : Z) : Prop := ranks ((zlen l - 1) / 2) l m.

(** Average of [n] frames, component [k]. *)
Definition mean_frame (frames : list (list R)) (k : Z) : R :=
  (rsum (zlen frames) (fun j => zn 0 (zn [] frames j) k) / IZR (zlen frames))%R.

(** Pearson correlation of two vectors of length [n]; 0 when one of them is constant. *)
Definition avg (n : Z) (f : Z -> R) : R := (rsum n f / IZR n)%R.
Definition pearson (n : Z) (f g : Z -> R) : R :=
  let cov u v := rsum n (fun i => (u i - avg n u) * (v i - avg n v))%R in
  let den := sqrt (cov f f * cov g g) in
  if Rltb 0 den then (cov f g / den)%R else 0%R.

(** The key profiles (in units of 1/10000), three bins per semitone with C at bin 1, and their
    transposition so that the tonic C (bin 1 of the profile, bin 0 of the chromagram) lands on
    bin [b]. *)
Definition major_profile : list Z := [
    384; 629; 258;  121; 146; 106;  364; 610; 267;  126; 121; 86;  364; 623; 279;  275; 414; 186;
    173; 248; 145;  364; 631; 262;  129; 150; 98;   312; 521; 235;  129; 142; 95;  289; 478; 239].
Definition minor_profile : list Z := [
    375; 682; 299;  119; 138; 93;  296; 543; 257;  292; 519; 246;  159; 234; 135;  291; 544; 248;
    137; 176; 104;  352; 670; 302;  222; 349; 164;  174; 297; 166;  222; 401; 202;  175; 270; 146].
Definition profile (p : list Z) (i : Z) : R := (IZR (zn 0%Z p i) / 10000)%R.
Definition transposed (p : list Z) (b i : Z) : R := profile p ((i + 2 - b) mod 36).

(** The 72 candidates (36 major bins, then 36 minor bins): how well a chroma vector matches. *)
Definition match_of (chroma : Z -> R) (b : Z) : R :=
  if b <? 36 then pearson 36 chroma (transposed major_profile b)
  else pearson 36 chroma (transposed minor_profile (b - 36)).

(** Key number 1..24 of a candidate: three bins per key. *)
Definition key_of_bin (b : Z) : Z := b / 3 + 1.

(** [k] is a best matching key for a chroma vector. *)
Definition best_key (chroma : Z -> R) (k : Z) : Prop :=
  exists b, 0 <= b < 72 /\ k = key_of_bin b /\
    (forall c, 0 <= c < 72 -> Rle (match_of chroma c) (match_of chroma b)).

(** Strength of key [k] (1..24): the best match among its three bins. *)
Definition key_strength (chroma : Z -> R) (k : Z) : R :=
  Rmax (Rmax (match_of chroma (3 * (k - 1))) (match_of chroma (3 * (k - 1) + 1)))
       (match_of chroma (3 * (k - 1) + 2)).
