(** What the beat period estimation of TempoTrackV2 is for. *)
From Coq Require Import List ZArith Reals Lia Bool.
From Verif.Base Require Import Imp RealOps.
Import ListNotations.
Open Scope Z_scope.

(** A sequence of beat periods [q 0, q 1, ...] (in detection-function frames, one per analysis
    frame): weight of the first period, how well each period fits its frame, and how likely each
    change of period is. *)
Fixpoint path_score (w : Z -> R) (fit : Z -> Z -> R) (change : Z -> Z -> R) (q : Z -> Z) (t : nat) : R :=
  match t with
  | O => w (q 0%Z) * fit 0%Z (q 0%Z)
  | S t' => path_score w fit change q t' *
            (change (q (Z.of_nat t')) (q (Z.of_nat t)) * fit (Z.of_nat t) (q (Z.of_nat t)))
  end%R.

(** Periods below 20 frames or within 20 of the largest are ruled out; otherwise Gaussian
    preference, with a standard deviation of 8 frames, for keeping the period. *)
Definition tempo_change (n : Z) (p p' : Z) : R :=
  if (20 <=? p) && (p <? n - 20) && (20 <=? p') && (p' <? n - 20)
  then exp (- (IZR (p' - p)) ^ 2 / (2 * 8 ^ 2)) else 0%R.

(** A two-pole filter of the given coefficients, started at rest: output [y] of input [x]. *)
Definition butterworth_output (n : Z) (x y : Z -> R) : Prop :=
  (forall i, i < 0 -> x i = 0%R /\ y i = 0%R) /\
  forall i, 0 <= i < n ->
    (y i = 2066 / 10000 * x i + 4131 / 10000 * x (i - 1)%Z + 2066 / 10000 * x (i - 2)%Z
           + 3695 / 10000 * y (i - 1)%Z - 1958 / 10000 * y (i - 2)%Z)%R.

(** How well each period (index [i] stands for period i+1) fits a frame of the detection
    function: comb of the autocorrelation, weighted, thresholded, with a small floor,
    normalised. *)
Definition thresholded (local_mean : list R -> Z -> R) (d : list R) : list R :=
  ztab (zlen d) (fun i => Rmax 0 (zn 0%R d i - local_mean d i)).
Definition autocorr (x : list R) (lag : Z) : R :=
  (rsum (zlen x - lag) (fun k => zn 0 x k * zn 0 x (k + lag)%Z) / IZR (zlen x - lag))%R.
Definition comb_value (ac : Z -> R) (w : Z -> R) (n i : Z) : R :=
  if (1 <=? i) && (i <? n - 1)
  then rsum 4 (fun a' => let a := (a' + 1)%Z in
         rsum (2 * a - 1) (fun b' => let b := (b' + 1 - a)%Z in
           (ac (a * (i + 1) + b - 1)%Z * w i / (2 * IZR a - 1))%R))
  else 0%R.
Definition floor_normalised (eps : R) (u : list R) : list R :=
  let s := rsum (zlen u) (fun i => zn 0 u i + eps)%R in
  ztab (zlen u) (fun i => ((zn 0 u i + eps) / (s + eps))%R).
Definition period_fit (local_mean : list R -> Z -> R) (eps : R) (w frame : list R) : list R :=
  let ac := autocorr (thresholded local_mean frame) in
  floor_normalised eps (thresholded local_mean (ztab (zlen w) (comb_value ac (zn 0%R w) (zlen w)))).
(** Frame number [c]: 512 values from 128 c on. *)
Definition df_frame (df : list R) (c : Z) : list R := ztab 512 (fun k => zn 0%R df (c * 128 + k)).
