(** What DownBeat is for. *)
From Coq Require Import List ZArith QArith Reals Lia.
From Verif.Base Require Import Imp RealOps.
From Verif.Maths Require Import RealSpec.
From Verif.Rate Require Import Df2tSpec DecimatorSpec DecimatorModel.
From Verif.Tempo Require Import DownBeatModel.
Import ListNotations.
Open Scope Z_scope.

Section Decimated.
  Context {T : Type} (zero : T) (add sub mul : T -> T -> T) (lit : Q -> T).
  Context {F : Type} (up : F -> T) (down : T -> F).

  (** [y] is the stream [x] low-passed by the filter for factor [f] and every f-th sample kept. *)
  Definition decimate (f : Z) (x y : list F) : Prop :=
    exists ys zs,
      iir_response zero add sub mul (lead lit (fst (coefficients f)))
        (pairs lit (fst (coefficients f)) (snd (coefficients f))) (map up x) ys /\
      every zero f ys zs /\ y = map down zs.
  (** By a factor above 8 in two stages. *)
  Definition decimated (f : Z) (x y : list F) : Prop :=
    if f <=? 1 then y = x else if f <=? 8 then decimate f x y
    else exists v, decimate 8 x v /\ decimate (f / 8) v y.
End Decimated.

(** A history of calls: everything pushed, the number of blocks pushed, and the number of blocks
    pushed since the buffer was last emptied ([k] before the history). *)
Section History.
  Context {F : Type}.
  Definition block_of (o : @op F) : list F := match o with Push b => b | ResetBuffer => [] end.
  Definition pushed (ops : list (@op F)) : list F := concat (map block_of ops).
  Fixpoint pushes (ops : list (@op F)) : Z :=
    match ops with [] => 0 | Push _ :: r => 1 + pushes r | ResetBuffer :: r => pushes r end.
  Fixpoint since_reset (k : Z) (ops : list (@op F)) : Z :=
    match ops with [] => k | Push _ :: r => since_reset (k + 1) r | ResetBuffer :: r => since_reset 0 r end.
  Definition blocks_of (n : Z) (ops : list (@op F)) : Prop := forall b, In (Push b) ops -> zlen b = n.
End History.

(** The numbers d, d+step, d+2 step, ... below n. *)
Definition every_from (d step n : Z) (l : list Z) : Prop :=
  (forall k, 0 <= k -> (k < zlen l <-> d + k * step < n)) /\
  forall k, 0 <= k < zlen l -> zn 0 l k = d + k * step.

(** Mean spectral change on reaching beats b, b+T, b+2T, ... (there is none on reaching beat 0);
    [sd e] is the change on reaching beat e+1. *)
Definition phase_strength (sd : list R) (T b : Z) : R :=
  let first := if b =? 0 then T - 1 else b - 1 in
  let count := if zlen sd <=? first then 0 else (zlen sd - first - 1) / T + 1 in
  if count =? 0 then 0%R
  else (rsum count (fun k => zn 0 sd (first + k * T)%Z) / IZR T / IZR count)%R.

(** Jensen-Shannon divergence of two distributions on 0..n-1: the entropy of their mean less their
    mean entropy. *)
Definition entropy (n : Z) (p : Z -> R) : R := (- rsum n (fun i => p i * ln (p i)))%R.
Definition jensen_shannon (n : Z) (p q : Z -> R) : R :=
  (entropy n (fun i => (p i + q i) / 2) - (entropy n p + entropy n q) / 2)%R.

(** The first bins of a spectrum as a distribution. *)
Definition distribution (n : Z) (sp : list R) (i : Z) : R :=
  ((zn 0 sp i + EPS) / rsum n (fun k => zn 0 sp k + EPS))%R.
Definition spectral_change (old new : list R) : R :=
  let n := Z.min 512 (zlen old / 4) in jensen_shannon n (distribution n old) (distribution n new).

(** The audio from sample [start] on for [len] samples under a Hann window, cut off or padded with
    zeros to [size] samples. *)
Definition windowed (size : Z) (audio : list R) (start len : Z) : list R :=
  ztab size (fun j => if j <? len
    then (zn 0 audio (start + j) * ((1 - cos (2 * PI * (IZR j / IZR len))) / 2))%R else 0%R).
(** What of each value exceeds the mean of its neighbourhood. *)
Definition peaks (d : list R) : list R := ztab (zlen d) (fun i => Rmax 0 (zn 0 d i - local_mean d i))%R.
(** First sample of a beat: a beat time is in detection function frames of [inc] samples, of which
    one in [factor] is kept. *)
Definition sample_of (inc factor : Z) (b : R) : Z := Zfloor (b * IZR inc / IZR factor).

(** The spectrum of beat i, reaching up to the next beat or the last sample. *)
Definition beat_spectrum (size inc factor : Z) (fft : list R -> list R * list R) (audio beats : list R) (i : Z) : list R :=
  let start := sample_of inc factor (zn 0%R beats i) in
  let stop := Z.max start (Z.min (sample_of inc factor (zn 0%R beats (i + 1))) (zlen audio - 1)) in
  let '(re, im) := fft (windowed size audio start (stop - start)) in
  peaks (ztab (size / 2) (fun j => sqrt (zn 0 re j * zn 0 re j + zn 0 im j * zn 0 im j))%R).
