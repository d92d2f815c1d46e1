(** What a constant-Q transform is: a bank of windowed complex exponentials, one per bin, at geometrically
    spaced frequencies. *)
From Coq Require Import Reals ZArith List Bool.
From Verif.Base Require Import Imp RealOps.
From Verif.Fft Require Import Cplx FftSpec.
Open Scope R_scope.

(** Frequency over bandwidth of bins spaced [bpo] to the octave. *)
Definition quality (bpo : Z) : R := 1 / (Rpower 2 (1 / IZR bpo) - 1).
(** Centre frequency of bin k. *)
Definition centre (fmin : R) (bpo k : Z) : R := fmin * Rpower 2 (IZR k / IZR bpo).
(** Least number of samples holding [quality] periods of that frequency. *)
Definition window_length (fs fmin : R) (bpo k : Z) : Z := Zceil (quality bpo * fs / centre fmin bpo k).

(** The window; a window of a single sample does nothing. *)
Definition hamming (l i : Z) : R :=
  if (l <=? 1)%Z then 1 else 0.54 - 0.46 * cos (2 * PI * IZR i / IZR l).

(** The filter of bin k at time t of a frame of n samples: [quality] periods of a complex exponential, in the
    middle of the frame, windowed, divided by their length. *)
Definition atom (fs fmin : R) (bpo n k t : Z) : cplx :=
  let l := window_length fs fmin bpo k in
  let i := (t - (n / 2 - l / 2))%Z in
  if (0 <=? i)%Z && (i <? l)%Z
  then cmul (cre (hamming l i / IZR l)) (cis (2 * PI * quality bpo * IZR i / IZR l))
  else c0.

(** Rotation by half a frame: time zero in the middle of the frame. *)
Definition rotated (n : Z) (x : Z -> cplx) (t : Z) : cplx := x ((t + n / 2) mod n)%Z.

(** Bin k of the spectrum. *)
Definition spectrum (n : Z) (x : Z -> cplx) (k : Z) : cplx :=
  (dft_re n (fun t => fst (x t)) (fun t => snd (x t)) k, dft_im n (fun t => fst (x t)) (fun t => snd (x t)) k).
Definition cabs (z : cplx) : R := sqrt (fst z * fst z + snd z * snd z).

(** Bin b of the spectral kernel of bin k. *)
Definition kernel_bin (fs fmin : R) (bpo n k b : Z) : cplx := spectrum n (rotated n (atom fs fmin bpo n k)) b.
(** What is left of it, conjugated and scaled, when bin 0 and values no larger than the threshold are dropped. *)
Definition kept_bin (fs fmin : R) (bpo : Z) (thresh : R) (n k b : Z) : cplx :=
  let v := kernel_bin fs fmin bpo n k b in
  if (b =? 0)%Z then c0 else if Rle_dec (cabs v) (Rabs thresh) then c0
  else cmul (cre (1 / IZR n)) (cconj v).

(** Bin k of the constant-Q transform of the spectrum X, of which bin 0 is not looked at. *)
Definition cq_bin (fs fmin : R) (bpo : Z) (thresh : R) (n : Z) (X : Z -> cplx) (k : Z) : cplx :=
  csum (n - 1) (fun b => cmul (kept_bin fs fmin bpo thresh n k (b + 1)) (X (n - (b + 1))%Z)).
