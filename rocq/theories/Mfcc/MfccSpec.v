(** What mel-frequency cepstral coefficients should be. *)
From Coq Require Import List ZArith Reals Bool.
From Verif.Base Require Import Imp RealOps.
From Verif.Fft Require Import FftSpec.
Import ListNotations.
Open Scope Z_scope.

(** The 42 corner frequencies in Hz: 13 at equal distances, then in equal ratios. *)
Fixpoint ratio_up (n : nat) : R := match n with O => 866.66666652 | S k => 1.0711703 * ratio_up k end%R.
Definition corner (i : Z) : R :=
  if i <=? 12 then (66.6666666 + IZR i * 66.66666666)%R else ratio_up (Z.to_nat (i - 12)).

(** A triangle of area 1 over [a, c] with its tip at b. *)
Definition triangle (a b c f : R) : R := (2 / (c - a) * Rmax 0 (Rmin ((f - a) / (b - a)) ((c - f) / (c - b))))%R.

(** Output of the i-th of 40 filters for bins of the given magnitudes, the bins being fs/n Hz apart. *)
Definition band (fs n : Z) (mag : Z -> R) (i : Z) : R :=
  rsum (n / 2) (fun j => triangle (corner i) (corner (i + 1)) (corner (i + 2)) (IZR j * IZR fs / IZR n) * mag j)%R.

Definition magn (re im : Z -> R) (j : Z) : R := sqrt (re j * re j + im j * im j)%R.

(** Level of a band: the decimal logarithm, 0 for an empty band. *)
Definition level10 (b : R) : R := if Rlt_dec 0 b then (ln b / ln 10)%R else 0%R.

(** What is transformed: the level, or a power of it. *)
Definition powered (p x : R) : R := if Req_EM_T p 1 then x else Rpower x p.

(** The k-th cepstral coefficient: the orthonormal cosine transform of the levels. *)
Definition cepstrum (p : R) (fs n : Z) (mag : Z -> R) (k : Z) : R :=
  dct2_unitary 40 (fun i => powered p (level10 (band fs n mag i))) k.
