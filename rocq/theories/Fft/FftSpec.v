(** What the transforms are specified to return, over exact reals. *)
From Coq Require Import Reals ZArith List Bool.
From Verif.Base Require Import Imp RealOps.
Open Scope R_scope.

(** Angle 2 pi j k / n. *)
Definition angle (n j k : Z) : R := 2 * PI * IZR j * IZR k / IZR n.

(** Real and imaginary part of X[k] = sum over j < n of (xr[j] + i xi[j]) exp(-2 pi i j k / n). *)
Definition dft_re (n : Z) (xr xi : Z -> R) (k : Z) : R :=
  rsum n (fun j => xr j * cos (angle n j k) + xi j * sin (angle n j k)).
Definition dft_im (n : Z) (xr xi : Z -> R) (k : Z) : R :=
  rsum n (fun j => xi j * cos (angle n j k) - xr j * sin (angle n j k)).

(** The same with exp(+2 pi i j k / n) and scaled by 1/n. *)
Definition idft_re (n : Z) (xr xi : Z -> R) (k : Z) : R :=
  rsum n (fun j => xr j * cos (angle n j k) - xi j * sin (angle n j k)) / IZR n.
Definition idft_im (n : Z) (xr xi : Z -> R) (k : Z) : R :=
  rsum n (fun j => xi j * cos (angle n j k) + xr j * sin (angle n j k)) / IZR n.

(** Type II cosine transform and its inverse (type III, scaled). *)
Definition dct2 (n : Z) (x : Z -> R) (k : Z) : R :=
  2 * rsum n (fun j => x j * cos (PI * IZR k * IZR (2 * j + 1) / IZR (2 * n))).
Definition idct2 (n : Z) (y : Z -> R) (j : Z) : R :=
  (y 0%Z / 2 + rsum (n - 1) (fun i => y (i + 1)%Z * cos (PI * IZR (i + 1) * IZR (2 * j + 1) / IZR (2 * n)))) / IZR n.

(** The unitary (orthonormal) version. *)
Definition dct2_unitary (n : Z) (x : Z -> R) (k : Z) : R :=
  (if (k =? 0)%Z then sqrt (1 / IZR n) else sqrt (2 / IZR n)) *
  rsum n (fun j => x j * cos (PI * IZR k * IZR (2 * j + 1) / IZR (2 * n))).

(** The spectrum of a real signal of even size n which the bins 0 .. n/2 stand for. *)
Definition herm_re (n : Z) (fr : Z -> R) (k : Z) : R := if (k <=? n / 2)%Z then fr k else fr (n - k)%Z.
Definition herm_im (n : Z) (fi : Z -> R) (k : Z) : R :=
  if (k =? 0)%Z || (k =? n / 2)%Z then 0 else if (k <? n / 2)%Z then fi k else - fi (n - k)%Z.
