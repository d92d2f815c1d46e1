(** What DCT is held to in IEEE doubles. *)
From Coq Require Import Reals ZArith List Bool.
From Verif.Base Require Import Imp RealOps Double.
From Verif.Fft Require Import FftSpec FftDouble FftrDouble FftrDoubleSpec DctDouble.
Import ListNotations.
Open Scope R_scope.

(** The inverse of the unitary cosine transform: the transpose of dct2_unitary. *)
Definition idct2_orthonormal (n : Z) (y : Z -> R) (j : Z) : R :=
  rsum n (fun k => (if (k =? 0)%Z then sqrt (1 / IZR n) else sqrt (2 / IZR n)) * y k * cos (PI * IZR k * IZR (2 * j + 1) / IZR (2 * n))).

(** A DCT object of size n in use: constructed (the buffers of its FFTReal hold anything), then any
    calls, of which the inverse ones were given finite coefficients of magnitude at most M (those
    of the unitary one at most M / (2 sqrt n)). *)
Inductive dct_in_use (dcos dsin : double -> double) (n : Z) (M : R) : ddct -> Prop :=
| dct_in_new j1 j2 jc d : zlen j1 = (2 * n)%Z -> zlen j2 = (2 * n)%Z -> zlen jc = (4 * n)%Z ->
    ddct_new dcos dsin n j1 j2 jc = OK d -> dct_in_use dcos dsin n M d
| dct_in_forward d d' x out out' : dct_in_use dcos dsin n M d -> (n <= zlen x)%Z -> (n <= zlen out)%Z ->
    ddct_forward d x out = OK (d', out') -> dct_in_use dcos dsin n M d'
| dct_in_forward_unitary d d' x out out' : dct_in_use dcos dsin n M d -> (n <= zlen x)%Z -> (n <= zlen out)%Z ->
    ddct_forward_unitary d x out = OK (d', out') -> dct_in_use dcos dsin n M d'
| dct_in_inverse d d' y out out' : dct_in_use dcos dsin n M d -> real_bounded n M y -> (n <= zlen out)%Z ->
    ddct_inverse d y out = OK (d', out') -> dct_in_use dcos dsin n M d'
| dct_in_inverse_unitary d d' y out out' : dct_in_use dcos dsin n M d -> real_bounded n (M / (2 * sqrt (IZR n))) y -> (n <= zlen out)%Z ->
    ddct_inverse_unitary d y out = OK (d', out') -> dct_in_use dcos dsin n M d'.
