(** What FFTReal is held to in IEEE doubles. *)
From Coq Require Import Reals ZArith List Bool.
From Verif.Base Require Import Imp RealOps Double.
From Verif.Fft Require Import FftSpec FftDouble FftDoubleSpec FftrDouble.
Import ListNotations.
Open Scope R_scope.

(** Modulus of bin k of the transform of real samples. *)
Definition dft_mod (n : Z) (x : Z -> R) (k : Z) : R :=
  sqrt (dft_re n x (fun _ => 0) k * dft_re n x (fun _ => 0) k + dft_im n x (fun _ => 0) k * dft_im n x (fun _ => 0) k).

(** Finite samples of magnitude at most B. *)
Definition real_bounded (n : Z) (B : R) (x : list double) : Prop :=
  (n <= zlen x)%Z /\ forall j, (0 <= j < n)%Z -> finite (zn d0 x j) /\ Rabs (dval (zn d0 x j)) <= B.
(** Finite bins 0 .. n/2 of modulus at most M. *)
Definition half_bounded (n : Z) (M : R) (ri ii : list double) : Prop :=
  (n / 2 < zlen ri)%Z /\ (n / 2 < zlen ii)%Z /\
  forall k, (0 <= k <= n / 2)%Z -> finite (zn d0 ri k) /\ finite (zn d0 ii k) /\
    dval (zn d0 ri k) * dval (zn d0 ri k) + dval (zn d0 ii k) * dval (zn d0 ii k) <= M * M.

(** An FFTReal object of size n in use: constructed (the scratch buffers hold anything), then any
    calls whose buffers are long enough. *)
Inductive real_in_use (dcos dsin : double -> double) (n : Z) : dfftreal -> Prop :=
| real_new j1 j2 jc o : zlen j1 = (n / 2)%Z -> zlen j2 = (n / 2)%Z -> zlen jc = n ->
    dfftreal_new dcos dsin n j1 j2 jc = OK o -> real_in_use dcos dsin n o
| real_forward o o' ri ro io ro' io' : real_in_use dcos dsin n o ->
    (n <= zlen ri)%Z -> (n <= zlen ro)%Z -> (n <= zlen io)%Z ->
    dfftreal_forward o ri ro io = OK (o', ro', io') -> real_in_use dcos dsin n o'
| real_magnitude o o' ri mo jio mo' : real_in_use dcos dsin n o ->
    (n <= zlen ri)%Z -> (n <= zlen mo)%Z -> zlen jio = n ->
    dfftreal_magnitude o ri mo jio = OK (o', mo') -> real_in_use dcos dsin n o'
| real_inverse o o' ri ii ro ro' : real_in_use dcos dsin n o ->
    (n / 2 < zlen ri)%Z -> (n / 2 < zlen ii)%Z -> (n <= zlen ro)%Z ->
    dfftreal_inverse o ri ii ro = OK (o', ro') -> real_in_use dcos dsin n o'.
