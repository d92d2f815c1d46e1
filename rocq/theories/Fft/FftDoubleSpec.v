(** What the transforms are held to in IEEE doubles. *)
From Coq Require Import Reals ZArith List Bool Znumtheory.
From Verif.Base Require Import Imp RealOps Double.
From Verif.Fft Require Import FftGen FftDouble.
Import ListNotations.
Open Scope R_scope.

(** What is asked of the C library: cos and sin are within 2^-52 for arguments up to 7. *)
Definition accurate (f : double -> double) (g : R -> R) : Prop :=
  forall x, finite x -> Rabs (dval x) <= 7 -> finite (f x) /\ Rabs (dval (f x) - g (dval x)) <= 2 * uro.

(** [ps] is the factorisation of [n] into primes. *)
Definition prime_factors (n : Z) (ps : list Z) : Prop := Forall prime ps /\ fold_right Z.mul 1%Z ps = n.
(** One more than the sum of the prime factors: 2 log2 n + 1 for a power of 2. *)
Definition weight (ps : list Z) : R := IZR (1 + fold_right Z.add 0%Z ps).

(** The samples: [ii = None] is a null pointer. *)
Definition re_in (ri : list double) (j : Z) : double := zn d0 ri j.
Definition im_in (ii : option (list double)) (j : Z) : double := match ii with Some l => zn d0 l j | None => d0 end.
(** Finite samples of modulus at most M. *)
Definition bounded (n : Z) (M : R) (ri : list double) (ii : option (list double)) : Prop :=
  (n <= zlen ri)%Z /\ (forall l, ii = Some l -> (n <= zlen l)%Z) /\
  forall j, (0 <= j < n)%Z -> finite (re_in ri j) /\ finite (im_in ii j) /\
    dval (re_in ri j) * dval (re_in ri j) + dval (im_in ii j) * dval (im_in ii j) <= M * M.

(** [out] has n finite values within [e] of [exact], followed by what [old] had there. *)
Definition within (n : Z) (e : R) (exact : Z -> R) (old out : list double) : Prop :=
  zlen out = zlen old /\
  (forall k, (0 <= k < n)%Z -> finite (zn d0 out k) /\ Rabs (dval (zn d0 out k) - exact k) <= e) /\
  (forall k, (n <= k < zlen old)%Z -> zn d0 out k = zn d0 old k).

(** An FFT object of size n in use: constructed (the scratch buffers hold anything), then any
    calls whose buffers are long enough. *)
Inductive in_use (dcos dsin : double -> double) (n : Z) : @gfft double -> Prop :=
| in_use_new ji jo o : zlen ji = n -> zlen jo = n -> dfft_new dcos dsin n ji jo = OK o -> in_use dcos dsin n o
| in_use_call o o' inv ri ii ro io ro' io' : in_use dcos dsin n o ->
    (n <= zlen ri)%Z -> (forall l, ii = Some l -> (n <= zlen l)%Z) -> (n <= zlen ro)%Z -> (n <= zlen io)%Z ->
    dfft_process o inv ri ii ro io = OK (o', ro', io') -> in_use dcos dsin n o'.
