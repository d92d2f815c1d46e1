(** What the decomposition filters of a wavelet are for. *)
From Coq Require Import List ZArith Reals Bool.
From Verif.Base Require Import Imp RealOps.
Import ListNotations.
Open Scope R_scope.

(** Filtering a signal and keeping every other sample. *)
Definition analysed (c : list R) (x : Z -> R) (k : Z) : R := rsum (zlen c) (fun i => zn 0 c i * x (2 * k - i)%Z).
(** Filtering a half-rate signal, with zeros put between its samples. *)
Definition synthesised (g : list R) (u : Z -> R) (t : Z) : R :=
  rsum (zlen g) (fun j => if Z.even (t - j) then zn 0 g j * u ((t - j) / 2)%Z else 0).

(** Two filters of the same length recover every signal from its two half-rate parts, one filter length less one
    later, with an error of at most [eps] times its largest value. *)
Definition recovers (eps : R) (l h : list R) : Prop :=
  exists g0 g1, zlen g0 = zlen l /\ zlen g1 = zlen h /\
    forall x B, (forall t, Rabs (x t) <= B) -> forall t,
      Rabs (synthesised g0 (analysed l x) t + synthesised g1 (analysed h x) t - x (t - (zlen l - 1))%Z) <= eps * B.

(** The two parts of a signal of L samples together have its energy, up to a fraction [eps]. *)
Definition keeps_energy (eps : R) (l h : list R) : Prop :=
  forall (x : Z -> R) L M, (0 <= L)%Z -> (L + zlen l <= 2 * M)%Z -> (forall t, (t < 0)%Z \/ (L <= t)%Z -> x t = 0) ->
    Rabs (rsum M (fun k => analysed l x k * analysed l x k) + rsum M (fun k => analysed h x k * analysed h x k) -
          rsum L (fun t => x t * x t)) <= eps * rsum L (fun t => x t * x t).

(** The half-rate part of the high-pass filter is small wherever the signal is a polynomial of degree less than
    [order]: a_0 + a_1 u + ..., u being the time back from the newest sample in filter lengths. *)
Definition polynomial (order : Z) (a : Z -> R) (u : R) : R := rsum order (fun m => a m * u ^ Z.to_nat m).
Definition blocks_polynomials (eps : R) (order : Z) (h : list R) : Prop :=
  forall a x k, (forall i, (0 <= i < zlen h)%Z -> x (2 * k - i)%Z = polynomial order a (IZR i / IZR (zlen h))) ->
    Rabs (analysed h x k) <= eps * rsum order (fun m => Rabs (a m)).

(** A constant signal comes out of the low-pass filter times the square root of two. *)
Definition unit_gain (eps : R) (l : list R) : Prop :=
  forall c k, Rabs (analysed l (fun _ => c) k - sqrt 2 * c) <= eps * Rabs c.
