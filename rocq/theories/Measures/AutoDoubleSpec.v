(** Autocorrelation of the values of doubles, up to an error. *)
From Coq Require Import ZArith Reals List.
From Flocq Require Import Core.
From Verif.Base Require Import Imp RealOps Double.
Open Scope R_scope.

(** The mean of the products of values i apart. *)
Definition lagged (n : Z) (x : list double) (i : Z) : R :=
  rsum (n - i) (fun k => dval (zn d0 x k) * dval (zn d0 x (k + i))) / IZR (n - i).
(** [v] stands for [c]: positive and within [e] of it, or the constant 2.2204e-16 (to 2^-105) when [c] is at most [e]. *)
Definition floored_within (e c v : R) : Prop :=
  0 < v /\ Rabs (v - c) <= e \/ Rabs (v - 22204 / 100000000000000000000) <= bpow radix2 (-105) /\ c <= e.
