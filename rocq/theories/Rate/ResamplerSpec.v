(** Resampling as interpolation by a sampled kernel. *)
From Coq Require Import List ZArith Lia.
From Verif.Base Require Import Imp Sums.
Import ListNotations.
Open Scope Z_scope.

(** [c] is the ceiling of [a/b]. *)
Definition is_ceil (a b c : Z) : Prop := a <= c * b < a + b.

Section Spec.
  Context {T : Type} (zero : T) (add mul : T -> T -> T).

  (** Source and target rates reduced to lowest terms. *)
  Definition reduced_source (source target : Z) := source / Z.gcd source target.
  Definition reduced_target (source target : Z) := target / Z.gcd source target.

  (** [v] is the value at output time [j] (in output samples; input time j*source/target): the
      kernel [k], sampled at [target'] points per input sample and [source'] points per output
      sample, is laid with its middle element over that time, and v is scale times the sum, from
      the earliest, of x[m] * kernel over all input samples m under it.  x is 0 outside its
      range. *)
  Definition interpolated (source target : Z) (k : list T) (scale : T) (x : list T) (j : Z) (v : T) : Prop :=
    exists m0 cnt, 0 <= cnt /\
      let at_ m := zlen k / 2 + m * reduced_target source target - j * reduced_source source target in
      (forall m, m0 <= m < m0 + cnt <-> 0 <= at_ m < zlen k) /\
      v = mul scale (fsum zero add cnt (fun i => mul (zn zero x (m0 + i)) (zn zero k (at_ (m0 + i))))).

  (** The delay of the output stream: the first output sample for which the kernel lies wholly
      before the input is at output time -latency. *)
  Definition is_latency (source target : Z) (k : list T) (lat : Z) : Prop :=
    is_ceil (zlen k - zlen k / 2) (reduced_source source target) lat.

  (** Blocks with room for ceil(n*target/source) samples each. *)
  Definition room (source target : Z) (calls : list (list T * list T)) : Prop :=
    Forall (fun '(blk, out) => forall c, is_ceil (zlen blk * target) source c -> c <= zlen out) calls.
  Definition fed (calls : list (list T * list T)) : list T := concat (map fst calls).
  Definition written (outs : list (list T * Z)) : list T :=
    concat (map (fun '(o, k) => firstn (Z.to_nat k) o) outs).
  (** Each call reports 0..ceil(n*target/source) samples and changes nothing beyond them. *)
  Definition within (source target : Z) (calls : list (list T * list T)) (outs : list (list T * Z)) : Prop :=
    Forall2 (fun '(blk, out) '(o, k) =>
      0 <= k /\ (forall c, is_ceil (zlen blk * target) source c -> k <= c) /\
      zlen o = zlen out /\ forall i, k <= i -> zn zero o i = zn zero out i) calls outs.
End Spec.
