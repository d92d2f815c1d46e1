From Coq Require Import Reals ZArith List Bool Lia Lra.
From Verif.Base Require Import Imp RealOps Arith.
From Verif.Maths Require Import RealSpec.
From Verif.Measures Require Import MeasModel MeasSpec.
From Verif.Rhythm Require Import BeatSpecModel BeatSpecSpec BeatSpecProofs BeatSpecAny.
Import ListNotations.
Open Scope Z_scope.

(** C84: any arithmetic, so doubles too; frames of any lengths. *)
Theorem C84_length :
  forall (T : Type) (A : arith T) (fabs : T -> T) (small : T) m,
    exists v, beat_spectrum A fabs small m = OK v /\ zlen v = zlen m / 2.
Proof. exact @spectrum_safe. Qed.
Print Assumptions C84_length.

Theorem C84_values :
  forall m, let n := zlen m / 2 in
  exists v, BeatSpectrum_process m = OK v /\ zlen v = n /\
    (1 <= n -> is_max n (zn 0%R v) 1 /\
     exists c, (0 < c)%R /\ forall k, 0 <= k < n -> (0 < zn 0 v k)%R /\ (c * zn 0 v k)%R = lag_dist m n (k + 1)).
Proof. exact spectrum_value. Qed.
Print Assumptions C84_values.

Theorem C84_periodic :
  forall m p v, BeatSpectrum_process m = OK v -> 1 <= p -> periodic p m ->
    forall k, 0 <= k -> k + p < zlen m / 2 -> zn 0%R v (k + p) = zn 0%R v k.
Proof. exact spectrum_periodic. Qed.
Print Assumptions C84_periodic.

(** In any arithmetic, so in doubles too, where the values repeat bit for bit. *)
Theorem C84_periodic_any :
  forall (T : Type) (A : arith T) (fabs : T -> T) (small : T) m p v, beat_spectrum A fabs small m = OK v -> 1 <= p ->
    (forall i, 0 <= i -> i + p < zlen m -> zn [] m (i + p) = zn [] m i) ->
    forall d k, 0 <= k -> k + p < zlen m / 2 -> zn d v (k + p) = zn d v k.
Proof. exact @spectrum_periodic_any. Qed.
Print Assumptions C84_periodic_any.

Theorem C84_lowest_at_period :
  forall m p v l e, BeatSpectrum_process m = OK v -> 1 <= p <= zlen m / 2 -> periodic p m ->
    (forall i, 0 <= i < zlen m -> zlen (zn [] m i) = l /\ norm l (zn 0%R (zn [] m i)) = e) ->
    forall k, 0 <= k < zlen m / 2 -> (zn 0 v (p - 1) <= zn 0 v k)%R.
Proof. exact spectrum_lowest_at_period. Qed.
Print Assumptions C84_lowest_at_period.

Example C84_case :
  periodic 2 [[1]; [-1]; [1]; [-1]]%R /\
  forall i, 0 <= i < 4 -> zlen (zn [] [[1]; [-1]; [1]; [-1]]%R i) = 1 /\ norm 1 (zn 0%R (zn [] [[1]; [-1]; [1]; [-1]]%R i)) = 1%R.
Proof.
  split.
  - intros i Hi Hl. change (zlen [[1]; [-1]; [1]; [-1]]%R) with 4 in Hl. assert (i = 0 \/ i = 1) as [->| ->] by lia; reflexivity.
  - assert (H : forall x, (x * x = 1)%R -> norm 1 (zn 0%R [x]) = 1%R).
    { intros x Hx. unfold norm, dot. change 1 with (0 + 1). rewrite rsum_S, rsum_0 by lia. change (zn 0%R [x] 0) with x.
      rewrite Hx. replace (0 + 1)%R with 1%R by lra. apply sqrt_1. }
    intros i Hi. assert (i = 0 \/ i = 1 \/ i = 2 \/ i = 3) as [->|[->|[->| ->]]] by lia; (split; [reflexivity|]); apply H; lra.
Qed.
