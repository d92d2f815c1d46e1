(** C14, C17 and C45-C49: MathUtilities (maths/MathUtilities.cpp) over the reals. *)
From Coq Require Import List ZArith Reals Lia Lra Bool.
From Verif.Base Require Import Imp RealOps.
From Verif.Maths Require Import MedianSpec RealModel RealSpec RealProofs.
Import ListNotations.
Open Scope Z_scope.

(** C14: princarg keeps the angle and lands in (-pi, pi]; it is the only such value. *)
Theorem C14_princarg_partial :
  forall x, same_angle (princarg x) x /\ (- PI < princarg x <= PI)%R.
Proof. exact princarg_spec. Qed.
Print Assumptions C14_princarg_partial.

Theorem C14_princarg_unique :
  forall x y, same_angle y x -> (- PI < y <= PI)%R -> princarg x = y.
Proof. exact princarg_unique. Qed.
Print Assumptions C14_princarg_unique.

(** The documented interval (MathUtilities.h: "[-pi,pi)") is wrong at one point per turn. *)
Theorem C14_princarg_interval_refuted : exists x, ~ (- PI <= princarg x < PI)%R.
Proof. exists PI. rewrite princarg_pi. lra. Qed.
Print Assumptions C14_princarg_interval_refuted.

Example C14_case : princarg (3 * PI / 2) = (- (PI / 2))%R.
Proof.
  apply C14_princarg_unique; [exists (-1); lra|]. pose proof PI_RGT_0. lra.
Qed.

(** C17: normalise. *)
Theorem C17_normalise_sum :
  forall d n, 0 <= n <= zlen d ->
  exists d', normalise d n NormaliseUnitSum = OK d' /\
    (rsum n (Rn d) = 0%R -> d' = d) /\
    (rsum n (Rn d) <> 0%R -> rsum n (Rn d') = 1%R /\ divided_by n (rsum n (Rn d)) d d').
Proof. exact normalise_sum. Qed.
Print Assumptions C17_normalise_sum.

Theorem C17_normalise_max :
  forall d n, 0 <= n <= zlen d ->
  exists d', normalise d n NormaliseUnitMax = OK d' /\
    ((forall i, 0 <= i < n -> Rn d i = 0%R) -> d' = d) /\
    ((exists i, 0 <= i < n /\ Rn d i <> 0%R) ->
      is_max n (fun i => Rabs (Rn d' i)) 1%R /\
      exists m, (0 < m)%R /\ is_max n (fun i => Rabs (Rn d i)) m /\ divided_by n m d d').
Proof. exact normalise_max. Qed.
Print Assumptions C17_normalise_max.

Theorem C17_normalise_none : forall d n, normalise d n NormaliseNone = OK d.
Proof. reflexivity. Qed.
Print Assumptions C17_normalise_none.
Theorem C17_normalise_overloads_agree : forall d t, normalise_vec d t = normalise d (zlen d) t.
Proof. exact normalise_vec_same. Qed.
Print Assumptions C17_normalise_overloads_agree.

Example C17_case : 0 <= 2 <= zlen [2; -6; 9]%R /\ rsum 2 (Rn [2; -6; 9]%R) <> 0%R.
Proof. split; [vm_compute; split; discriminate|]. change 2 with (0 + 1 + 1). rewrite !rsum_S, rsum_0 by lia. unfold zn. simpl. lra. Qed.

(** C46: getMax returns the first position of the largest value, and that value. *)
Theorem C46_getMax_first_maximum :
  forall d n, 1 <= n <= zlen d ->
  exists ix, getMax d n = OK (ix, Rn d ix) /\ 0 <= ix < n /\
    (forall i, 0 <= i < n -> (Rn d i <= Rn d ix)%R) /\
    (forall i, 0 <= i < ix -> (Rn d i < Rn d ix)%R).
Proof. exact getMax_spec. Qed.
Print Assumptions C46_getMax_first_maximum.

Theorem C46_getFrameMinMax :
  forall d n, 1 <= n <= zlen d ->
  exists mn mx, getFrameMinMax d n = OK (mn, mx) /\ is_min n (Rn d) mn /\ is_max n (Rn d) mx.
Proof. exact minmax_spec. Qed.
Print Assumptions C46_getFrameMinMax.

(** An empty frame: getFrameMinMax gives 0, 0; getMax reads past the end. *)
Theorem C46_empty : getFrameMinMax [] 0 = OK (0%R, 0%R) /\ getMax [] 0 = UB.
Proof. split; reflexivity. Qed.
Print Assumptions C46_empty.

Example C46_case : 1 <= 3 <= zlen [2; 5; 5]%R.
Proof. vm_compute. split; discriminate. Qed.

(** C47: median is the mean of the two middle order statistics (equal ones for odd lengths). *)
Theorem C47_median :
  forall src len, 1 <= len <= zlen src ->
  exists u v, is_kth Rltb (len / 2) (firstn (Z.to_nat len) src) u /\
    is_kth Rltb ((len - 1) / 2) (firstn (Z.to_nat len) src) v /\
    median_ src len = OK ((u + v) / 2)%R.
Proof. exact median_spec. Qed.
Print Assumptions C47_median.

Example C47_case : 1 <= 4 <= zlen [3; 1; 2; 7]%R.
Proof. vm_compute. split; discriminate. Qed.

(** C48: adaptiveThreshold subtracts from every value the mean of the values from 8 before to
    7 after it (as far as they exist) and clips at 0. *)
Theorem C48_adaptiveThreshold :
  forall d, exists d', adaptiveThreshold d = OK d' /\ zlen d' = zlen d /\
    forall i, 0 <= i < zlen d -> Rn d' i = Rmax 0 (Rn d i - local_mean d i).
Proof. exact adaptiveThreshold_spec. Qed.
Print Assumptions C48_adaptiveThreshold.

(** C49: round gives a nearest integer, halfway cases away from zero. *)
Theorem C49_round :
  forall x, exists n, round_ x = IZR n /\ (Rabs (x - IZR n) <= / 2)%R /\
    (Rabs (x - IZR n) = / 2 -> Rabs (IZR n) = Rabs x + / 2)%R.
Proof. exact round_spec. Qed.
Print Assumptions C49_round.

Theorem C45_factorial : forall n, factorial_ (Z.of_nat n) = OK (INR (fact n)).
Proof. exact factorial_spec. Qed.
Print Assumptions C45_factorial.
