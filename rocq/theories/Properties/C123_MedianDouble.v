(** C123: the median in IEEE doubles. *)
From Coq Require Import Reals ZArith List.
From Coq Require Import SpecFloat.
From Flocq Require Import Core.
From Flocq.IEEE754 Require Import BinarySingleNaN.
From Verif.Base Require Import Imp RealOps Double.
From Verif.Maths Require Import DoubleModel StatDoubleSpec MedianSpec MedDouble MedDoubleSpec MedDoubleProofs.
Import ListNotations.
Open Scope R_scope.

(** An odd number of values, or values up to 2^999: between the two middle values, and within 2^-53 of
    their mean (plus 2^-1075). *)
Theorem C123_median_partial : forall sort, sorts sort -> forall (len : Z) (src : list double), (1 <= len)%Z -> all_finite len src ->
  (Z.odd len = true \/ forall j, (0 <= j < len)%Z -> Rabs (dval (zn d0 src j)) <= bpow radix2 999) ->
  exists d u v, dmedian sort src len = OK d /\ finite d /\
    is_kth Rltb (len / 2) (map dval (firstn (Z.to_nat len) src)) u /\ is_kth Rltb ((len - 1) / 2) (map dval (firstn (Z.to_nat len) src)) v /\
    v <= dval d <= u /\ Rabs (dval d - (u + v) / 2) <= uro * Rabs ((u + v) / 2) + bpow radix2 (-1075).
Proof. exact median_doubles. Qed.
Print Assumptions C123_median_partial.

(** An odd number of values: exactly the middle one. *)
Theorem C123_odd : forall sort, sorts sort -> forall (len : Z) (src : list double), (1 <= len)%Z -> Z.odd len = true -> all_finite len src ->
  exists d, dmedian sort src len = OK d /\ finite d /\ is_kth Rltb (len / 2) (map dval (firstn (Z.to_nat len) src)) (dval d).
Proof. exact median_odd. Qed.
Print Assumptions C123_odd.

(** The median of two finite values need not be finite: 2^1023 twice. *)
Theorem C123_overflow_refuted : forall sort, sorts sort -> exists (src : list double) d, all_finite 2 src /\ dmedian sort src 2 = OK d /\ ~ finite d.
Proof. exact median_overflow. Qed.
Print Assumptions C123_overflow_refuted.

(** Insertion sort is such a sort; the median of 3, 1, 2, 7 is 2.5. *)
Example C123_sorts : sorts disort.
Proof. exact disort_sorts. Qed.
Example C123_case : match dmedian disort [dint 3; dint 1; dint 2; dint 7] 4 with OK d => B2SF d | _ => S754_nan end = S754_finite false 5629499534213120 (-51).
Proof. vm_compute. reflexivity. Qed.
