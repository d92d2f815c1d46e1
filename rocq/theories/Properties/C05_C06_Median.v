(** C05, C06: MedianFilter (maths/MedianFilter.h). *)
From Coq Require Import List ZArith Lia Bool.
From Coq.Floats Require Import SpecFloat.
From Verif.Base Require Import Imp Ieee.
From Verif.Maths Require Import MedianModel MedianSpec MedianProofs.
Import ListNotations.
Open Scope Z_scope.

(** C05: after any history of push / reset / setPercentile, get() and getAt() return exactly
    the requested order statistic of the last [size] values; no undefined behaviour, and the
    "unexpected value" warning is never printed. *)
Theorem C05_median_percentile :
  forall (T : Type) (zero : T) ltb neq, ordered zero ltb neq ->
  forall (junk : T) size raw ops, 1 <= size ->
    exists m, (m0 <- median_new zero junk size raw ;; median_ops zero ltb neq m0 ops) = OK (m, false) /\
      (exists v, median_get m = OK v /\
        is_kth ltb (limited size (current_raw raw ops))
          (last_values zero size (since_reset zero neq ops)) v) /\
      (forall r, exists v, median_getAt m r = OK v /\
        is_kth ltb (limited size r) (last_values zero size (since_reset zero neq ops)) v).
Proof. exact @median_percentile. Qed.
Print Assumptions C05_median_percentile.

(** The same for IEEE-754 data, including NaNs, infinities and signed zeros. *)
Theorem C05_median_percentile_double :
  forall (junk : spec_float) size raw ops, 1 <= size ->
    exists m, (m0 <- median_new ieee_zero junk size raw ;; median_ops ieee_zero SFltb ieee_neq m0 ops)
              = OK (m, false) /\
      (exists v, median_get m = OK v /\
        is_kth SFltb (limited size (current_raw raw ops))
          (last_values ieee_zero size (since_reset ieee_zero ieee_neq ops)) v) /\
      (forall r, exists v, median_getAt m r = OK v /\
        is_kth SFltb (limited size r) (last_values ieee_zero size (since_reset ieee_zero ieee_neq ops)) v).
Proof. exact (median_percentile ieee_zero SFltb ieee_neq ieee_ordered). Qed.
Print Assumptions C05_median_percentile_double.

(** C06: the static filter() returns a list of the same length whose k-th value is the median
    of the window of [size] inputs centred on k, with zeros outside; any length of input. *)
Theorem C06_median_filter_centred :
  forall (T : Type) (zero : T) ltb neq, ordered zero ltb neq ->
  forall (junk : T) size inp, 1 <= size ->
    exists out, median_filter zero ltb neq junk size inp = OK out /\ zlen out = zlen inp /\
      forall k, 0 <= k < zlen inp ->
        is_kth ltb (size / 2) (centred_window zero neq size inp k) (zn zero out k).
Proof. exact @median_filter_centred. Qed.
Print Assumptions C06_median_filter_centred.

Theorem C06_median_filter_centred_double :
  forall (junk : spec_float) size inp, 1 <= size ->
    exists out, median_filter ieee_zero SFltb ieee_neq junk size inp = OK out /\ zlen out = zlen inp /\
      forall k, 0 <= k < zlen inp ->
        is_kth SFltb (size / 2) (centred_window ieee_zero ieee_neq size inp k) (zn ieee_zero out k).
Proof. exact (median_filter_centred ieee_zero SFltb ieee_neq ieee_ordered). Qed.
Print Assumptions C06_median_filter_centred_double.

(** Concrete cases (integers, [x != y] being [negb (x =? y)]). *)
Definition zneq (x y : Z) : bool := negb (x =? y).
Example C05_hypothesis : ordered 0 Z.ltb zneq.
Proof.
  constructor; unfold zneq; intros.
  - reflexivity.
  - apply Z.ltb_irrefl.
  - apply Z.ltb_lt in H1. apply Z.ltb_ge. lia.
  - rewrite !Z.ltb_lt in *. lia.
  - destruct (Z.eqb_spec x y), (Z.ltb_spec x y), (Z.ltb_spec y x); auto; lia.
Qed.
Example C05_case :
  (m0 <- median_new 0 77 3 1 ;;
   '(m, w) <- median_ops 0 Z.ltb zneq m0 [MPush 5; MPush 9; MReset; MPush 4; MPush (-2); MPush 4; MPush 8] ;;
   v <- median_get m ;; lo <- median_getAt m (-7) ;; hi <- median_getAt m 3 ;; OK (w, v, lo, hi))
  = OK (false, 4, -2, 8).
Proof. reflexivity. Qed.
Example C06_case : median_filter 0 Z.ltb zneq 77 5 [1; 9; 3; 7; 5; 2; 8] = OK [1; 3; 5; 5; 5; 5; 2].
Proof. reflexivity. Qed.
Example C06_case_short : median_filter 0 Z.ltb zneq 77 7 [6; -4] = OK [0; 0].
Proof. reflexivity. Qed.
