(** C121: the cosine distance in IEEE doubles. *)
From Coq Require Import Reals ZArith List.
From Flocq Require Import Core.
From Verif.Base Require Import Imp RealOps Double.
From Verif.Maths Require Import DoubleModel StatDoubleSpec.
From Verif.Measures Require Import CosDouble CosDoubleSpec CosDoubleProofs.
Import ListNotations.
Open Scope R_scope.

(** Vectors with a sum of squares from 2^-400 to 2^400: finite and within (2.1 n + 6) 2^-53. *)
Theorem C121_accurate_partial : forall (n : Z) (v w : list double), (1 <= n <= 2147483647)%Z -> zlen v = n -> zlen w = n ->
  all_finite n v -> all_finite n w ->
  bpow radix2 (-400) <= dot n v v <= bpow radix2 400 -> bpow radix2 (-400) <= dot n w w <= bpow radix2 400 ->
  exists d, dcosine v w = OK d /\ finite d /\ Rabs (dval d - exact_cosine n v w) <= (21 / 10 * IZR n + 6) * uro.
Proof. exact cosine_doubles. Qed.
Print Assumptions C121_accurate_partial.

(** From 0 to 2 up to that error. *)
Theorem C121_range_partial : forall (n : Z) (v w : list double), (1 <= n <= 2147483647)%Z -> zlen v = n -> zlen w = n ->
  all_finite n v -> all_finite n w ->
  bpow radix2 (-400) <= dot n v v <= bpow radix2 400 -> bpow radix2 (-400) <= dot n w w <= bpow radix2 400 ->
  exists d, dcosine v w = OK d /\ - ((21 / 10 * IZR n + 6) * uro) <= dval d <= 2 + (21 / 10 * IZR n + 6) * uro.
Proof. exact cosine_range. Qed.
Print Assumptions C121_range_partial.

(** Vectors of different sizes. *)
Theorem C121_sizes : forall v w : list double, zlen v <> zlen w -> exists d, dcosine v w = OK d /\ finite d /\ dval d = 1.
Proof. exact cosine_sizes. Qed.
Print Assumptions C121_sizes.

(** The distance can be negative: (1, 2) and (5/7, 10/7). *)
Theorem C121_negative_refuted : exists v w d, zlen v = zlen w /\ all_finite (zlen v) v /\ all_finite (zlen w) w /\
  dcosine v w = OK d /\ finite d /\ dval d < 0.
Proof. exact cosine_negative. Qed.
Print Assumptions C121_negative_refuted.

(** A vector has distance 1 from itself when the product of the squared norms overflows: (2^300). *)
Theorem C121_overflow_refuted : exists v d, all_finite (zlen v) v /\ dcosine v v = OK d /\ finite d /\ dval d = 1 /\ 1 <= dot (zlen v) v v.
Proof. exact cosine_overflow. Qed.
Print Assumptions C121_overflow_refuted.

(** (3, 4) and (4, -3). *)
Example C121_case : let v := [dint 3; dint 4] in let w := [dint 4; dint (-3)] in
  zlen v = 2%Z /\ zlen w = 2%Z /\ all_finite 2 v /\ all_finite 2 w /\ dot 2 v v = 25 /\ dot 2 w w = 25 /\ exact_cosine 2 v w = 1 /\
  bpow radix2 (-400) <= 25 <= bpow radix2 400.
Proof. exact cosine_case. Qed.
