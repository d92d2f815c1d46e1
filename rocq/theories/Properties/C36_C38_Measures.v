(** C36-C38: autocorrelation, cosine distance and Kullback-Leibler divergences. *)
From Coq Require Import List ZArith Reals Lia Lra Bool.
From Verif.Base Require Import Imp RealOps Arith.
From Verif.Measures Require Import MeasModel MeasSpec MeasProofs.
Import ListNotations.
Open Scope Z_scope.

Theorem C36_autocorrelation_positive :
  forall src dst n, 0 <= n <= zlen src -> n <= zlen dst ->
    exists dst', doAutoUnBiased src dst n = OK dst' /\ zlen dst' = zlen dst /\
      (forall i, 0 <= i < n -> zn 0%R dst' i = if Rle_dec (autocorr n (zn 0%R src) i) 0 then EPS else autocorr n (zn 0%R src) i) /\
      (forall i, 0 <= i < n -> (0 < zn 0%R dst' i)%R /\ (autocorr n (zn 0%R src) i <= zn 0%R dst' i)%R) /\
      (forall i, n <= i -> zn 0%R dst' i = zn 0%R dst i).
Proof. exact autocorrelation_value. Qed.
Print Assumptions C36_autocorrelation_positive.

(** 1, -1: mean square 1, and a negative value at lag 1. *)
Example C36_case : autocorr 2 (zn 0%R [1; -1]%R) 0 = 1%R /\ autocorr 2 (zn 0%R [1; -1]%R) 1 = (-1)%R.
Proof.
  assert (X0 : zn 0%R [1; -1]%R 0 = 1%R) by reflexivity. assert (X1 : zn 0%R [1; -1]%R 1 = (-1)%R) by reflexivity.
  unfold autocorr. split.
  - change (2 - 0) with (0 + 1 + 1). rewrite !rsum_S, rsum_0 by lia. change (0 + 0) with 0. change (0 + 1 + 0) with 1. change (0 + 1) with 1.
    change (1 + 1) with 2. rewrite X0, X1. lra.
  - change (2 - 1) with (0 + 1). rewrite rsum_S, rsum_0 by lia. change (0 + 1) with 1. rewrite X0, X1. lra.
Qed.

Theorem C37_cosine_value :
  forall v w, zlen v = zlen w -> let n := zlen v in
    cosine_distance v w = OK (1 - dot n (zn 0%R v) (zn 0%R w) / (norm n (zn 0%R v) * norm n (zn 0%R w) + small))%R.
Proof. exact cosine_value. Qed.
Print Assumptions C37_cosine_value.

Theorem C37_cosine_range : forall v w, exists d, cosine_distance v w = OK d /\ (0 < d < 2)%R.
Proof. exact cosine_range. Qed.
Print Assumptions C37_cosine_range.

(** In any arithmetic with a commutative multiplication, so for doubles too. *)
Theorem C37_cosine_symmetric :
  forall (T : Type) (A : arith T) (fabs : T -> T) (small : T), (forall x y, a_mul A x y = a_mul A y x) ->
    forall v w, cosine A fabs small v w = cosine A fabs small w v.
Proof. intros T A fabs sm H v w. apply cosine_sym. exact H. Qed.
Print Assumptions C37_cosine_symmetric.

Theorem C37_cosine_mismatch :
  forall (T : Type) (A : arith T) (fabs : T -> T) (small : T) v w, length v <> length w -> cosine A fabs small v w = OK (a_of A 1).
Proof. intros T A fabs sm v w H. apply cosine_mismatch. exact H. Qed.
Print Assumptions C37_cosine_mismatch.

(** Same direction: what is left is the regularisation 1e-20, relative to the product of the norms. *)
Theorem C37_cosine_proportional :
  forall v w c, zlen v = zlen w -> (0 <= c)%R -> (forall i, 0 <= i < zlen v -> zn 0%R w i = (c * zn 0 v i)%R) ->
    let e := (c * dot (zlen v) (zn 0%R v) (zn 0%R v))%R in cosine_distance v w = OK (small / (e + small))%R.
Proof. exact cosine_proportional. Qed.
Print Assumptions C37_cosine_proportional.

Example C37_case : cosine_distance [1; 2]%R [2; 4]%R = OK (small / (10 + small))%R.
Proof.
  rewrite (cosine_proportional [1; 2]%R [2; 4]%R 2%R); try reflexivity; try lra.
  - f_equal. f_equal. f_equal. unfold dot. change (zlen [1; 2]%R) with (0 + 1 + 1). rewrite !rsum_S, rsum_0 by lia.
    change (0 + 1) with 1. change (zn 0%R [1; 2]%R 0) with 1%R. change (zn 0%R [1; 2]%R 1) with 2%R. lra.
  - intros i Hi. change (zlen [1; 2]%R) with 2 in Hi. assert (i = 0 \/ i = 1) as [->| ->] by lia; [change (2 = 2 * 1)%R|change (4 = 2 * 2)%R]; lra.
Qed.

(** Variances may be zero: they are regularised. *)
Theorem C38_gaussian_nonneg :
  forall m1 v1 m2 v2, zlen v1 = zlen m1 -> zlen m2 = zlen m1 -> zlen v2 = zlen m1 ->
    (forall k, 0 <= k < zlen m1 -> (0 <= zn 0 v1 k)%R) -> (forall k, 0 <= k < zlen m1 -> (0 <= zn 0 v2 k)%R) ->
    exists d, distanceGaussian m1 v1 m2 v2 = OK d /\ (0 <= d)%R.
Proof. exact gaussian_nonneg. Qed.
Print Assumptions C38_gaussian_nonneg.

Theorem C38_gaussian_is_divergence :
  forall m1 v1 m2 v2, zlen v1 = zlen m1 -> zlen m2 = zlen m1 -> zlen v2 = zlen m1 ->
    (forall k, 0 <= k < zlen m1 -> (0 <= zn 0 v1 k)%R) -> (forall k, 0 <= k < zlen m1 -> (0 <= zn 0 v2 k)%R) ->
    distanceGaussian m1 v1 m2 v2 = OK (rsum (zlen m1) (fun k =>
      kl_normal (zn 0 m1 k + small) (zn 0 v1 k + small) (zn 0 m2 k) (zn 0 v2 k + small) +
      kl_normal (zn 0 m2 k) (zn 0 v2 k + small) (zn 0 m1 k + small) (zn 0 v1 k + small)))%R.
Proof. exact gaussian_is_kl. Qed.
Print Assumptions C38_gaussian_is_divergence.

(** Symmetric and zero on identical arguments only up to the regularisation of the difference of the means. *)
Theorem C38_gaussian_symmetric_partial :
  forall m1 v1 m2 v2, zlen v1 = zlen m1 -> zlen m2 = zlen m1 -> zlen v2 = zlen m1 ->
    (forall k, 0 <= k < zlen m1 -> (0 <= zn 0 v1 k)%R) -> (forall k, 0 <= k < zlen m1 -> (0 <= zn 0 v2 k)%R) ->
    exists d e, distanceGaussian m1 v1 m2 v2 = OK d /\ distanceGaussian m2 v2 m1 v1 = OK e /\
      (d - e = rsum (zlen m1) (fun k => 2 * small * (zn 0 m1 k - zn 0 m2 k) * (1 / (zn 0 v1 k + small) + 1 / (zn 0 v2 k + small))))%R.
Proof. exact gaussian_sym_defect. Qed.
Print Assumptions C38_gaussian_symmetric_partial.

Theorem C38_gaussian_identical_partial :
  forall m v, zlen v = zlen m -> (forall k, 0 <= k < zlen m -> (0 <= zn 0 v k)%R) ->
    distanceGaussian m v m v = OK (rsum (zlen m) (fun k => small * small / (zn 0 v k + small)))%R.
Proof. exact gaussian_self. Qed.
Print Assumptions C38_gaussian_identical_partial.

Theorem C38_gaussian_symmetric_refuted :
  exists m1 v1 m2 v2 d e, distanceGaussian m1 v1 m2 v2 = OK d /\ distanceGaussian m2 v2 m1 v1 = OK e /\
    zlen m1 = 1 /\ zlen v1 = 1 /\ zlen m2 = 1 /\ zlen v2 = 1 /\ (0 < zn 0 v1 0)%R /\ (0 < zn 0 v2 0)%R /\ d <> e.
Proof. exact gaussian_not_symmetric. Qed.
Print Assumptions C38_gaussian_symmetric_refuted.

Theorem C38_gaussian_identical_refuted :
  exists m v d, distanceGaussian m v m v = OK d /\ zlen m = 1 /\ zlen v = 1 /\ (0 < zn 0 v 0)%R /\ d <> 0%R.
Proof. exact gaussian_not_zero. Qed.
Print Assumptions C38_gaussian_identical_refuted.

(** In any arithmetic with a commutative addition. *)
Theorem C38_distribution_symmetric :
  forall (T : Type) (A : arith T) (log10 : T -> T) (small : T), (forall x y, a_add A x y = a_add A y x) ->
    forall p q, dist_gen A log10 small p q true = dist_gen A log10 small q p true.
Proof. intros T A lg sm H p q. apply dist_sym. exact H. Qed.
Print Assumptions C38_distribution_symmetric.

(** Nonnegative, and zero for equal arguments only. *)
Theorem C38_distribution_symmetrised_nonneg :
  forall p q, zlen q = zlen p ->
    (forall i, 0 <= i < zlen p -> (0 <= zn 0 p i)%R) -> (forall i, 0 <= i < zlen p -> (0 <= zn 0 q i)%R) ->
    exists d, distanceDistribution p q true = OK d /\ (0 <= d)%R /\
      (d = 0%R <-> forall i, 0 <= i < zlen p -> zn 0%R p i = zn 0%R q i).
Proof. exact dist_symmetrised_nonneg. Qed.
Print Assumptions C38_distribution_symmetrised_nonneg.

Theorem C38_distribution_nonneg_partial :
  forall p q, zlen q = zlen p ->
    (forall i, 0 <= i < zlen p -> (0 <= zn 0 p i)%R) -> (forall i, 0 <= i < zlen p -> (0 <= zn 0 q i)%R) ->
    rsum (zlen p) (zn 0%R p) = rsum (zlen p) (zn 0%R q) ->
    exists d, distanceDistribution p q false = OK d /\ (- (IZR (zlen p) * small / ln 10) <= d)%R.
Proof. exact dist_lower. Qed.
Print Assumptions C38_distribution_nonneg_partial.

(** Both hypotheses are met by, for example, (1/2, 1/2) and (1, 0). *)
Example C38_case : exists d, distanceDistribution [/2; /2]%R [1; 0]%R true = OK d /\ (0 < d)%R.
Proof.
  destruct (dist_symmetrised_nonneg [/2; /2]%R [1; 0]%R) as (d & E & N & Z0); try reflexivity.
  - intros i Hi. change (zlen [/2; /2]%R) with 2 in Hi. assert (i = 0 \/ i = 1) as [->| ->] by lia; change (0 <= /2)%R; lra.
  - intros i Hi. change (zlen [/2; /2]%R) with 2 in Hi. assert (i = 0 \/ i = 1) as [->| ->] by lia; [change (0 <= 1)%R|change (0 <= 0)%R]; lra.
  - exists d. split; [exact E|]. destruct N as [N|N]; [exact N|]. exfalso. symmetry in N.
    pose proof (proj1 Z0 N 0 ltac:(change (zlen [/2; /2]%R) with 2; lia)) as Q. change (/2 = 1)%R in Q. lra.
Qed.
