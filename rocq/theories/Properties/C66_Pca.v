(** C66-C68: principal component analysis (maths/pca/pca.c). *)
From Coq Require Import List ZArith Reals Lia Lra.
From Flocq Require Import Core.
From Verif.Base Require Import Imp RealOps Matrix.
From Verif.Maths Require Import IntModel.
From Verif.Pca Require Import PcaModel PcaSpec PcaResults PcaCase.
From Verif.Seg Require Import SegModel SegSpec SegResults SegWhole SegPca.
Import ListNotations.
Open Scope Z_scope.

(** C66: pca_project exits for want of convergence or replaces the first columns by the coordinates of the centred
    rows along orthonormal axes that are eigenvectors of the scatter matrix, up to 62 m eps |S|; eps is the relative
    accuracy of the test of convergence.  Never an access out of bounds or 0/0. *)
Theorem C66_pca_components :
  forall junk negligible eps data n m w nc, rounding_test negligible eps ->
    0 <= n -> 0 < m <= w -> 0 <= nc <= m -> shape n w data ->
    pca_project junk negligible data n m nc = Throw \/
    exists data' z lambda, pca_project junk negligible data n m nc = OK data' /\
      principal data data' n m w nc z /\
      eigenbasis m (scatter n (ent 0%R data)) z lambda (62 * IZR m * eps * norm_F m m (scatter n (ent 0%R data))).
Proof. exact pca_components. Qed.
Print Assumptions C66_pca_components.
(** The test as computed in 53-bit arithmetic without underflow. *)
Theorem C66_double_test : rounding_test double_test (bpow radix2 (-52)).
Proof. exact double_test_ok. Qed.
Print Assumptions C66_double_test.
(** No columns: e[-1] is written. *)
Theorem C66_no_columns_undefined : forall junk negligible data n, 0 <= n -> pca_project junk negligible data n 0 0 = UB.
Proof. exact pca_empty. Qed.
Print Assumptions C66_no_columns_undefined.
Example C66_case : pca_project 0%R double_test [[2; 0]; [-2; 0]; [0; 1]; [0; -1]]%R 4 2 2 = OK [[0; 2]; [0; -2]; [1; 0]; [-1; 0]]%R.
Proof. exact (cross_pca _ _ _ double_test_ok). Qed.

(** segment() with this PCA: it exits, for constant-Q features only, or returns. *)
Theorem C66_segment_partial :
  forall junk junkZ rnd1 rnd2 sfmin negligible eps, rounding_test negligible eps ->
    (forall i, 0 <= rnd1 i <= 1)%R -> (forall i, 0 <= rnd2 i)%R ->
    forall o, settings_ok o -> features_sized o ->
    let result := segment junk junkZ rnd1 rnd2 sfmin (pca_project junk negligible) o in
    result = Throw /\ t_type o = ConstQ \/
    exists segs c, result = OK (segmented o (Segmentation (t_clusters o) (t_rate o) segs)) /\
      clustering (zlen (t_features o)) (t_states o) (t_hist o) (t_clusters o) (t_limit o) c /\
      is_segmentation (get_hopsize o) c 0 (zlen (t_features o)) segs.
Proof. exact segment_pca_ok. Qed.
Print Assumptions C66_segment_partial.

(** C67: the components have mean 0, are uncorrelated up to the error, and their scatter is the eigenvalue. *)
Theorem C67_uncorrelated :
  forall data data' n m w nc z lambda err, 0 < n -> 0 < m <= w -> 0 <= nc <= m ->
    principal data data' n m w nc z -> eigenbasis m (scatter n (ent 0%R data)) z lambda err ->
    let y := ent 0%R data' in
    (forall k, 0 <= k < nc -> rsum n (fun i => y i k) = 0%R) /\
    (forall k l, 0 <= k < nc -> 0 <= l < nc -> k <> l -> (Rabs (rsum n (fun i => y i k * y i l)) <= err)%R) /\
    (forall k, 0 <= k < nc -> (Rabs (rsum n (fun i => y i k * y i k) - lambda (m - 1 - k)%Z) <= err)%R).
Proof. exact pca_uncorrelated. Qed.
Print Assumptions C67_uncorrelated.
(** Squared distances of rows do not grow, and stay if all components are kept. *)
Theorem C67_distances :
  forall data data' n m w nc z, 0 < m <= w -> 0 <= nc <= m ->
    principal data data' n m w nc z -> orthonormal m z -> forall i i', 0 <= i < n -> 0 <= i' < n ->
    let dist := fun c x => rsum c (fun j => (x i j - x i' j) * (x i j - x i' j))%R in
    (dist nc (ent 0%R data') <= dist m (ent 0%R data))%R /\ (nc = m -> dist nc (ent 0%R data') = dist m (ent 0%R data)).
Proof. exact pca_distances. Qed.
Print Assumptions C67_distances.
Example C67_case : exists data' z lambda, pca_project 0%R double_test cross 4 2 2 = OK data' /\
  principal cross data' 4 2 2 2 z /\ eigenbasis 2 (scatter 4 (ent 0%R cross)) z lambda (62 * 2 * bpow radix2 (-52) * norm_F 2 2 (scatter 4 (ent 0%R cross))).
Proof.
  destruct (C66_pca_components 0%R double_test _ cross 4 2 2 2 C66_double_test) as [T|H]; try lia; [exact cross_shape| |exact H].
  rewrite (cross_pca _ _ _ C66_double_test) in T. discriminate.
Qed.

(** C68: the components are not in order of decreasing variance. *)
Theorem C68_order_refuted :
  forall junk negligible eps, rounding_test negligible eps ->
    exists data n m w y, shape n w data /\ 0 < m <= w /\ pca_project junk negligible data n m m = OK y /\
    (rsum n (fun i => ent 0 y i 0 * ent 0 y i 0) < rsum n (fun i => ent 0 y i 1 * ent 0 y i 1))%R.
Proof.
  intros junk negligible eps T. destruct (cross_order junk negligible eps T) as (y & E & V0 & V1).
  exists cross, 4, 2, 2, y. repeat split; try lia; try apply cross_shape; auto. rewrite V0, V1. lra.
Qed.
Print Assumptions C68_order_refuted.
