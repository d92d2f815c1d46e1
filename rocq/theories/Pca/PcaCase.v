(** Four points on the axes: the scatter matrix is diag(8, 2). *)
From Coq Require Import List ZArith Reals Lia Lra Bool.
From Verif.Base Require Import Imp Sums RealOps Loops Matrix Tables.
From Verif.Pca Require Import PcaModel PcaSpec PcaMath PcaTred2 PcaProofs PcaResults.
Import ListNotations.
Open Scope Z_scope.

Definition cross : list (list R) := [[2; 0]; [-2; 0]; [0; 1]; [0; -1]]%R.
Lemma cross_shape : shape 4 2 cross.
Proof. split; [reflexivity|]. intros i Hi. assert (i = 0 \/ i = 1 \/ i = 2 \/ i = 3) as [->|[->|[->| ->]]] by lia; reflexivity. Qed.

Lemma c00 : ent 0%R cross 0 0 = (2)%R. Proof. reflexivity. Qed.
Lemma c01 : ent 0%R cross 0 1 = (0)%R. Proof. reflexivity. Qed.
Lemma c10 : ent 0%R cross 1 0 = (-2)%R. Proof. reflexivity. Qed.
Lemma c11 : ent 0%R cross 1 1 = (0)%R. Proof. reflexivity. Qed.
Lemma c20 : ent 0%R cross 2 0 = (0)%R. Proof. reflexivity. Qed.
Lemma c21 : ent 0%R cross 2 1 = (1)%R. Proof. reflexivity. Qed.
Lemma c30 : ent 0%R cross 3 0 = (0)%R. Proof. reflexivity. Qed.
Lemma c31 : ent 0%R cross 3 1 = (-1)%R. Proof. reflexivity. Qed.
Ltac ents := rewrite ?c00, ?c01, ?c10, ?c11, ?c20, ?c21, ?c30, ?c31.

Lemma rsum4 f : rsum 4 f = (f 0%Z + f 1%Z + f 2%Z + f 3%Z)%R.
Proof. change 4 with (0 + 1 + 1 + 1 + 1). rewrite !rsum_S, rsum_0 by lia. cbn [Z.add Pos.add Pos.succ]. ring. Qed.
Lemma rsum2 f : rsum 2 f = (f 0%Z + f 1%Z)%R.
Proof. change 2 with (0 + 1 + 1). rewrite !rsum_S, rsum_0 by lia. cbn [Z.add Pos.add Pos.succ]. ring. Qed.

Lemma cross_centred i j : 0 <= i < 4 -> 0 <= j < 2 -> centred 4 (ent 0%R cross) i j = ent 0%R cross i j.
Proof.
  intros Hi Hj. unfold centred, column_mean. rewrite rsum4.
  assert (j = 0 \/ j = 1) as [->| ->] by lia; ents; lra.
Qed.
Lemma cross_scatter j k : 0 <= j < 2 -> 0 <= k < 2 -> scatter 4 (ent 0%R cross) j k = (if j =? k then if j =? 0 then 8 else 2 else 0)%R.
Proof.
  intros Hj Hk. unfold scatter. rewrite rsum4, !cross_centred by lia.
  assert (j = 0 \/ j = 1) as [->| ->] by lia; assert (k = 0 \/ k = 1) as [->| ->] by lia; ents; cbn; lra.
Qed.

Lemma cross_pca junk negligible eps : rounding_test negligible eps ->
  pca_project junk negligible cross 4 2 2 = OK [[0; 2]; [0; -2]; [1; 0]; [-1; 0]]%R.
Proof.
  intros (_ & Nz & _). unfold pca_project. rewrite repeat_tab2 by lia.
  rewrite (shape_ext 0%R 4 2 cross (ent 0%R cross)) by (auto using cross_shape; lia).
  rewrite covcol_ok by lia. cbn [bind].
  replace (tab2 2 2 (scatter 4 (ent 0%R cross))) with [[8; 0]; [0; 2]]%R.
  2:{ rewrite (tab2_ext 2 2 _ (fun j k => if j =? k then if j =? 0 then 8 else 2 else 0)%R) by (intros; apply cross_scatter; auto). reflexivity. }
  assert (E : tred2 [[8; 0]; [0; 2]]%R 2 (repeat junk (Z.to_nat 2)) (repeat junk (Z.to_nat 2)) = OK ([[1; 0]; [0; 1]], [8; 2], [0; 0])%R).
  { cbv -[Reqb Rplus Rmult Rdiv Rminus Ropp Rabs IZR Rltb sqrt]. rewrite !(proj2 (Reqb_true 0 0) eq_refl). reflexivity. }
  rewrite E. cbn [bind]. clear E.
  assert (E : tqli negligible [8; 2]%R [0; 0]%R 2 [[1; 0]; [0; 1]]%R = OK ([8; 2], [0; 0], [[1; 0]; [0; 1]])%R).
  { cbv -[Reqb Rplus Rmult Rdiv Rminus Ropp Rabs IZR Rltb sqrt]. rewrite Rabs_R0, Nz. reflexivity. pose proof (Rabs_pos 8). pose proof (Rabs_pos 2). lra. }
  rewrite E. cbn [bind]. clear E.
  change [[1; 0]; [0; 1]]%R with (tab2 2 2 (fun a b => if a =? b then 1 else 0)%R).
  rewrite (project_ok 4 2 2 (ent 0%R cross)); try lia; [|reflexivity]. cbn [bind]. f_equal.
  symmetry. apply (shape_ext 0%R); try lia.
  - split; [reflexivity|]. intros i Hi. assert (i = 0 \/ i = 1 \/ i = 2 \/ i = 3) as [->|[->|[->| ->]]] by lia; reflexivity.
  - intros i k Hi Hk. unfold projected. rewrite (proj2 (Z.ltb_lt k 2)) by lia. rewrite rsum2, !cross_centred by lia.
    assert (k = 0 \/ k = 1) as [->| ->] by lia; assert (i = 0 \/ i = 1 \/ i = 2 \/ i = 3) as [->|[->|[->| ->]]] by lia; ents; cbv -[Rplus Rmult Ropp IZR]; lra.
Qed.
Lemma cross_order junk negligible eps : rounding_test negligible eps ->
  exists y, pca_project junk negligible cross 4 2 2 = OK y /\
  rsum 4 (fun i => ent 0 y i 0 * ent 0 y i 0)%R = 2%R /\ rsum 4 (fun i => ent 0 y i 1 * ent 0 y i 1)%R = 8%R.
Proof.
  intros T. eexists. split; [apply (cross_pca junk negligible eps T)|]. rewrite !rsum4. cbv -[Rplus Rmult Ropp IZR]. split; lra.
Qed.
(** m = 0. *)
Lemma pca_empty junk negligible data n : 0 <= n -> pca_project junk negligible data n 0 0 = UB.
Proof.
  intros Hn. unfold pca_project, covcol, column_means. cbn [Z.to_nat repeat]. rewrite (for_up_empty 0 0) by lia. cbn [bind].
  rewrite (for_up_ext _ _ _ (fun _ s => OK s)) by (intros; apply for_up_empty; lia).
  assert (E : for_up 0 n (fun _ s => OK s) data = OK data) by (apply (for_up_path (fun _ => data)); auto).
  rewrite E. cbn [bind]. rewrite for_up_empty by lia. reflexivity.
Qed.
