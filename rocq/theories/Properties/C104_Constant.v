(** C104: segmentation of features that do not vary (dsp/segmentation, hmm/hmm.c), exact reals. *)
From Coq Require Import List ZArith Reals Lia Lra Bool.
From Verif.Base Require Import Imp RealOps Matrix.
From Verif.Maths Require Import IntModel.
From Verif.Hmm Require Import HmmTrain.
From Verif.Seg Require Import SegModel SegSpec SegWhole SegConstant.
Import ListNotations.
Open Scope Z_scope.

(** If one coefficient is the same in all frames, then, whatever the others are, there is one segment from beginning to
    end.  The frames are at least four times as many as are counted as neighbours, or at most one more. *)
Theorem C104_constant_coefficient :
  forall junk junkZ rnd1 rnd2 sfmin pca, (forall i, 0 <= rnd1 i <= 1)%R -> (forall i, 0 <= rnd2 i)%R ->
  forall o d, settings_ok o -> t_type o = Unknown -> features_ok pca o ->
    let frames := zlen (t_features o) in
    4 * reach (t_limit o) <= frames \/ frames - 1 <= reach (t_limit o) -> reach (t_limit o) < 2 ^ 19 ->
    0 <= d < zlen (zn [] (t_features o) 0) -> constant_in frames d (t_features o) ->
    exists a, 1 <= a <= t_clusters o /\
      segment junk junkZ rnd1 rnd2 sfmin pca o = OK (segmented o (Segmentation (t_clusters o) (t_rate o) [Seg 0 (frames * get_hopsize o) a])).
Proof. exact segment_constant. Qed.
Print Assumptions C104_constant_coefficient.
(** In particular if all frames are the same. *)
Theorem C104_same_frames :
  forall junk junkZ rnd1 rnd2 sfmin pca, (forall i, 0 <= rnd1 i <= 1)%R -> (forall i, 0 <= rnd2 i)%R ->
  forall o f n, t_features o = repeat f n -> 1 <= zlen f -> settings_ok o -> t_type o = Unknown ->
    4 * reach (t_limit o) <= Z.of_nat n \/ Z.of_nat n - 1 <= reach (t_limit o) -> reach (t_limit o) < 2 ^ 19 ->
    exists a, 1 <= a <= t_clusters o /\
      segment junk junkZ rnd1 rnd2 sfmin pca o = OK (segmented o (Segmentation (t_clusters o) (t_rate o) [Seg 0 (Z.of_nat n * get_hopsize o) a])).
Proof. exact segment_same_frames. Qed.
Print Assumptions C104_same_frames.

(** Three frames whose second coefficients differ widely. *)
Example C104_case : forall junk junkZ rnd1 rnd2 sfmin pca, (forall i, 0 <= rnd1 i <= 1)%R -> (forall i, 0 <= rnd2 i)%R ->
  let o := Segmenter [[1; 0]; [1; 100]; [1; -5]]%R Unknown 10 1 12 2 4 3 1 5 (Segmentation 0 0 []) in
  exists a, 1 <= a <= 3 /\ segment junk junkZ rnd1 rnd2 sfmin pca o = OK (segmented o (Segmentation 3 10 [Seg 0 30 a])).
Proof.
  intros junk junkZ rnd1 rnd2 sfmin pca R1 R2 o.
  assert (Hp : get_hopsize o = 10).
  { unfold get_hopsize. cbn [t_hop t_rate o]. apply Zfloor_unique. split; change (t_hop o) with 1%R; change (t_rate o) with 10; change (IZR (10 + 1)) with 11%R; lra. }
  assert (T : forall i, 0 <= i < 3 -> i = 0 \/ i = 1 \/ i = 2) by (intros; lia).
  destruct (C104_constant_coefficient junk junkZ rnd1 rnd2 sfmin pca R1 R2 o 0) as (a & Ha & E).
  - unfold settings_ok. rewrite Hp. cbn. unfold INT_MAX. lia.
  - reflexivity.
  - split; [cbn; lia|]. intros i Hi. destruct (T i Hi) as [->|[->| ->]]; cbn; change (Pos.to_nat 1) with 1%nat; change (Pos.to_nat 2) with 2%nat; cbn; lia.
  - right. cbn. lia.
  - cbn. lia.
  - cbn. lia.
  - intros t Ht. destruct (T t Ht) as [->|[->| ->]]; reflexivity.
  - exists a. rewrite Hp in E. auto.
Qed.
