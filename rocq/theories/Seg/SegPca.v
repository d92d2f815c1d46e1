(** segment() with the PCA of pca.c. *)
From Coq Require Import List ZArith Reals Lia Lra Bool.
From Verif.Base Require Import Imp RealOps Matrix.
From Verif.Maths Require Import IntModel.
From Verif.Pca Require Import PcaModel PcaSpec PcaResults.
From Verif.Seg Require Import SegModel SegSpec SegProofs SegResults SegWhole.
Import ListNotations.
Open Scope Z_scope.

(** The features have the size their type says. *)
Definition features_sized (o : segmenter) : Prop :=
  let sz := zlen (t_features o) in
  match t_type o with
  | Unknown => 1 <= zlen (zn [] (t_features o) 0) /\ forall i, 0 <= i < sz -> zlen (zn [] (t_features o) 0) <= zlen (zn [] (t_features o) i)
  | Mfcc => 0 <= t_ncoeff o /\ 1 <= zlen (zn [] (t_features o) 0) <= t_ncoeff o + 1 /\
      (forall i, 0 <= i < sz -> t_ncoeff o <= zlen (zn [] (t_features o) i))
  | Chroma => 1 <= t_bins o /\ 0 <= t_ncoeff o /\ (forall i, 0 <= i < sz -> t_ncoeff o <= zlen (zn [] (t_features o) i))
  | ConstQ => 20 <= t_ncoeff o /\ (forall i, 0 <= i < sz -> t_ncoeff o <= zlen (zn [] (t_features o) i))
  end.

Section SegPca.
  Variables (junk : R) (junkZ : Z) (rnd1 rnd2 : Z -> R) (sfmin : R).
  Variables (negligible : R -> R -> bool) (eps : R).
  Hypothesis Test : rounding_test negligible eps.

  Definition no_exit (pca : list (list R) -> Z -> Z -> Z -> res (list (list R))) f n m k :=
    match pca f n m k with Throw => OK f | r => r end.

  Lemma segment_no_exit pca o :
    segment junk junkZ rnd1 rnd2 sfmin pca o = Throw /\ t_type o = ConstQ \/
    segment junk junkZ rnd1 rnd2 sfmin pca o = segment junk junkZ rnd1 rnd2 sfmin (no_exit pca) o.
  Proof.
    unfold segment. destruct (zlen (t_features o) <? t_hist o); [auto|].
    destruct (for_up 0 (zlen (t_features o)) _ _) as [arr| | |]; cbn [bind]; auto.
    destruct (t_type o); auto. unfold constq_segment.
    destruct (mpeg7_constq arr (zlen (t_features o)) (t_ncoeff o)) as [f| | |]; cbn [bind]; auto.
    unfold no_exit. destruct (pca f (zlen (t_features o)) (t_ncoeff o) 20) as [f'| | |]; cbn [bind]; auto.
  Qed.

  Hypothesis R1 : forall i, (0 <= rnd1 i <= 1)%R.
  Hypothesis R2 : forall i, (0 <= rnd2 i)%R.
  Let pca := pca_project junk negligible.

  Lemma segment_pca_ok o : settings_ok o -> features_sized o ->
    segment junk junkZ rnd1 rnd2 sfmin pca o = Throw /\ t_type o = ConstQ \/
    exists segs c, segment junk junkZ rnd1 rnd2 sfmin pca o = OK (segmented o (Segmentation (t_clusters o) (t_rate o) segs)) /\
      clustering (zlen (t_features o)) (t_states o) (t_hist o) (t_clusters o) (t_limit o) c /\
      is_segmentation (get_hopsize o) c 0 (zlen (t_features o)) segs.
  Proof.
    intros Hs Hf. destruct (segment_no_exit pca o) as [T|E]; [left; exact T|right].
    rewrite E. apply segment_ok; auto. unfold features_ok, features_sized in *. destruct (t_type o); auto.
    destruct Hf as (Hn & Hr). splits; auto. intros f Sf. unfold no_exit.
    pose proof (zlen_nonneg (t_features o)).
    destruct (pca_components junk negligible eps f (zlen (t_features o)) (t_ncoeff o) (t_ncoeff o + 1) 20 Test) as [Th|(f' & z & la & Ef & (Sf' & _) & _)]; auto; try lia.
    - unfold pca. rewrite Th. eauto.
    - unfold pca. rewrite Ef. eauto.
  Qed.
End SegPca.
