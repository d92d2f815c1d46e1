(** From samples to segments with the PCA of pca.c. *)
From Coq Require Import List ZArith Reals Lia Lra Bool.
From Verif.Base Require Import Imp RealOps Matrix.
From Verif.Maths Require Import IntModel.
From Verif.Pca Require Import PcaModel PcaSpec PcaResults.
From Verif.Seg Require Import SegModel SegSpec SegProofs SegResults SegWhole SegPca ExtractModel ExtractSpec ExtractResults ExtractClient.
Import ListNotations.
Open Scope Z_scope.

Section ExtractPca.
  Variables (junk : R) (junkZ : Z) (rnd1 rnd2 : Z -> R) (sfmin : R).
  Variables (negligible : R -> R -> bool) (eps : R).
  Hypothesis Test : rounding_test negligible eps.

  Lemma analyse_no_exit pca o mem rate calls :
    analyse junk junkZ rnd1 rnd2 sfmin pca o mem rate calls = Throw \/
    analyse junk junkZ rnd1 rnd2 sfmin pca o mem rate calls = analyse junk junkZ rnd1 rnd2 sfmin (no_exit pca) o mem rate calls.
  Proof.
    unfold analyse. destruct (initialise o mem rate) as [o1| | |]; cbn [bind]; auto.
    destruct (extract_all o1 calls) as [o2| | |]; cbn [bind]; auto. unfold melter_segment.
    destruct (segment_no_exit junk junkZ rnd1 rnd2 sfmin pca (u_seg o2)) as [(E & _)|E]; rewrite E; auto.
  Qed.

  Hypothesis R1 : forall i, (0 <= rnd1 i <= 1)%R.
  Hypothesis R2 : forall i, (0 <= rnd2 i)%R.
  Let pca := pca_project junk negligible.

  Theorem analysis_pca p o mem rate calls : sane p -> p_type p <> Unknown -> 1 <= rate -> starts p rate ->
    life p None o -> t_features (u_seg o) = [] -> Forall (fun c => block_ok p rate (snd c)) calls ->
    segmentable p rate (zlen calls) -> (p_type p = ConstQ -> 20 <= feature_size p) ->
    analyse junk junkZ rnd1 rnd2 sfmin pca o mem rate calls = Throw /\ p_type p = ConstQ \/
    exists o' segs c, analyse junk junkZ rnd1 rnd2 sfmin pca o mem rate calls = OK o' /\ life p None o' /\ t_features (u_seg o') = [] /\
      t_result (u_seg o') = Segmentation (p_clusters p) rate segs /\
      clustering (zlen calls) (p_states p) (p_hist p) (p_clusters p) (p_limit p) c /\
      is_segmentation (hop_samples p rate) c 0 (zlen calls) segs.
  Proof.
    intros S T Hr St L F0 B Sg Hn.
    assert (D : p_type p = ConstQ \/ p_type p <> ConstQ) by (destruct (p_type p); auto; right; discriminate).
    destruct D as [D|D].
    - destruct (analyse_no_exit pca o mem rate calls) as [E|E]; [left; auto|right]. rewrite E.
      eapply analysis_segments; eauto. intros _. split; [auto|]. intros f Sf. unfold no_exit. specialize (Hn D).
      pose proof (zlen_nonneg calls).
      destruct (pca_components junk negligible eps f (zlen calls) (feature_size p) (feature_size p + 1) 20 Test) as [Th|(f' & z & la & Ef & (Sf' & _) & _)]; auto; try lia.
      + unfold pca. rewrite Th. eauto.
      + unfold pca. rewrite Ef. eauto.
    - right. apply (analysis_segments junk junkZ rnd1 rnd2 sfmin pca R1 R2 p o mem rate calls); auto. intros C. contradiction.
  Qed.
End ExtractPca.
