(** A chromagram of one pitch class. *)
From Coq Require Import List ZArith Reals Lia Lra Bool.
From Verif.Base Require Import Imp Sums RealOps Loops.
From Verif.Maths Require Import IntModel IntSpec RealModel RealSpec.
From Verif.Fft Require Import Cplx FftModel FftSpec FftResults.
From Verif.Chroma Require Import CqModel CqSpec CqProofs CqTime CqResults CqCase ChromaModel ChromaSpec ChromaProofs ChromaResults.
Import ListNotations.
Open Scope Z_scope.

Definition small_chroma : chromaconfig :=
  {| h_fs := 4; h_min := 1; h_max := 2; h_bpo := 1; h_thresh := 1 / 10; h_norm := NormaliseNone |}%R.
Definition small_fresh : fresh :=
  {| f_data := [7%R]; f_cq := [7; 7]%R; f_1 := repeat c0 2; f_2 := repeat c0 2; f_c := repeat c0 4;
     f_re := repeat 7%R 4; f_im := repeat 7%R 4; f_cqre := [7%R]; f_cqim := [7%R] |}.
Definition small_scratch : scratch :=
  {| s_wr := repeat 7%R 4; s_wi := repeat 7%R 4; s_tr := repeat 7%R 4; s_ti := repeat 7%R 4; s_ji := repeat c0 4; s_jo := repeat c0 4 |}.

Lemma small_octaves : octaves_of small_chroma = 1.
Proof.
  unfold octaves_of. cbn [small_chroma h_max h_min]. replace (2 / 1)%R with 2%R by field.
  pose proof ln2_pos. replace (ln 2 / ln 2)%R with 1%R by (field; lra). apply Zceil_IZR.
Qed.
Lemma small_chroma_usable : chroma_usable small_chroma.
Proof. unfold chroma_usable. cbn. split; [lia|lra]. Qed.

Lemma small_chroma_case :
  exists o o' d, chroma_new small_chroma small_fresh = OK o /\ chroma_uses small_chroma o /\ g_size o = 4 /\
    process_freq o small_scratch [0; 0; 0; 1]%R [0; 0; 0; 0]%R = OK (o', d) /\ d = [(135 / 1000)%R].
Proof.
  assert (P4 : forall n, is_next_power 4 n -> n = 4).
  { intros n ((k & Hk & ->) & A & B). specialize (B 4 ltac:(exists 2; split; [lia|reflexivity]) ltac:(lia)). lia. }
  assert (L : Zceil (quality (h_bpo small_chroma) * h_fs small_chroma / h_min small_chroma) = 4) by exact small_length.
  destruct (chroma_constructed small_chroma small_fresh small_chroma_usable) as (o & E & U & P & _).
  { rewrite L. lia. }
  { rewrite small_octaves. cbn. lia. }
  { rewrite L, small_octaves. intros n Hn. rewrite (P4 n Hn). unfold fresh_for. splits; reflexivity. }
  rewrite L in P. apply P4 in P.
  destruct (chroma_freq small_chroma o small_scratch [0; 0; 0; 1]%R [0; 0; 0; 0]%R small_chroma_usable U) as (o' & d & E' & _ & _ & Ld & N);
    try (rewrite P; cbv; congruence).
  { rewrite P. unfold scratch_for. splits; reflexivity. }
  exists o, o', d. splits; auto.
  apply (zn_ext 0%R); [rewrite Ld; reflexivity|]. intros i Hi. rewrite Ld in Hi. cbn in Hi. assert (i = 0) as -> by lia.
  cbn [is_normalised h_norm small_chroma] in N. rewrite N by (cbn; lia). rewrite P.
  change (h_norm small_chroma) with NormaliseNone in N. unfold pitch_class. rewrite small_octaves.
  change 1 with (0 + 1). rewrite rsum_S, rsum_0 by lia.
  change (0 * h_bpo small_chroma + 0) with 0. cbn [small_chroma h_fs h_min h_bpo h_thresh]. change (0 + 1) with 1. rewrite small_transform.
  change (frame [0; 0; 0; 1]%R [0; 0; 0; 0]%R 3) with c1. change (frame [0; 0; 0; 1]%R [0; 0; 0; 0]%R 2) with c0.
  replace (cadd (cmul (cre (-135 / 1000)) c1) (cmul (cre (-575 / 10000)) c0)) with (cre (-135 / 1000)) by ring.
  rewrite cabs_re, Rabs_left by lra. change (zn 0%R [(135 / 1000)%R] 0) with (135 / 1000)%R. lra.
Qed.
