(** From features to segments. *)
From Coq Require Import List ZArith Reals Lia Lra Bool.
From Verif.Base Require Import Imp Sums Arith RealOps Loops Matrix.
From Verif.Maths Require Import IntModel.
From Verif.Hmm Require Import HmmModel HmmSpec HmmBaum HmmTrain HmmTrainProofs HmmInit HmmResults.
From Verif.Seg Require Import MeltModel MeltLoops MeltSpec MeltProofs SegModel SegSpec SegProofs.
Import ListNotations.
Open Scope Z_scope.

(** *** The clustering depends on the values of the histograms only. *)
Section Ext.
  Variables (m n k limit : Z) (lambda : R) (h h' : Z -> Z -> R).
  Hypothesis E : forall i b, 0 <= i < n -> 0 <= b < m -> h i b = h' i b.
  Lemma score_ext beta cl c i j : 0 <= i < n -> score m n k limit lambda h beta cl c i j = score m n k limit lambda h' beta cl c i j.
  Proof.
    intros Hi. unfold score, loglik.
    assert (D : forall j, divergence m (cl j) (h i) = divergence m (cl j) (h' i)) by (intros; apply rsum_ext; intros b Hb; now rewrite E).
    rewrite D. f_equal. f_equal. f_equal. apply rsum_ext. intros q Hq. now rewrite D.
  Qed.
  Lemma assigned_ext beta cl c c' : assigned m n k limit lambda h beta cl c c' -> assigned m n k limit lambda h' beta cl c c'.
  Proof.
    intros A i Hi. destruct (A i Hi) as (P & Q & U). split; [exact P|]. split; intros q Hq.
    - rewrite <- !score_ext by auto. auto.
    - rewrite <- !score_ext by auto. auto.
  Qed.
  Lemma centred_ext beta cl c cl' : centred m n k limit lambda h beta cl c cl' -> centred m n k limit lambda h' beta cl c cl'.
  Proof.
    intros C j b Hj Hb. rewrite C by auto. f_equal.
    - apply rsum_ext. intros i Hi. rewrite score_ext by auto. now rewrite E by auto.
    - apply rsum_ext. intros i Hi. now rewrite score_ext by auto.
  Qed.
  Lemma rounds_ext beta f cl c cl' c' : rounds m n k limit lambda h beta f cl c cl' c' -> rounds m n k limit lambda h' beta f cl c cl' c'.
  Proof.
    induction 1.
    - constructor.
    - constructor; auto. now apply assigned_ext.
    - econstructor; eauto using assigned_ext, centred_ext.
  Qed.
  Lemma melts_ext f bs cl c cl' c' : melts m n k limit lambda h f bs cl c cl' c' -> melts m n k limit lambda h' f bs cl c cl' c'.
  Proof. induction 1; [constructor|]. econstructor; eauto using rounds_ext. Qed.
End Ext.
Lemma melts_range m n k limit lambda h : forall f bs cl c cl' c', melts m n k limit lambda h f bs cl c cl' c' ->
  (forall i, 0 <= i < n -> 1 <= c i <= k) -> forall i, 0 <= i < n -> 1 <= c' i <= k.
Proof.
  assert (G : forall beta f cl c cl' c', rounds m n k limit lambda h beta f cl c cl' c' ->
    (forall i, 0 <= i < n -> 1 <= c i <= k) -> forall i, 0 <= i < n -> 1 <= c' i <= k).
  { induction 1 as [cl c|f cl c c' A S|f cl c c' cl' cl'' c'' A N C R IH]; intros P i Hi; auto.
    - destruct (A i Hi) as (B & _). lia.
    - apply IH; auto. intros q Hq. destruct (A q Hq) as (B & _). lia. }
  induction 1 as [f cl c|f beta bs cl c cl' c' cl'' c'' R M IH]; intros P i Hi; auto.
  apply IH; auto. intros q Hq. eapply G; eauto.
Qed.

(** The result of clustering. *)
Theorem cluster_melt_melts junk junkZ rnd lambda h m n bs t k l c : 0 <= m -> 1 <= n -> 1 <= k -> n * m <= zlen h -> zlen c = n -> 0 <= t <= zlen bs ->
  (forall i, 0 <= rnd i)%R -> (forall i, 0 <= i < n * m -> (0 <= zn 0 h i)%R) ->
  exists cl0 cl c', cluster_melt Rarith exp ln lambda junk junkZ rnd h m n bs t k l c = OK (ztab n c') /\
    (forall j b, 0 <= j < k -> 0 <= b < m -> (0 <= cl0 j b)%R) /\
    (forall j, 0 <= j < k -> (exists b, 0 <= b < m /\ (0 < rnd (j * m + b)%Z)%R) -> rsum m (fun b => cl0 j b * cl0 j b)%R = 1%R) /\
    melts m n k (if 0 <? l then l else 20) lambda (fun i b => zn 0%R h (i * m + b)) 20 (firstn (Z.to_nat t) bs) cl0 (fun _ => 1) cl c' /\
    (forall i, 0 <= i < n -> 1 <= c' i <= k).
Proof.
  intros Hm Hn Hk Lh Lc Ht Pr Ph. rewrite cluster_melt_ok by (auto; lia).
  set (limit := if 0 <? l then l else 20).
  assert (Hl : 0 <= limit) by (unfold limit; destruct (Z.ltb_spec 0 l); lia).
  set (r0 := ref0 Rarith rnd m).
  assert (S0 : forall j, (0 <= rsum m (fun b => rnd (j * m + b)%Z * rnd (j * m + b)%Z))%R) by (intros; apply rsum_nonneg; intros; apply Rle_0_sqr).
  assert (E0 : forall j b, r0 j b = (rnd (j * m + b)%Z / sqrt (rsum m (fun b => rnd (j * m + b)%Z * rnd (j * m + b)%Z)))%R) by reflexivity.
  assert (P0 : nonneg_refs m k r0).
  { intros j b Hj Hb. rewrite E0. apply Rmult_le_pos; [apply Pr|].
    destruct (sqrt_pos (rsum m (fun b => rnd (j * m + b)%Z * rnd (j * m + b)%Z)%R)) as [Q|Q]; [apply Rlt_le, Rinv_0_lt_compat, Q|]. rewrite <- Q, Rinv_0. lra. }
  assert (Ph' : forall i b, 0 <= i < n -> 0 <= b < m -> (0 <= zn 0 h (i * m + b)%Z)%R) by (intros; apply Ph; nia).
  pose proof (schedule_melts h m n k limit lambda Hn Hk Hl Ph' (firstn (Z.to_nat t) bs) true r0 (fun _ => 1) P0) as M.
  destruct (schedule _ _ _ _ _ _ _ _ _ _ _ _ _) as [cl c'] eqn:ES. destruct M as [M _].
  exists r0, cl, c'. split; [reflexivity|]. split; [exact P0|]. split; [|split].
  - intros j Hj (b & Hb & Pb). rewrite (rsum_ext m _ (fun b => / rsum m (fun b => rnd (j * m + b)%Z * rnd (j * m + b)%Z) * (rnd (j * m + b)%Z * rnd (j * m + b)%Z))%R).
    + rewrite rsum_scal. apply Rinv_l. apply Rgt_not_eq.
      apply Rlt_le_trans with (rnd (j * m + b)%Z * rnd (j * m + b)%Z)%R; [now apply Rmult_lt_0_compat|].
      apply (rsum_term m (fun b => rnd (j * m + b)%Z * rnd (j * m + b)%Z)%R b); auto. intros; apply Rle_0_sqr.
    + intros q Hq. rewrite E0. set (s := rsum m _).
      assert (Sp : (0 < s)%R).
      { apply Rlt_le_trans with (rnd (j * m + b)%Z * rnd (j * m + b)%Z)%R; [now apply Rmult_lt_0_compat|].
        apply (rsum_term m (fun b => rnd (j * m + b)%Z * rnd (j * m + b)%Z)%R b); auto. intros; apply Rle_0_sqr. }
      assert (Q : (sqrt s * sqrt s = s)%R) by (apply sqrt_sqrt; lra). assert (sqrt s <> 0)%R by (apply Rgt_not_eq, sqrt_lt_R0, Sp).
      rewrite <- Q at 3. field. auto.
  - exact M.
  - eapply melts_range; [exact M|]. intros; lia.
Qed.

(** *** The schedule. *)
Lemma make_bsched_ok junk : exists b, make_bsched junk = OK b /\ zlen b = 20 /\ forall i, 0 <= i < 20 -> zn 0%R b i = (100 * (7 / 10) ^ Z.to_nat i)%R.
Proof.
  unfold make_bsched. rewrite aset_OK by (zl; lia). cbn [bind].
  match goal with |- exists b, for_up 1 20 ?F ?S = _ /\ _ =>
    destruct (for_up_inv (fun i b => zlen b = 20 /\ forall q, 0 <= q < i -> zn 0%R b q = (100 * (7 / 10) ^ Z.to_nat q)%R) 1 20 F S) as (b & E & L & V) end.
  - lia.
  - split; [zl; lia|]. intros q Hq. rewrite zn_upd by (zl; lia). replace q with 0 by lia. rewrite Z.eqb_refl. cbn. lra.
  - intros i b Hi [L V]. rewrite (aget_OK 0%R) by lia. cbn [bind]. rewrite aset_OK by lia. eexists; split; [reflexivity|].
    split; [zl; lia|]. intros q Hq. rewrite zn_upd by lia. destruct (Z.eqb_spec q i) as [->|]; [|apply V; lia].
    rewrite V by lia. replace (Z.to_nat i) with (S (Z.to_nat (i - 1))) by lia. cbn [pow]. lra.
  - exists b. auto.
Qed.

Section Segment.
  Variables (junk : R) (junkZ : Z) (rnd1 rnd2 : Z -> R) (sfmin : R).
  Variable pca : list (list R) -> Z -> Z -> Z -> res (list (list R)).
  Hypothesis R1 : forall i, (0 <= rnd1 i <= 1)%R.
  Hypothesis R2 : forall i, (0 <= rnd2 i)%R.

  (** What a clustering of frames is: states 0..N-1, their histograms, and the types found from them. *)
  Definition clustering (frames nstates hlen nclusters limit : Z) (c : Z -> Z) : Prop :=
    exists q bs cl0 cl,
      (forall i, 0 <= i < frames -> 0 <= q i < nstates) /\
      zlen bs = 20 /\ (forall i, 0 <= i < 20 -> zn 0%R bs i = (100 * (7 / 10) ^ Z.to_nat i)%R) /\
      (forall j b, 0 <= j < nclusters -> 0 <= b < nstates -> (0 <= cl0 j b)%R) /\
      melts nstates frames nclusters (if 0 <? limit then limit else 20) (2 / 100)%R
        (histogram q frames nstates (Z.quot hlen 2)) 20 bs cl0 (fun _ => 1) cl c.
  Lemma clustering_range frames nstates hlen nclusters limit c : 1 <= nclusters -> clustering frames nstates hlen nclusters limit c ->
    forall i, 0 <= i < frames -> 1 <= c i <= nclusters.
  Proof. intros Hk (q & bs & cl0 & cl & _ & _ & _ & _ & M). eapply melts_range; [exact M|]. intros; lia. Qed.

  Lemma cluster_segment_ok q features frames w flen nstates hlen nclusters limit :
    2 <= frames -> shape frames w features -> 1 <= flen <= w -> zlen q = frames -> 1 <= nstates -> 1 <= nclusters -> 0 <= hlen ->
    2 * Z.quot hlen 2 + 1 <= frames ->
    exists c, cluster_segment junk junkZ rnd1 rnd2 sfmin q features frames flen nstates hlen nclusters limit = OK (ztab frames c) /\
      clustering frames nstates hlen nclusters limit c.
  Proof.
    intros Hf Sf Hl Lq Hs Hk Hh Hfit. unfold cluster_segment.
    rewrite (for_rows frames w _ (fun i j => if j <? flen then (ent 0 features i j * 10)%R else ent 0%R features i j)); auto; try lia.
    2:{ intros i s Hi Ls Rs _ Os. rewrite (aget_OK []) by lia. cbn [bind].
        assert (Lr : zlen (zn [] s i) = w) by (apply Rs; lia).
        rewrite (for_up_tab flen _ (fun j => (ent 0 features i j * 10)%R)).
        - cbn [bind]. f_equal. apply (zn_ext 0%R); [zl; lia|]. intros j Hj. revert Hj. zl. intros Hj. rewrite zn_app. zl.
          rewrite (zn_ztab 0%R w) by lia. destruct (Z.ltb_spec j (Z.max 0 flen)), (Z.ltb_spec j flen); try lia.
          + now rewrite zn_ztab by lia.
          + rewrite zn_skipn by lia. rewrite Os by lia. unfold ent. f_equal. lia.
        - lia.
        - intros j r Hj Lj Oj _. rewrite (aget_OK 0%R) by lia. cbn [bind]. rewrite Oj by lia. rewrite Os by lia. reflexivity. }
    cbn [bind]. set (x := map _ _).
    assert (Sx : shape frames flen x).
    { unfold x. split; [unfold tab2; zl; lia|]. intros i Hi. rewrite (zn_map (firstn (Z.to_nat flen)) [] []) by (unfold tab2; zl; lia).
      unfold tab2. rewrite zn_ztab by lia. zl. lia. }
    destruct (hmm_init_ok junk rnd1 x frames flen nstates) as (m0 & E0 & M0 & P0 & _); auto; try lia.
    rewrite E0. cbn [bind].
    destruct (hmm_train_terminates junk sfmin x frames flen nstates) with (m := m0) as (m1 & E1); auto; try lia.
    rewrite E1. cbn [bind].
    destruct (hmm_train_positive junk sfmin x frames flen nstates) with (m := m0) (m' := m1) as (M1 & P1); auto; try lia.
    destruct (viterbi_decode_states junk junkZ sfmin x frames flen nstates m1 q) as (q' & EV & LV & Rq & _); auto; try lia.
    rewrite EV. cbn [bind].
    destruct (create_histograms_ok q' frames nstates (Z.quot hlen 2)) with (h := repeat junk (Z.to_nat (frames * nstates))) (hlen := hlen) as (h & Eh & Lh & Vh); auto; try lia.
    { apply Z.quot_pos; lia. }
    { zl. nia. }
    rewrite Eh. cbn [bind]. destruct (make_bsched_ok junk) as (bs & Eb & Lb & Vb). rewrite Eb. cbn [bind].
    destruct (cluster_melt_melts junk junkZ rnd2 (2 / 100)%R h nstates frames bs 20 nclusters limit q') as (cl0 & cl & c & Ec & Pc & _ & Mc & _); auto; try lia.
    { intros i Hi. assert (D : i = (i / nstates) * nstates + i mod nstates) by (pose proof (Z.div_mod i nstates ltac:(lia)); lia).
      rewrite D. rewrite Vh.
      - apply histogram_nonneg.
      - split; [apply Z.div_pos; lia|]. apply Z.div_lt_upper_bound; lia.
      - apply Z.mod_pos_bound. lia. }
    exists c. split; [exact Ec|]. exists (zn 0 q'), bs, cl0, cl. split; [exact Rq|]. split; [exact Lb|]. split; [exact Vb|]. split; [exact Pc|].
    rewrite firstn_all2 in Mc by (unfold zlen in Lb; lia). eapply melts_ext; [|exact Mc]. intros i b Hi Hb. now apply Vh.
  Qed.
End Segment.
