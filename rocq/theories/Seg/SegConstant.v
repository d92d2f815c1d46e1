(** A coefficient that is the same in all frames: the covariance is singular, no training takes place, every frame is in
    state 0, and there is one segment. *)
From Coq Require Import List ZArith Reals Lia Lra Bool.
From Verif.Base Require Import Imp Sums Arith RealOps Loops Matrix.
From Verif.Maths Require Import IntModel.
From Verif.Lapack Require Import LapackSpec DetFacts.
From Verif.Hmm Require Import HmmModel HmmSpec HmmTrain HmmTrainProofs HmmInit HmmResults HmmBaum.
From Verif.Seg Require Import MeltSpec MeltModel MeltProofs SegModel SegSpec SegProofs SegResults SegFeatures SegWhole MeltConstant.
Import ListNotations.
Open Scope Z_scope.

(** Coefficient d is the same in all frames. *)
Definition constant_in (frames d : Z) (x : list (list R)) : Prop := forall t, 0 <= t < frames -> ent 0%R x t d = ent 0%R x 0 d.

Lemma constant_variance x T d : 1 <= T -> constant_in T d x -> variance x T d = 0%R.
Proof.
  intros HT C. unfold variance.
  assert (M : mean x T d = ent 0%R x 0 d).
  { unfold mean. rewrite (rsum_ext T _ (fun _ => ent 0%R x 0 d)) by (intros t Ht; now apply C). rewrite rsum_const by lia. field. apply not_0_IZR. lia. }
  rewrite rsum_zero; [lra|]. intros t Ht. rewrite C, M by auto. ring.
Qed.
Lemma constant_singular junk rnd x T L N d m : 1 <= N -> 1 <= T -> 1 <= L -> shape T L x -> (forall k, (0 <= rnd k <= 1)%R) ->
  0 <= d < L -> constant_in T d x -> hmm_init junk rnd x T L N = OK m -> det (Z.to_nat L) (ent 0%R (mcov m)) = 0%R.
Proof.
  intros HN HT HL Sx R1 Hd C E. destruct (hmm_init_ok junk rnd x T L N) as (m' & E' & _ & _ & _ & V); auto; try lia.
  rewrite E in E'. injection E' as <-.
  rewrite (det_ext _ _ (fun i j => if i =? j then variance x T i else 0%R)) by (intros; apply V; lia).
  rewrite det_upper.
  - apply pprod_zero. exists d. split; [lia|]. rewrite Z.eqb_refl. now apply constant_variance.
  - intros i j Hj Hi. destruct (Z.eqb_spec i j); auto; lia.
Qed.
Lemma train_singular junk sfmin x T L N m : 1 <= N -> 2 <= T -> 1 <= L -> model_ok L N m -> det (Z.to_nat L) (ent 0%R (mcov m)) = 0%R ->
  hmm_train junk sfmin x T m = OK m.
Proof.
  intros HN HT HL M D. unfold hmm_train. cbv zeta. set (s0 := Train _ _ _ _ _ _ _ _).
  assert (Sc : shape L L (mcov m)) by apply M. destruct (invert_cov_ok junk sfmin L HL (mcov m) Sc) as (ic & EI & _).
  change (while 51 train_on (train_step junk sfmin x T) s0) with
    (if train_on s0 then s <- train_step junk sfmin x T s0 ;; while 50 train_on (train_step junk sfmin x T) s else OK s0).
  change (train_on s0) with (negb (false && Rltb (junk - junk) (1 / 10000 * (junk - junk)))). cbv iota. cbn [andb negb].
  destruct (train_step_singular junk sfmin x T L N) with (s := s0) (ic := ic) as (s1 & E1 & Em & _ & _ & Ei & En); auto.
  { change (s_model s0) with m. rewrite D. apply Rabs_R0. }
  rewrite E1. cbn [bind].
  change (while 50 train_on (train_step junk sfmin x T) s1) with
    (if train_on s1 then s <- train_step junk sfmin x T s1 ;; while 49 train_on (train_step junk sfmin x T) s else OK s1).
  unfold train_on at 1. rewrite En. cbn [negb]. rewrite andb_false_r. cbn [andb bind]. now rewrite Em.
Qed.

Lemma histogram_same q nx m hl i j : 0 <= hl -> 2 * hl + 1 <= nx -> (forall t, 0 <= t < nx -> q t = 0) -> 0 <= i < nx ->
  histogram q nx m hl i j = histogram (fun _ => 0) nx m hl 0 j.
Proof.
  intros Hh Hx Q Hi. unfold histogram. cbv zeta.
  assert (O : forall i j, hl <= i < nx - hl -> occurrences q hl i j = occurrences (fun _ => 0) hl (Z.max hl (Z.min 0 (nx - hl - 1))) j).
  { intros p b Hp. apply rsum_ext. intros t Ht. now rewrite Q by lia. }
  rewrite O by lia. f_equal. apply rsum_ext. intros b Hb. now rewrite O by lia.
Qed.

Section Segment.
  Variables (junk : R) (junkZ : Z) (rnd1 rnd2 : Z -> R) (sfmin : R).
  Variable pca : list (list R) -> Z -> Z -> Z -> res (list (list R)).
  Hypothesis R1 : forall i, (0 <= rnd1 i <= 1)%R.
  Hypothesis R2 : forall i, (0 <= rnd2 i)%R.

  (** Frames counted as neighbours, segment.c: 20 unless given. *)
  Definition reach (limit : Z) : Z := if 0 <? limit then limit else 20.

  Lemma cluster_segment_constant q features frames w flen nstates hlen nclusters limit d :
    2 <= frames -> shape frames w features -> 1 <= flen <= w -> zlen q = frames -> 1 <= nstates -> 1 <= nclusters -> 0 <= hlen ->
    2 * Z.quot hlen 2 + 1 <= frames -> 4 * reach limit <= frames \/ frames - 1 <= reach limit -> reach limit < 2 ^ 19 ->
    0 <= d < flen -> constant_in frames d features ->
    exists a, 1 <= a <= nclusters /\
      cluster_segment junk junkZ rnd1 rnd2 sfmin q features frames flen nstates hlen nclusters limit = OK (ztab frames (fun _ => a)).
  Proof.
    intros Hf Sf Hl Lq Hs Hk Hh Hfit Hr1 Hr2 Hd Cd. unfold cluster_segment.
    rewrite (for_rows frames w _ (fun i j => if j <? flen then (ent 0 features i j * 10)%R else ent 0%R features i j)); auto; try lia.
    2:{ intros i s Hi Ls Rs _ Os. rewrite (aget_OK []) by lia. cbn [bind].
        assert (Lr : zlen (zn [] s i) = w) by (apply Rs; lia).
        rewrite (for_up_tab flen _ (fun j => (ent 0 features i j * 10)%R)).
        - cbn [bind]. f_equal. apply (zn_ext 0%R); [zl; lia|]. intros j Hj. revert Hj. zl. intros Hj. rewrite zn_app. zl.
          rewrite (zn_ztab 0%R w) by lia. destruct (Z.ltb_spec j (Z.max 0 flen)), (Z.ltb_spec j flen); try lia.
          + now rewrite zn_ztab by lia.
          + rewrite zn_skipn by lia. rewrite Os by lia. unfold ent. f_equal. lia.
        - lia.
        - intros j r Hj Lj Oj _. rewrite (aget_OK 0%R) by lia. cbn [bind]. rewrite Oj by lia. rewrite Os by lia. reflexivity. }
    cbn [bind]. set (x := map _ _).
    assert (Vx : forall i, 0 <= i < frames -> zn [] x i = ztab flen (fun j => (ent 0 features i j * 10)%R)).
    { intros i Hi. unfold x. rewrite (zn_map (firstn (Z.to_nat flen)) [] []) by (unfold tab2; zl; lia). unfold tab2. rewrite zn_ztab by lia.
      apply (zn_ext 0%R); [zl; lia|]. intros j Hj. revert Hj. zl. intros Hj. rewrite zn_firstn by lia. destruct (Z.ltb_spec j (Z.of_nat (Z.to_nat flen))); [|lia].
      rewrite !zn_ztab by lia. destruct (Z.ltb_spec j flen); [reflexivity|lia]. }
    assert (Sx : shape frames flen x).
    { split; [unfold x, tab2; zl; lia|]. intros i Hi. rewrite Vx by auto. zl. lia. }
    assert (Cx : constant_in frames d x).
    { intros t Ht. unfold ent. rewrite !Vx by lia. rewrite !zn_ztab by lia. f_equal. now apply Cd. }
    destruct (hmm_init_ok junk rnd1 x frames flen nstates) as (m0 & E0 & M0 & P0 & _); auto; try lia.
    rewrite E0. cbn [bind].
    assert (D0 : det (Z.to_nat flen) (ent 0%R (mcov m0)) = 0%R) by (apply (constant_singular junk rnd1 x frames flen nstates d m0); auto; lia).
    rewrite (train_singular junk sfmin x frames flen nstates m0) by (auto; lia). cbn [bind].
    destruct (viterbi_decode_singular junk junkZ sfmin x frames flen nstates m0 q) as (q' & EV & LV & Zq & _); auto; try lia.
    rewrite EV. cbn [bind].
    destruct (create_histograms_ok q' frames nstates (Z.quot hlen 2)) with (h := repeat junk (Z.to_nat (frames * nstates))) (hlen := hlen) as (h & Eh & Lh & Vh); auto; try lia.
    { apply Z.quot_pos; lia. }
    { intros i Hi. rewrite Zq by auto. lia. }
    { zl. nia. }
    rewrite Eh. cbn [bind]. destruct (make_bsched_ok junk) as (bs & Eb & Lb & Vb). rewrite Eb. cbn [bind].
    destruct (cluster_melt_melts junk junkZ rnd2 (2 / 100)%R h nstates frames bs 20 nclusters limit q') as (cl0 & cl & c & Ec & Pc & _ & Mc & _); auto; try lia.
    { intros i Hi. assert (D : i = (i / nstates) * nstates + i mod nstates) by (pose proof (Z.div_mod i nstates ltac:(lia)); lia).
      rewrite D. rewrite Vh.
      - apply histogram_nonneg.
      - split; [apply Z.div_pos; lia|]. apply Z.div_lt_upper_bound; lia.
      - apply Z.mod_pos_bound. lia. }
    rewrite firstn_all2 in Mc by (unfold zlen in Lb; lia).
    assert (Fb : forall b, In b bs -> (0 <= b <= 100)%R).
    { intros b Ib. apply (In_nth bs b 0%R) in Ib. destruct Ib as (i & Hi & <-). unfold zlen in Lb. specialize (Vb (Z.of_nat i) ltac:(lia)).
      unfold zn in Vb. destruct (Z.ltb_spec (Z.of_nat i) 0); [lia|]. rewrite Nat2Z.id in Vb. rewrite Vb.
      assert (0 < (7 / 10) ^ i <= 1)%R; [|lra]. clear. induction i as [|i IH]; cbn [pow]; lra. }
    destruct bs as [|b0 bs]; [discriminate Lb|].
    assert (B0 : b0 = 100%R) by (specialize (Vb 0 ltac:(lia)); change (zn 0%R (b0 :: bs) 0) with b0 in Vb; rewrite Vb; cbn; lra).
    destruct (melts_constant nstates frames nclusters (reach limit) (2 / 100)%R (fun i b => zn 0%R h (i * nstates + b))
      (fun j => histogram (fun _ => 0) frames nstates (Z.quot hlen 2) 0 j)) with (f := 19%nat) (b := b0) (bs := bs) (cl := cl0) (cl' := cl) (c' := c) as (a & Ha & U); auto; try lia.
    - unfold reach. destruct (Z.ltb_spec 0 limit); lia.
    - lra.
    - intros i b Hi Hb. rewrite Vh by auto. apply histogram_same; auto; try lia. apply Z.quot_pos; lia.
    - apply Forall_forall. intros b Ib. rewrite B0. apply Fb. now right.
    - exists a. split; auto. rewrite Ec. f_equal. apply (zn_ext 0); [zl; lia|]. intros i Hi. revert Hi. zl. intros Hi. rewrite !zn_ztab by lia. apply U. lia.
  Qed.

  (** Features given by the caller. *)
  Theorem segment_constant o d : settings_ok o -> t_type o = Unknown -> features_ok pca o ->
    let frames := zlen (t_features o) in
    4 * reach (t_limit o) <= frames \/ frames - 1 <= reach (t_limit o) -> reach (t_limit o) < 2 ^ 19 ->
    0 <= d < zlen (zn [] (t_features o) 0) -> constant_in frames d (t_features o) ->
    exists a, 1 <= a <= t_clusters o /\
      segment junk junkZ rnd1 rnd2 sfmin pca o = OK (segmented o (Segmentation (t_clusters o) (t_rate o) [Seg 0 (frames * get_hopsize o) a])).
  Proof.
    intros (Hs & Hk & Hh & Hfit & Hsz & H2 & Hhop & Hov) Ty F. cbv zeta. unfold segment. set (sz := zlen (t_features o)) in *.
    intros Hr1 Hr2 Hd Cd. destruct (Z.ltb_spec sz (t_hist o)); [lia|]. unfold features_ok in F. fold sz in F. rewrite Ty in *.
    assert (First : aget (t_features o) 0 = OK (zn [] (t_features o) 0)) by (apply aget_OK; unfold sz in *; lia).
    set (w := zlen (zn [] (t_features o) 0)) in *.
    assert (X : exists arr, for_up 0 sz (fun i arr => r <- (row <- aget (t_features o) i ;; first <- aget (t_features o) 0 ;; copy_feature junk (zlen first) (zlen first) row) ;; aset arr i r)
        (repeat [] (Z.to_nat sz)) = OK arr /\ shape sz w arr /\ forall i j, 0 <= i < sz -> 0 <= j < w -> ent 0%R arr i j = ent 0%R (t_features o) i j).
    { match goal with |- exists arr, for_up 0 sz ?G ?S = _ /\ _ =>
        destruct (for_up_inv (fun i arr => zlen arr = sz /\ forall r, 0 <= r < i -> zlen (zn [] arr r) = w /\ forall j, 0 <= j < w -> ent 0%R arr r j = ent 0%R (t_features o) r j) 0 sz G S)
          as (arr & E & L & V) end.
      - lia.
      - split; [zl; lia|]. intros; lia.
      - intros i arr Hi [L V]. rewrite (aget_OK []) by (unfold sz in *; lia). cbn [bind]. rewrite First. cbn [bind]. fold w.
        destruct (copy_feature_ok junk w w (zn [] (t_features o) i)) as (r & Er & Lr & Vr); [lia|apply F; lia|]. rewrite Er. cbn [bind]. rewrite aset_OK by lia.
        eexists; split; [reflexivity|]. split; [zl; lia|]. intros q Hq. unfold ent. rewrite zn_upd by lia. destruct (Z.eqb_spec q i) as [->|]; [auto|]. apply V; lia.
      - exists arr. split; [exact E|]. split; [split; [auto|apply V]|]. intros i j Hi Hj. now apply V. }
    destruct X as (arr & E & S & V).
    rewrite (for_up_ext _ _ _ (fun i arr => r <- (row <- aget (t_features o) i ;; first <- aget (t_features o) 0 ;; copy_feature junk (zlen first) (zlen first) row) ;; aset arr i r))
      by (intros; now rewrite bind_assoc). rewrite E. cbn [bind]. rewrite First. cbn [bind]. fold w.
    destruct (cluster_segment_constant (repeat junkZ (Z.to_nat sz)) arr sz w w (t_states o) (t_hist o) (t_clusters o) (t_limit o) d) as (a & Ha & Ea); auto; try lia.
    { zl; lia. }
    { intros t Ht. rewrite !V by lia. now apply Cd. }
    exists a. split; auto. rewrite Ea. cbn [bind].
    destruct (make_segmentation_ok (t_clusters o) (t_rate o) (get_hopsize o) (ztab sz (fun _ => a)) sz) as (segs & Eg & G); auto; [zl; lia|].
    rewrite Eg. cbn [bind]. unfold finished, segmented. do 3 f_equal.
    eapply segmentation_unique with (q := zn 0 (ztab sz (fun _ => a))) (hop := get_hopsize o) (a := 0) (len := sz); auto.
    split; [|split; [|split]].
    - cbn. split; [lia|]. split; [nia|reflexivity].
    - exact I.
    - intros i Hi. exists (Seg 0 (sz * get_hopsize o) a). split; [now left|]. cbn. rewrite zn_ztab by lia. split; [nia|auto].
    - repeat constructor. cbn. exists 0. lia.
  Qed.
  Theorem segment_same_frames o f n : t_features o = repeat f n -> 1 <= zlen f -> settings_ok o -> t_type o = Unknown ->
    4 * reach (t_limit o) <= Z.of_nat n \/ Z.of_nat n - 1 <= reach (t_limit o) -> reach (t_limit o) < 2 ^ 19 ->
    exists a, 1 <= a <= t_clusters o /\
      segment junk junkZ rnd1 rnd2 sfmin pca o = OK (segmented o (Segmentation (t_clusters o) (t_rate o) [Seg 0 (Z.of_nat n * get_hopsize o) a])).
  Proof.
    intros E Lf St Ty H4 Hr. assert (Ln : zlen (t_features o) = Z.of_nat n) by (rewrite E; unfold zlen; now rewrite repeat_length).
    assert (V : forall i, 0 <= i < Z.of_nat n -> zn [] (t_features o) i = f).
    { intros i Hi. rewrite E. rewrite <- (Nat2Z.id n). apply zn_repeat_in. lia. }
    assert (Hn : 2 <= Z.of_nat n) by (rewrite <- Ln; apply St).
    rewrite <- Ln. apply (segment_constant o 0); auto; rewrite ?Ln; auto.
    - unfold features_ok. rewrite Ty, Ln. rewrite V by lia. split; auto. intros i Hi. rewrite V by lia. lia.
    - rewrite V by lia. lia.
    - intros t Ht. unfold ent. now rewrite !V by lia.
  Qed.
End Segment.
