(** C39, C63-C65: segmentation (dsp/segmentation). *)
From Coq Require Import List ZArith Reals Bool Lia Lra.
From Verif.Base Require Import Imp Arith RealOps Matrix.
From Verif.Maths Require Import IntModel.
From Verif.Seg Require Import MeltModel MeltSpec SegModel SegSpec SegProofs SegResults SegFeatures SegWhole SegCase.
Import ListNotations.
Open Scope Z_scope.

(** C39: for any types of frames, the segments are contiguous from 0 to length times hop, none is empty, neighbours
    differ in type and every frame lies in a segment of its type. *)
Theorem C39_partition :
  forall nc rate hop q len, 1 <= len <= zlen q -> 0 < hop -> len * hop <= INT_MAX ->
    exists l, make_segmentation nc rate hop q len = OK (Segmentation nc rate l) /\ is_segmentation hop (zn 0 q) 0 len l.
Proof. exact make_segmentation_ok. Qed.
Print Assumptions C39_partition.
(** Only one list of segments, with boundaries at frames, is like that. *)
Theorem C39_unique :
  forall hop q len, 0 < hop -> forall l l' a, is_segmentation hop q a len l -> is_segmentation hop q a len l' -> l = l'.
Proof. exact segmentation_unique. Qed.
Print Assumptions C39_unique.
Example C39_case : make_segmentation 3 8000 10 [2; 2; 1; 3; 3; 3] 6 =
  OK (Segmentation 3 8000 [Seg 0 20 2; Seg 20 30 1; Seg 30 60 3]).
Proof. reflexivity. Qed.

(** segment() from features to segments, for every type of feature.  The types are 1..nclusters. *)
Theorem C39_segment_partial :
  forall junk junkZ rnd1 rnd2 sfmin pca, (forall i, 0 <= rnd1 i <= 1)%R -> (forall i, 0 <= rnd2 i)%R ->
    forall o, settings_ok o -> features_ok pca o ->
    exists segs c, segment junk junkZ rnd1 rnd2 sfmin pca o = OK (segmented o (Segmentation (t_clusters o) (t_rate o) segs)) /\
      clustering (zlen (t_features o)) (t_states o) (t_hist o) (t_clusters o) (t_limit o) c /\
      is_segmentation (get_hopsize o) c 0 (zlen (t_features o)) segs.
Proof. exact segment_ok. Qed.
Print Assumptions C39_segment_partial.
Theorem C39_types_partial :
  forall frames nstates hlen nclusters limit c hop l, 0 < hop -> 1 <= nclusters ->
    clustering frames nstates hlen nclusters limit c -> is_segmentation hop c 0 frames l ->
    Forall (fun s => 1 <= s_type s <= nclusters) l.
Proof.
  intros frames nstates hlen nclusters limit c hop l Hh Hk C I.
  exact (segments_types hop c nclusters frames l Hh I (clustering_range frames nstates hlen nclusters limit c Hk C)).
Qed.
Print Assumptions C39_types_partial.
(** With fewer features than the histogram length nothing happens: an earlier segmentation and the features stay. *)
Theorem C39_short :
  forall junk junkZ rnd1 rnd2 sfmin pca o, zlen (t_features o) < t_hist o -> segment junk junkZ rnd1 rnd2 sfmin pca o = OK o.
Proof. exact segment_short. Qed.
Print Assumptions C39_short.

(** Three frames of one value each. *)
Definition ex_pca (f : list (list R)) (n m k : Z) : res (list (list R)) := OK f.
Definition ex_o (k : Z) : segmenter :=
  Segmenter [[1]; [2]; [1]]%R Unknown 100 (1 / 5)%R 0 0 2 k 3 0 (Segmentation 0 0 []).
Lemma ex_hop k : get_hopsize (ex_o k) = 20.
Proof. apply Zfloor_unique. cbn. lra. Qed.
Lemma ex_settings k : 1 <= k -> settings_ok (ex_o k).
Proof. intros Hk. unfold settings_ok. rewrite ex_hop. cbn -[INT_MAX]. unfold INT_MAX. repeat split; lia. Qed.
Lemma ex_features k : features_ok ex_pca (ex_o k).
Proof. split; [apply Z.leb_le; reflexivity|]. intros i Hi. cbn in Hi. assert (i = 0 \/ i = 1 \/ i = 2) as [->|[->| ->]] by lia; apply Z.leb_le; reflexivity. Qed.
Example C39_segment_case : exists segs c, segment 0%R 0 (fun _ => 1 / 2)%R (fun i => IZR (i * i)) 0%R ex_pca (ex_o 2) =
    OK (segmented (ex_o 2) (Segmentation 2 100 segs)) /\ clustering 3 2 3 2 0 c /\ is_segmentation 20 c 0 3 segs.
Proof.
  destruct (C39_segment_partial 0%R 0 (fun _ => 1 / 2)%R (fun i => IZR (i * i)) 0%R ex_pca) with (o := ex_o 2) as (segs & c & H).
  - intros i. lra.
  - intros i. apply IZR_le. nia.
  - apply ex_settings. lia.
  - apply ex_features.
  - rewrite ex_hop in H. exists segs, c. exact H.
Qed.

(** The types documented are 0 to the number of types less 1; one type is enough to refute that: it is number 1. *)
Theorem C39_documented_types_refuted : exists junk junkZ rnd1 rnd2 sfmin pca o g,
  settings_ok o /\ features_ok pca o /\ segment junk junkZ rnd1 rnd2 sfmin pca o = OK (segmented o g) /\
  g_types g = 1 /\ g_segments g = [Seg 0 60 1].
Proof.
  exists 0%R, 0, (fun _ => 1 / 2)%R, (fun i => IZR (i * i)), 0%R, ex_pca, (ex_o 1).
  destruct (C39_segment_partial 0%R 0 (fun _ => 1 / 2)%R (fun i => IZR (i * i)) 0%R ex_pca) with (o := ex_o 1) as (segs & c & E & C & I).
  - intros i. lra.
  - intros i. apply IZR_le. nia.
  - apply ex_settings. lia.
  - apply ex_features.
  - exists (Segmentation 1 100 segs). split; [apply ex_settings; lia|]. split; [apply ex_features|]. split; [exact E|].
    split; [reflexivity|]. rewrite ex_hop in I. cbn [g_segments]. change (zlen (t_features (ex_o 1))) with 3 in C, I.
    assert (R : forall i, 0 <= i < 3 -> 1 <= c i <= 1) by (apply (clustering_range 3 2 3 1 0 c); [lia|exact C]).
    assert (R1 : forall i, 0 <= i < 3 -> c i = 1) by (intros i Hi; specialize (R i Hi); lia).
    rewrite (segmentation_one 20 c 3 segs) by (auto; try lia; intros i Hi; rewrite !R1 by lia; reflexivity).
    rewrite R1 by lia. reflexivity.
Qed.
Print Assumptions C39_documented_types_refuted.
(** Positions are computed in int: longer signals overflow. *)
Theorem C39_long_undefined :
  forall nc rate hop q len, 1 <= len <= zlen q -> 0 < hop -> INT_MAX < len * hop -> make_segmentation nc rate hop q len = UB.
Proof. exact make_segmentation_overflow. Qed.
Print Assumptions C39_long_undefined.
Theorem C39_long_refuted : exists nc rate hop q len, 1 <= len <= zlen q /\ 0 < hop <= INT_MAX /\ make_segmentation nc rate hop q len = UB.
Proof. exists 2, 44100, (2 ^ 30), [1; 1], 2. repeat split; reflexivity || (unfold INT_MAX; cbn; lia). Qed.
Print Assumptions C39_long_refuted.

(** C63: the distance of two histograms (with non-negative values) is their divergence from their mean: symmetric, not
    negative, bounded, and zero for equal histograms only. *)
Theorem C63_distance :
  forall a h off n, 0 <= n -> zlen a = n -> 0 <= off -> off + n <= zlen h ->
    (forall i, 0 <= i < n -> (0 <= zn 0 a i)%R /\ (0 <= zn 0 h (off + i)%Z)%R) ->
    exists d, kldist Rarith ln a h off n = OK d /\ d = divergence n (zn 0%R a) (fun i => zn 0%R h (off + i)) /\
      (0 <= d <= (rsum n (zn 0%R a) + rsum n (fun i => zn 0%R h (off + i))) * ln 2)%R /\
      (d = 0%R <-> forall i, 0 <= i < n -> zn 0%R a i = zn 0%R h (off + i)).
Proof. exact kldist_divergence. Qed.
Print Assumptions C63_distance.
Theorem C63_symmetric : forall n x y, divergence n x y = divergence n y x.
Proof. exact divergence_sym. Qed.
Print Assumptions C63_symmetric.
(** The bound is attained. *)
Example C63_case : kldist Rarith ln [1; 0]%R [5; 0; 1]%R 1 2 = OK (2 * ln 2)%R.
Proof.
  destruct (C63_distance [1; 0]%R [5; 0; 1]%R 1 2) as (d & E & D & _); try (cbn; lia).
  - intros i Hi. assert (i = 0 \/ i = 1) as [->| ->] by lia; cbv -[Rle IZR]; split; lra.
  - rewrite E, D. f_equal. change (divergence 2 (zn 0%R [1; 0]%R) (fun i => zn 0%R [5; 0; 1]%R (1 + i))) with (0 + from_mean 1 0 + from_mean 0 1)%R.
    unfold from_mean, xln. destruct (Rltb_spec 0 1), (Rltb_spec 0 0); try lra.
    replace (1 / ((1 + 0) / 2))%R with 2%R by field. replace (1 / ((0 + 1) / 2))%R with 2%R by field. lra.
Qed.

(** Clustering is the annealing described in MeltSpec: rounds of assignment to the first best cluster and of moving
    the references to weighted means, at most 20 at the first temperature and 5 at each other, starting
    from random references of norm 1 and all frames in the first cluster. *)
Theorem C63_clustering :
  forall junk junkZ rnd lambda h m n bs t k l c, 0 <= m -> 1 <= n -> 1 <= k -> n * m <= zlen h -> zlen c = n -> 0 <= t <= zlen bs ->
    (forall i, 0 <= rnd i)%R -> (forall i, 0 <= i < n * m -> (0 <= zn 0 h i)%R) ->
    exists cl0 cl c', cluster_melt Rarith exp ln lambda junk junkZ rnd h m n bs t k l c = OK (ztab n c') /\
      (forall j b, 0 <= j < k -> 0 <= b < m -> (0 <= cl0 j b)%R) /\
      (forall j, 0 <= j < k -> (exists b, 0 <= b < m /\ (0 < rnd (j * m + b)%Z)%R) -> rsum m (fun b => cl0 j b * cl0 j b)%R = 1%R) /\
      melts m n k (if 0 <? l then l else 20) lambda (fun i b => zn 0%R h (i * m + b)) 20 (firstn (Z.to_nat t) bs) cl0 (fun _ => 1) cl c' /\
      (forall i, 0 <= i < n -> 1 <= c' i <= k).
Proof. exact cluster_melt_melts. Qed.
Print Assumptions C63_clustering.
(** For any arithmetic: types are 1..k, and the result depends neither on uninitialised memory nor on the previous contents
    of the array. *)
Theorem C63_any_arithmetic :
  forall (T : Type) (A : arith T) texp tlog lambda rnd h m n bs t k l,
    0 <= m -> 0 <= n -> 1 <= k -> n * m <= zlen h -> 0 <= t <= zlen bs ->
    exists c', forall junk junkZ c, zlen c = n -> cluster_melt A texp tlog lambda junk junkZ rnd h m n bs t k l c = OK c' /\
      zlen c' = n /\ Forall (fun i => 1 <= i <= k) c'.
Proof. exact @cluster_melt_any. Qed.
Print Assumptions C63_any_arithmetic.
(** Integers in place of double, three histograms and two clusters. *)
Definition zops : arith Z := mkArith Z (fun z => z) Z.add Z.sub Z.mul Z.div (fun _ => 1) Z.ltb.
Example C63_any_case : cluster_melt zops (fun z => if z <? 0 then 0 else 1) (fun z => z - 1) 0 9 9
  (fun i => if i =? 0 then 0 else if i =? 3 then 0 else 8) [8; 0; 0; 8; 8; 0] 2 3 [1; 2] 2 2 1 [7; 7; 7] = OK [2; 1; 2].
Proof. reflexivity. Qed.

(** C64: the histogram of a frame counts the states of the frames around it, is divided by its sum of squares, and
    repeats the nearest complete one at both ends. *)
Theorem C64_histograms :
  forall x nx m hlen h, 1 <= m -> 0 <= hlen -> 2 * Z.quot hlen 2 + 1 <= nx -> nx <= zlen x ->
    (forall t, 0 <= t < nx -> 0 <= zn 0 x t < m) -> zlen h = nx * m ->
    exists h', create_histograms x nx m hlen h = OK h' /\ zlen h' = nx * m /\
      forall i, 0 <= i < nx -> let g j := zn 0%R h' (i * m + j) in
        (forall j, 0 <= j < m -> g j = histogram (zn 0 x) nx m (Z.quot hlen 2) i j /\ (0 <= g j)%R) /\
        exists total, (0 < total)%R /\ rsum m g = (IZR (2 * Z.quot hlen 2 + 1) / total)%R /\ rsum m (fun j => g j * g j)%R = (/ total)%R.
Proof. exact create_histograms_meaning. Qed.
Print Assumptions C64_histograms.
(** So they do not have norm 1, as the comment in the code says: with one state and windows of 3 frames the value is 1/3. *)
Theorem C64_norm_refuted : exists x nx m hlen h h', create_histograms x nx m hlen h = OK h' /\ 2 * Z.quot hlen 2 + 1 <= nx /\
  (forall t, 0 <= t < nx -> 0 <= zn 0 x t < m) /\ norm_of m (fun j => zn 0%R h' (0 * m + j)) = (1 / 3)%R.
Proof.
  exists [0; 0; 0], 3, 1, 3, [0; 0; 0]%R.
  destruct (C64_histograms [0; 0; 0] 3 1 3 [0; 0; 0]%R) as (h' & E & L & V); try (cbn; lia).
  - intros t Ht. assert (t = 0 \/ t = 1 \/ t = 2) as [->|[->| ->]] by lia; (split; [apply Z.leb_le|apply Z.ltb_lt]; reflexivity).
  - exists h'. split; [exact E|]. split; [cbn; lia|]. split.
    { intros t Ht. assert (t = 0 \/ t = 1 \/ t = 2) as [->|[->| ->]] by lia; (split; [apply Z.leb_le|apply Z.ltb_lt]; reflexivity). }
    destruct (V 0 ltac:(lia)) as (A & _). destruct (A 0 ltac:(lia)) as (A0 & P0). unfold norm_of.
    replace (rsum 1 _) with (zn 0 h' (0 * 1 + 0)%Z * zn 0 h' (0 * 1 + 0)%Z)%R.
    2:{ change 1 with (0 + 1) at 3. rewrite rsum_S, rsum_0 by lia. lra. }
    rewrite sqrt_square by exact P0. cbv zeta in A0. rewrite A0.
    change (histogram (zn 0 [0; 0; 0]) 3 1 (3 ÷ 2) 0 0) with ((0 + 1 + 1 + 1) / (0 + (0 + 1 + 1 + 1) * (0 + 1 + 1 + 1)))%R. lra.
Qed.
Print Assumptions C64_norm_refuted.

(** C65: constant-Q features become decibels of unit norm and a level relative to the loudest frame. *)
Theorem C65_normalised :
  forall features nframes ncoeff, 1 <= nframes -> 0 <= ncoeff -> shape nframes (ncoeff + 1) features ->
    let env i := norm_of ncoeff (fun j => decibels (ent 0%R features i j)) in
    exists f', mpeg7_constq features nframes ncoeff = OK f' /\ shape nframes (ncoeff + 1) f' /\
      (forall i, 0 <= i < nframes -> (env i <> 0)%R -> norm_of ncoeff (ent 0%R f' i) = 1%R /\
        forall j, 0 <= j < ncoeff -> (env i * ent 0 f' i j = decibels (ent 0 features i j))%R) /\
      ((exists i, 0 <= i < nframes /\ (env i <> 0)%R) ->
        (forall i, 0 <= i < nframes -> (0 <= ent 0 f' i ncoeff <= 1)%R) /\ (exists i, 0 <= i < nframes /\ ent 0%R f' i ncoeff = 1%R) /\
        forall i r, 0 <= i < nframes -> 0 <= r < nframes -> (ent 0 f' i ncoeff * env r = ent 0 f' r ncoeff * env i)%R).
Proof. exact mpeg7_constq_normal. Qed.
Print Assumptions C65_normalised.
(** Chroma from constant-Q features: magnitudes added over octaves. *)
Theorem C65_folded :
  forall cq nframes w ncoeff bins chroma, 0 <= nframes -> shape nframes w cq -> 0 <= ncoeff <= w -> 1 <= bins -> shape nframes bins chroma ->
    cq2chroma cq nframes ncoeff bins chroma = OK (tab2 nframes bins (fun t b => folded bins (Z.quot ncoeff bins) (ent 0%R cq t) b)).
Proof. exact cq2chroma_ok. Qed.
Print Assumptions C65_folded.
(** One frame of a single coefficient at a level which is not 0 dB. *)
Example C65_case : exists f', mpeg7_constq [[10; 0]]%R 1 1 = OK f' /\ ent 0%R f' 0 0 = 1%R /\ ent 0%R f' 0 1 = 1%R.
Proof.
  assert (P : (0 < decibels 10)%R).
  { unfold decibels. assert (0 < ln 10)%R by (rewrite <- ln_1; apply ln_increasing; lra).
    assert (0 < / 2 ^ 52)%R by (apply Rinv_0_lt_compat, pow_lt; lra).
    assert (0 < ln (10 + / 2 ^ 52))%R by (rewrite <- ln_1; apply ln_increasing; lra).
    apply Rmult_lt_0_compat; [lra|]. apply Rdiv_lt_0_compat; auto. }
  assert (N : norm_of 1 (fun j => decibels (ent 0%R [[10; 0]]%R 0 j)) = decibels 10).
  { unfold norm_of. change (rsum 1 (fun j => (decibels (ent 0%R [[10; 0]]%R 0 j) * decibels (ent 0%R [[10; 0]]%R 0 j))%R)) with (0 + decibels 10 * decibels 10)%R.
    rewrite Rplus_0_l. apply sqrt_square. lra. }
  destruct (C65_normalised [[10; 0]]%R 1 1) as (f' & E & _ & A & B); try lia.
  - split; [reflexivity|]. intros i Hi. replace i with 0 by lia. reflexivity.
  - exists f'. split; [exact E|]. split.
    + destruct (A 0) as (_ & V); [lia|rewrite N; lra|]. specialize (V 0 ltac:(lia)). rewrite N in V.
      change (ent 0 [[10; 0]]%R 0 0)%R with 10%R in V. apply (Rmult_eq_reg_l (decibels 10)); lra.
    + destruct B as (_ & (i & Hi & V) & _); [exists 0; split; [lia|rewrite N; lra]|]. now replace i with 0 in V by lia.
Qed.
