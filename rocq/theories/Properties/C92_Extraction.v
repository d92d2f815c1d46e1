(** C92-C96: features for segmentation (ClusterMeltSegmenter: initialise, extractFeatures, segment). *)
From Coq Require Import List ZArith Reals Bool Lia Lra.
From Verif.Base Require Import Imp RealOps Matrix.
From Verif.Maths Require Import IntModel IntSpec.
From Verif.Fft Require Import Cplx FftSpec.
From Verif.Chroma Require Import CqSpec.
From Verif.Pca Require PcaModel PcaSpec.
From Verif.Seg Require Import MeltSpec SegModel SegSpec SegResults SegWhole ExtractModel ExtractSpec ExtractProofs ExtractResults ExtractClient ExtractFacts ExtractReinit ExtractCase ExtractPca.
Import ListNotations.
Open Scope Z_scope.

(** C92: one call adds one feature vector: the average over the frames of the decimated block of constant-Q
    magnitudes or cepstral coefficients, whatever uninitialised memory holds. *)
Theorem C92_extract :
  forall p rate past o mem block, sane p -> p_type p <> Unknown -> life p (Some (rate, past)) o -> block_ok p rate block ->
  exists o' v, extract o mem block = OK o' /\ life p (Some (rate, past ++ block)) o' /\
    t_features (u_seg o') = t_features (u_seg o) ++ [v] /\ t_result (u_seg o') = t_result (u_seg o) /\ is_features p rate past block v.
Proof. exact extract_adds. Qed.
Print Assumptions C92_extract.
Theorem C92_unique :
  forall p rate past block v v', sane p -> 1 <= rate -> starts p rate -> p_type p <> Unknown ->
  is_features p rate past block v -> is_features p rate past block v' -> v = v'.
Proof. exact is_features_unique. Qed.
Print Assumptions C92_unique.
Theorem C92_several :
  forall p rate calls, sane p -> p_type p <> Unknown -> forall past o, life p (Some (rate, past)) o ->
  Forall (fun c => block_ok p rate (snd c)) calls ->
  exists o' vs, extract_all o calls = OK o' /\ life p (Some (rate, past ++ concat (map snd calls))) o' /\
    t_features (u_seg o') = t_features (u_seg o) ++ vs /\ t_result (u_seg o') = t_result (u_seg o) /\ all_features p rate past calls vs.
Proof. exact extract_all_adds. Qed.
Print Assumptions C92_several.
(** Four samples at 11025 Hz, frames of two. *)
Example C92_case : sane (tiny short) /\ starts (tiny short) 11025 /\ block_ok (tiny short) 11025 [3; 1; 2; 5]%R /\
  (exists o, life (tiny short) (Some (11025, [])) o /\ t_features (u_seg o) = []) /\
  is_features (tiny short) 11025 [] [3; 1; 2; 5]%R [(27 / 100 * (292 / 100) + 27 / 100 * (84 / 100)) / 2]%R.
Proof.
  split; [exact short_sane|]. split; [apply tiny_starts; auto|]. split; [apply tiny_block; unfold zlen; cbn [length]; lia|].
  split; [apply tiny_object; auto|]. pose proof (tiny_four 3 1 2 5) as H. rewrite !Rabs_left in H by lra.
  replace (- (8 / 100 * 1 - 3))%R with (292 / 100)%R in H by field. replace (- (8 / 100 * 2 - 1))%R with (84 / 100)%R in H by field. exact H.
Qed.
(** Blocks of two samples at 22050 Hz, the second of them silent, after an impulse. *)
Example C92_reduced : block_ok (tiny short) 22050 [0; 0]%R /\ is_factor (internal_rate (tiny short)) 22050 2 /\
  forall x, is_decimated 2 [1; 0]%R [0; 0]%R x -> x = [lag2] /\ is_features (tiny short) 22050 [1; 0]%R [0; 0]%R [27 / 100 * Rabs lag2]%R.
Proof.
  split; [apply tiny_block2|]. split; [exact factor_22050|]. intros x D. pose proof (response_impulse x D) as ->. split; [reflexivity|].
  apply tiny_half. exact D.
Qed.

(** The features of a block depend on it alone: not so where the rate is reduced. *)
Theorem C92_block_alone_refuted : exists p rate past o1 o2 block o1' o2' mem v1 v2,
  sane p /\ starts p rate /\ life p (Some (rate, [])) o1 /\ life p (Some (rate, past)) o2 /\ block_ok p rate block /\
  extract o1 mem block = OK o1' /\ t_features (u_seg o1') = t_features (u_seg o1) ++ [v1] /\
  extract o2 mem block = OK o2' /\ t_features (u_seg o2') = t_features (u_seg o2) ++ [v2] /\ v1 <> v2.
Proof. exact block_alone_refuted. Qed.
Print Assumptions C92_block_alone_refuted.
(** Blocks longer than a window are analysed: not so where the rate is reduced; uninitialised memory takes the place of the rest. *)
Theorem C92_overlong :
  forall p rate past o mem block f, sane p -> p_type p <> Unknown -> life p (Some (rate, past)) o ->
  is_factor (internal_rate p) rate f -> f <> 1 -> window_samples p rate <= zlen block ->
  exists o' v x, extract o mem block = OK o' /\ t_features (u_seg o') = t_features (u_seg o) ++ [v] /\
    block_out f (window_samples p rate) past block (mem 0) x /\ features_of p (rate / f) x v.
Proof. exact extract_overlong. Qed.
Print Assumptions C92_overlong.
Theorem C92_overlong_refuted : exists p rate o block mem1 mem2 o1 o2 v1 v2,
  sane p /\ starts p rate /\ life p (Some (rate, [])) o /\ window_samples p rate <= zlen block /\
  extract o mem1 block = OK o1 /\ t_features (u_seg o1) = t_features (u_seg o) ++ [v1] /\
  extract o mem2 block = OK o2 /\ t_features (u_seg o2) = t_features (u_seg o) ++ [v2] /\ v1 <> v2.
Proof. exact overlong_refuted. Qed.
Print Assumptions C92_overlong_refuted.
(** All frames that fit are averaged: not so, one that ends with the block is left out. *)
Theorem C92_all_frames_refuted : exists p rate n count block v,
  sane p /\ starts p rate /\ block_ok p rate block /\ is_factor (internal_rate p) rate 1 /\ frame_size p rate n /\
  (count - 1) * (n / 2) + n = zlen block /\ is_features p rate [] block v /\
  zn 0%R v 0 <> feature p rate n block count 0.
Proof. exact all_frames_refuted. Qed.
Print Assumptions C92_all_frames_refuted.
(** Hence the last sample of a block longer than a frame never counts. *)
Theorem C92_last_sample :
  forall p rate past block a b n v, p_type p <> Unknown -> is_factor (internal_rate p) rate 1 -> frame_size p rate n -> 2 <= n ->
  n <= zlen block -> is_features p rate past (block ++ [a]) v -> is_features p rate past (block ++ [b]) v.
Proof. exact last_sample. Qed.
Print Assumptions C92_last_sample.

(** C93: calls out of order and blocks shorter than a window change nothing. *)
Theorem C93_short :
  forall p rate past o mem block, sane p -> life p (Some (rate, past)) o -> zlen block < window_samples p rate -> extract o mem block = OK o.
Proof. exact extract_short. Qed.
Print Assumptions C93_short.
Theorem C93_closed : forall p o mem block, sane p -> life p None o -> extract o mem block = OK o.
Proof. exact extract_closed. Qed.
Print Assumptions C93_closed.
Example C93_case : sane (tiny short) /\ zlen [1%R] < window_samples (tiny short) 22050 /\
  (exists o, life (tiny short) (Some (22050, [])) o) /\ exists o, life (tiny short) None o.
Proof.
  split; [exact short_sane|]. split; [destruct short_windows as [_ ->]; unfold zlen; cbn [length]; lia|].
  split; [destruct (tiny_object 22050) as (o & L & _); eauto|]. exists (melter_new (tiny short) 0 0 (Segmentation 0 0 [])). constructor.
Qed.

(** C94: initialise() readies an object for a rate, unless an earlier rate needed a decimator and this one does not. *)
Theorem C94_initialise :
  forall p st o mem rate, sane p -> life p st o -> clean p st rate -> 1 <= rate -> starts p rate ->
  exists o', initialise o mem rate = OK o' /\ life p (Some (rate, [])) o' /\
    t_features (u_seg o') = t_features (u_seg o) /\ t_result (u_seg o') = t_result (u_seg o).
Proof. exact initialise_starts. Qed.
Print Assumptions C94_initialise.
Theorem C94_rate :
  forall p rate f, internal_rate p <= rate < 9 * internal_rate p -> is_factor (internal_rate p) rate f ->
  internal_rate p < 2 * (rate / f) + 2 /\ rate / f < 2 * internal_rate p.
Proof. intros p rate f. apply is_factor_near. unfold internal_rate. destruct (p_type p); lia. Qed.
Print Assumptions C94_rate.
Theorem C94_reinitialise_refuted : exists p rate rate' o o' mem block,
  sane p /\ starts p rate /\ starts p rate' /\ 1 <= rate' /\ life p (Some (rate, [])) o /\
  initialise o mem rate' = OK o' /\ window_samples p rate' <= zlen block /\ forall mem', extract o' mem' block = UB.
Proof. exact reinitialise_refuted. Qed.
Print Assumptions C94_reinitialise_refuted.
(** For every such pair of rates. *)
Theorem C94_reinitialised_overrun :
  forall p rate past o mem rate' mem' block, sane p -> p_type p <> Unknown -> life p (Some (rate, past)) o -> 1 <= rate' ->
  starts p rate' -> is_factor (internal_rate p) rate' 1 -> forall f, is_factor (internal_rate p) rate f -> f <> 1 ->
  window_samples p rate' <= zlen block -> zlen block + zlen block / f < window_samples p rate ->
  exists o', initialise o mem rate' = OK o' /\ extract o' mem' block = UB.
Proof. exact reinitialised_overrun. Qed.
Print Assumptions C94_reinitialised_overrun.
Example C94_case : clean (tiny short) (Some (22050, [1; 2]%R)) 22050 /\ starts (tiny short) 22050 /\ ~ clean (tiny short) (Some (22050, [])) 11025.
Proof.
  assert (N : ~ is_factor 11025 22050 1) by (intros H; discriminate (is_factor_unique _ _ _ _ H factor_22050)).
  split; [right; exact N|]. split; [apply tiny_starts; auto|]. intros [H|H]; [exact (N H)|exact (H factor_11025)].
Qed.

(** C95: from samples to segments. *)
Theorem C95_analysis_partial :
  forall junk junkZ rnd1 rnd2 sfmin pca, (forall i, 0 <= rnd1 i <= 1)%R -> (forall i, 0 <= rnd2 i)%R ->
  forall p o mem rate calls, sane p -> p_type p <> Unknown -> 1 <= rate -> starts p rate ->
  life p None o -> t_features (u_seg o) = [] -> Forall (fun c => block_ok p rate (snd c)) calls ->
  segmentable p rate (zlen calls) -> pca_ok p pca (zlen calls) ->
  exists o' segs c, analyse junk junkZ rnd1 rnd2 sfmin pca o mem rate calls = OK o' /\ life p None o' /\ t_features (u_seg o') = [] /\
    t_result (u_seg o') = Segmentation (p_clusters p) rate segs /\
    clustering (zlen calls) (p_states p) (p_hist p) (p_clusters p) (p_limit p) c /\
    is_segmentation (hop_samples p rate) c 0 (zlen calls) segs.
Proof. exact analysis_segments. Qed.
Print Assumptions C95_analysis_partial.
(** With the PCA of pca.c: it exits, for constant-Q features only, or there are segments. *)
Theorem C95_analysis_pca_partial :
  forall junk junkZ rnd1 rnd2 sfmin negligible eps, PcaSpec.rounding_test negligible eps -> (forall i, 0 <= rnd1 i <= 1)%R -> (forall i, 0 <= rnd2 i)%R ->
  forall p o mem rate calls, sane p -> p_type p <> Unknown -> 1 <= rate -> starts p rate ->
  life p None o -> t_features (u_seg o) = [] -> Forall (fun c => block_ok p rate (snd c)) calls ->
  segmentable p rate (zlen calls) -> (p_type p = ConstQ -> 20 <= feature_size p) ->
  let result := analyse junk junkZ rnd1 rnd2 sfmin (PcaModel.pca_project junk negligible) o mem rate calls in
  result = Throw /\ p_type p = ConstQ \/
  exists o' segs c, result = OK o' /\ life p None o' /\ t_features (u_seg o') = [] /\
    t_result (u_seg o') = Segmentation (p_clusters p) rate segs /\
    clustering (zlen calls) (p_states p) (p_hist p) (p_clusters p) (p_limit p) c /\
    is_segmentation (hop_samples p rate) c 0 (zlen calls) segs.
Proof. exact analysis_pca. Qed.
Print Assumptions C95_analysis_pca_partial.
(** Three blocks, chroma features. *)
Definition tiny_chroma : params :=
  {| p_type := Chroma; p_hop := short; p_window := short; p_fmin := 8000; p_fmax := 16000; p_bins := 1;
     p_states := 2; p_clusters := 2; p_hist := 2; p_limit := 1 |}.
Definition three_blocks : list ((Z -> Z -> R) * list R) := [(fun _ _ => 0%R, [1%R]); (fun _ _ => 1%R, [2; 3]%R); (fun _ _ => 2%R, [4%R])].
Example C95_case : sane tiny_chroma /\ starts tiny_chroma 11025 /\ Forall (fun c => block_ok tiny_chroma 11025 (snd c)) three_blocks /\
  segmentable tiny_chroma 11025 (zlen three_blocks) /\ pca_ok tiny_chroma (fun f _ _ _ => OK f) (zlen three_blocks) /\
  life tiny_chroma None (melter_new tiny_chroma 0 0 (Segmentation 0 0 [])).
Proof.
  split; [exact short_sane|]. split; [exact (tiny_starts short 11025 (or_introl eq_refl))|].
  split; [unfold three_blocks; repeat apply Forall_cons; try apply Forall_nil; apply (tiny_block _); unfold zlen; cbn; lia|]. split.
  - unfold segmentable. assert (H : hop_samples tiny_chroma 11025 = 1).
    { unfold hop_samples, tiny_chroma, short. cbn [p_hop]. apply Zfloor_unique. rewrite ?plus_IZR. cbn. lra. }
    rewrite H. change (zlen three_blocks) with 3. unfold INT_MAX. cbn [tiny_chroma p_states p_clusters p_hist]. repeat split; try lia; discriminate.
  - split; [intros H; discriminate H|constructor].
Qed.

(** C96: features of constant-Q and chroma type are magnitudes: level changes scale them, and none is negative. *)
Theorem C96_gain :
  forall p rate past block v g, p_type p = ConstQ \/ p_type p = Chroma -> is_features p rate past block v ->
  is_features p rate (map (Rmult g) past) (map (Rmult g) block) (map (Rmult (Rabs g)) v).
Proof. exact features_gain. Qed.
Print Assumptions C96_gain.
Theorem C96_nonneg :
  forall p rate past block v i, p_type p = ConstQ \/ p_type p = Chroma -> is_features p rate past block v ->
  0 <= i < zlen v -> (0 <= zn 0 v i)%R.
Proof. exact features_nonneg. Qed.
Print Assumptions C96_nonneg.
(** The frame is windowed after its halves were swapped: the middle of a frame counts 0.08, its ends 1. *)
Theorem C96_window :
  forall fs f b th n x i, 2 <= n -> n mod 2 = 0 ->
  constq_level fs f b th n x i = cabs (cq_bin fs f b th n (CqSpec.spectrum n (rotated n (fun t => cre (frame_weight n t * x t)))) i).
Proof. exact level_weight. Qed.
Print Assumptions C96_window.
Theorem C96_middle_weight_refuted :
  forall n, 2 <= n -> n mod 2 = 0 -> frame_weight n 0 = 1%R /\ frame_weight n (n / 2) = (8 / 100)%R.
Proof. exact frame_weight_ends. Qed.
Print Assumptions C96_middle_weight_refuted.
Example C96_case : is_features (tiny short) 11025 (map (Rmult (-2)) []) (map (Rmult (-2)) [3; 1; 2; 5]%R)
  (map (Rmult (Rabs (-2))) [(27 / 100 * Rabs (8 / 100 * 1 - 3) + 27 / 100 * Rabs (8 / 100 * 2 - 1)) / 2]%R).
Proof. apply C96_gain; [left; reflexivity|]. exact (tiny_four 3 1 2 5). Qed.
