(** Model of dsp/segmentation/cluster_segmenter.c and of the segmentation part of
    dsp/segmentation/ClusterMeltSegmenter.cpp.  Exact reals. *)
From Coq Require Import List ZArith Reals Lia Bool.
From Verif.Base Require Import Imp Arith RealOps Matrix.
From Verif.Maths Require Import IntModel.
From Verif.Hmm Require Import HmmModel HmmTrain.
From Verif.Seg Require Import MeltModel.
Import ListNotations.
Open Scope Z_scope.

(** cq2chroma, cluster_segmenter.c:22-39. *)
Definition cq2chroma (cq : list (list R)) (nframes ncoeff bins : Z) (chroma : list (list R)) : res (list (list R)) :=
  if bins =? 0 then UB else
  let noct := Z.quot ncoeff bins in
  for_up 0 nframes (fun t chroma =>
    row <- aget chroma t ;;
    row <- for_up 0 bins (fun b row => aset row b 0%R) row ;;
    row <- for_up 0 noct (fun oct row => for_up 0 bins (fun b row =>
      v <- aget row b ;; x <- mget cq t (oct * bins + b) ;; aset row b (v + Rabs x)%R) row) row ;;
    aset chroma t row) chroma.

(** mpeg7_constq, cluster_segmenter.c:41-75.  DBL_EPSILON is 2^-52. *)
Definition dbl_epsilon : R := (/ 2 ^ 52)%R.
Definition to_db (v : R) : R := (10 * (ln (v + dbl_epsilon) / ln 10))%R.
Definition mpeg7_constq (features : list (list R)) (nframes ncoeff : Z) : res (list (list R)) :=
  features <- for_up 0 nframes (fun i features =>
    row <- aget features i ;;
    row <- for_up 0 ncoeff (fun j row => v <- aget row j ;; aset row j (to_db v)) row ;;
    aset features i row) features ;;
  ' (features, maxenv) <- for_up 0 nframes (fun i '(features, maxenv) =>
    row <- aget features i ;;
    ss <- for_up 0 ncoeff (fun j ss => v <- aget row j ;; OK (ss + v * v)%R) 0%R ;;
    let env := sqrt ss in
    row <- for_up 0 ncoeff (fun j row => v <- aget row j ;; aset row j (v / env)%R) row ;;
    row <- aset row ncoeff env ;;
    features <- aset features i row ;;
    OK (features, if Rltb maxenv env then env else maxenv)) (features, 0%R) ;;
  for_up 0 nframes (fun i features =>
    row <- aget features i ;; v <- aget row ncoeff ;; row <- aset row ncoeff (v / maxenv)%R ;; aset features i row) features.

(** create_histograms, cluster_segmenter.c:77-116. *)
Definition copy_row (m src i : Z) (h : list R) : res (list R) :=
  for_up 0 m (fun j h => v <- aget h (src * m + j) ;; aset h (i * m + j) v) h.
Definition histogram_row (x : list Z) (m hl i : Z) (h : list R) : res (list R) :=
  h <- for_up 0 m (fun j h => aset h (i * m + j) 0%R) h ;;
  h <- for_up (i - hl) (i + hl + 1) (fun t h =>
    s <- aget x t ;; v <- aget h (i * m + s) ;; aset h (i * m + s) (v + 1)%R) h ;;
  norm <- for_up 0 m (fun j norm => v <- aget h (i * m + j) ;; OK (norm + v * v)%R) 0%R ;;
  for_up 0 m (fun j h => v <- aget h (i * m + j) ;; aset h (i * m + j) (v / norm)%R) h.
Definition create_histograms (x : list Z) (nx m hlen : Z) (h : list R) : res (list R) :=
  let hl := Z.quot hlen 2 in
  h <- for_up 0 (nx * m) (fun i h => aset h i 0%R) h ;;
  h <- for_up hl (nx - hl) (histogram_row x m hl) h ;;
  h <- for_up 0 hl (copy_row m hl) h ;;
  for_up (nx - hl) nx (copy_row m (nx - hl - 1)) h.

Section Segment.
  Variables (junk : R) (junkZ : Z).
  (** The values of rand() / RAND_MAX in hmm_init and of rand() in cluster_melt. *)
  Variables (rnd1 rnd2 : Z -> R).
  (** The safe minimum of LAPACK: see Hmm/HmmTrain.v. *)
  Variable sfmin : R.
  (** pca_project(features, frames_read, ncoeff, 20), in place: see maths/pca/pca.c. *)
  Variable pca : list (list R) -> Z -> Z -> Z -> res (list (list R)).

  (** cluster_segmenter.c:186-194: the inverse temperatures 100 * 0.7^i. *)
  Definition make_bsched : res (list R) :=
    b <- aset (repeat junk 20) 0 100%R ;;
    for_up 1 20 (fun i b => v <- aget b (i - 1) ;; aset b i (7 / 10 * v)%R) b.

  (** cluster_segment, cluster_segmenter.c:118-201, the live branch.  The HMM functions read the first
      feature_length values of every row only, so they are given those. *)
  Definition cluster_segment (q : list Z) (features : list (list R)) (frames flen nstates hlen nclusters limit : Z) : res (list Z) :=
    features <- for_up 0 frames (fun i features =>
      row <- aget features i ;;
      row <- for_up 0 flen (fun j row => v <- aget row j ;; aset row j (v * 10)%R) row ;;
      aset features i row) features ;;
    let x := map (firstn (Z.to_nat flen)) features in
    model <- hmm_init junk rnd1 x frames flen nstates ;;
    model <- hmm_train junk sfmin x frames model ;;
    q <- viterbi_decode junk sfmin junkZ x frames model q ;;
    h <- create_histograms q frames nstates hlen (repeat junk (Z.to_nat (frames * nstates))) ;;
    bsched <- make_bsched ;;
    cluster_melt Rarith exp ln (2 / 100)%R junk junkZ rnd2 h nstates frames bsched 20 nclusters limit q.

  (** segment.h:36-42. *)
  Inductive feature_type := Unknown | ConstQ | Chroma | Mfcc.

  (** constq_segment, cluster_segmenter.c:203-251. *)
  Definition constq_segment (q : list Z) (features : list (list R)) (frames bins ncoeff : Z) (ft : feature_type)
      (nstates hlen nclusters limit : Z) : res (list Z) :=
    match ft with
    | ConstQ =>
      features <- mpeg7_constq features frames ncoeff ;;
      features <- pca features frames ncoeff 20 ;;
      features <- for_up 0 frames (fun i features =>
        row <- aget features i ;; v <- aget row ncoeff ;; row <- aset row 20 v ;; aset features i row) features ;;
      cluster_segment q features frames 21 nstates hlen nclusters limit
    | Chroma =>
      chroma <- cq2chroma features frames ncoeff bins (repeat (repeat junk (Z.to_nat bins)) (Z.to_nat frames)) ;;
      cluster_segment q chroma frames bins nstates hlen nclusters limit
    | _ => OK q
    end.

  (** Segmenter.h:21-35. *)
  Record segment_t := Seg { s_start : Z; s_end : Z; s_type : Z }.
  Record segmentation_t := Segmentation { g_types : Z; g_rate : Z; g_segments : list segment_t }.

  (** makeSegmentation, ClusterMeltSegmenter.cpp:380-400; the hop size is the value of getHopsize(). *)
  Definition make_segmentation (nclusters rate hop : Z) (q : list Z) (len : Z) : res segmentation_t :=
    q0 <- aget q 0 ;;
    ' (segs, start, ty) <- for_up 1 len (fun i '(segs, start, ty) =>
      a <- aget q i ;; b <- aget q (i - 1) ;;
      if negb (a =? b) then
        e <- int_ (i * hop) ;; OK (segs ++ [Seg start e ty], e, a)
      else OK (segs, start, ty)) ([], 0, q0) ;;
    e <- int_ (len * hop) ;;
    OK (Segmentation nclusters rate (segs ++ [Seg start e ty])).

  (** ClusterMeltSegmenter.h:63-110: the members that segment() uses. *)
  Record segmenter := Segmenter { t_features : list (list R); t_type : feature_type; t_rate : Z; t_hop : R; t_bins : Z;
    t_ncoeff : Z; t_states : Z; t_clusters : Z; t_hist : Z; t_limit : Z; t_result : segmentation_t }.
  (** getHopsize, ClusterMeltSegmenter.cpp:129-133: truncation, for non-negative values. *)
  Definition get_hopsize (o : segmenter) : Z := Zfloor (t_hop o * IZR (t_rate o) + 1 / 1000).

  (** setFeatures, ClusterMeltSegmenter.cpp:319-323. *)
  Definition set_features (o : segmenter) (f : list (list R)) : segmenter :=
    Segmenter f Unknown (t_rate o) (t_hop o) (t_bins o) (t_ncoeff o) (t_states o) (t_clusters o) (t_hist o) (t_limit o) (t_result o).
  (** clear, Segmenter.h:48, and the result. *)
  Definition finished (o : segmenter) (g : segmentation_t) : segmenter :=
    Segmenter [] (t_type o) (t_rate o) (t_hop o) (t_bins o) (t_ncoeff o) (t_states o) (t_clusters o) (t_hist o) (t_limit o) g.

  (** The copy of one feature row, ClusterMeltSegmenter.cpp:343-355. *)
  Definition copy_feature (n size : Z) (row : list R) : res (list R) :=
    for_up 0 n (fun j a => v <- aget row j ;; aset a j v) (repeat junk (Z.to_nat size)).

  (** segment(), ClusterMeltSegmenter.cpp:325-378. *)
  Definition segment (o : segmenter) : res segmenter :=
    let sz := zlen (t_features o) in
    if sz <? t_hist o then OK o else
    arr <- for_up 0 sz (fun i arr =>
      row <- aget (t_features o) i ;;
      row <- (match t_type o with
        | Unknown => first <- aget (t_features o) 0 ;; copy_feature (zlen first) (zlen first) row
        | _ => copy_feature (t_ncoeff o) (t_ncoeff o + 1) row
        end) ;;
      aset arr i row) (repeat [] (Z.to_nat sz)) ;;
    let q := repeat junkZ (Z.to_nat sz) in
    q <- (match t_type o with
      | Unknown | Mfcc =>
        first <- aget (t_features o) 0 ;;
        cluster_segment q arr sz (zlen first) (t_states o) (t_hist o) (t_clusters o) (t_limit o)
      | ft => constq_segment q arr sz (t_bins o) (t_ncoeff o) ft (t_states o) (t_hist o) (t_clusters o) (t_limit o)
      end) ;;
    g <- make_segmentation (t_clusters o) (t_rate o) (get_hopsize o) q sz ;;
    OK (finished o g).
  (** segment(int m), ClusterMeltSegmenter.cpp:313-317. *)
  Definition segment_into (o : segmenter) (m : Z) : res segmenter :=
    segment (Segmenter (t_features o) (t_type o) (t_rate o) (t_hop o) (t_bins o) (t_ncoeff o) (t_states o) m (t_hist o) (t_limit o) (t_result o)).
End Segment.
