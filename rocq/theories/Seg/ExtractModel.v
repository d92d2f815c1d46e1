(** Model of the feature extraction of dsp/segmentation/ClusterMeltSegmenter.{h,cpp} over exact reals, on top of the
    models of Decimator, ConstantQ, FFTReal, Window, MFCC and of segment().  [mem k i]: contents of element i of the
    k-th uninitialised array of a call.  Overflow of sample positions at 2^31 is not modelled. *)
From Coq Require Import List ZArith QArith Qreals Reals Lia Bool.
From Verif.Base Require Import Imp RealOps.
From Verif.Maths Require Import IntModel.
From Verif.Rate Require Import DecimatorModel.
From Verif.Windows Require Import WindowModel.
From Verif.Fft Require Import Cplx FftModel FftrModel.
From Verif.Chroma Require Import CqModel.
From Verif.Mfcc Require Import MfccModel.
From Verif.Seg Require Import SegModel.
Import ListNotations.
Open Scope Z_scope.

(** ClusterMeltSegmenter.h:63-110: the members of [segmenter] (see SegModel.v) and those used for extraction;
    [None] is the null pointer. *)
Record melter := Melter { u_seg : segmenter; u_secs : R; u_fmin : Z; u_fmax : Z;
  u_cq : option cq; u_mfcc : option mfcc; u_dec : option (decimator R); u_fft : option fftreal; u_window : option (list R) }.

(** ClusterMeltSegmenterParams, ClusterMeltSegmenter.h:34-64. *)
Record params := { p_type : feature_type; p_hop : R; p_window : R; p_fmin : Z; p_fmax : Z; p_bins : Z; p_states : Z;
  p_clusters : Z; p_hist : Z; p_limit : Z }.

(** Constructor, ClusterMeltSegmenter.cpp:29-47; [rate], [ncoeff], [g]: members not set by it. *)
Definition melter_new (p : params) (rate ncoeff : Z) (g : segmentation_t) : melter :=
  Melter (Segmenter [] (p_type p) rate (p_hop p) (p_bins p) ncoeff (p_states p) (p_clusters p) (p_hist p) (p_limit p) g)
    (p_window p) (p_fmin p) (p_fmax p) None None None None None.

(** getWindowsize, ClusterMeltSegmenter.cpp:123-127: truncation, for non-negative values. *)
Definition get_windowsize (secs : R) (rate : Z) : Z := Zfloor (secs * IZR rate + 1 / 1000).

(** ClusterMeltSegmenter.cpp:57-66 and 91-100; getHighestSupportedFactor() is 8, Decimator.h:57. *)
Definition factor_for (internal rate : Z) : res Z :=
  let f := Z.quot rate internal in
  let f := if f <? 1 then 1 else f in
  f <- while (Z.to_nat f) (fun f => negb (Z.land f (f - 1) =? 0)) (fun f => OK (f + 1)) f ;;
  OK (if 8 <? f then 8 else f).

(** Uninitialised arrays. *)
Definition rjunk (mem : Z -> Z -> R) (k n : Z) : list R := ztab n (mem k).
Definition cjunk (mem : Z -> Z -> R) (k n : Z) : list cplx := ztab n (fun i => (mem k (2 * i), mem k (2 * i + 1))).

(** ClusterMeltSegmenter.cpp:68-70 and 102-104: an existing decimator stays where none is made. *)
Definition make_decimator (old : option (decimator R)) (junk : R) (size f : Z) : res (option (decimator R)) :=
  if 1 <? f then d <- decimator_new 0%R Q2R junk size f ;; OK (Some d) else OK old.

(** The members changed by initialise(). *)
Definition with_rate (s : segmenter) (rate ncoeff : Z) : segmenter :=
  Segmenter (t_features s) (t_type s) rate (t_hop s) (t_bins s) ncoeff (t_states s) (t_clusters s) (t_hist s) (t_limit s) (t_result s).

(** new ConstantQ(config): the array m_CQdata has the size the constructor computes. *)
Definition cq_make (c : cqconfig) (mem : Z -> Z -> R) : res cq :=
  q <- cq_new c [] ;; cq_new c (rjunk mem 1 (2 * q_uk q)).

(** config, ClusterMeltSegmenter.cpp:72-77 and 106-109. *)
Definition cq_settings (rate fmin fmax bins f : Z) : cqconfig :=
  {| c_fs := IZR (Z.quot rate f); c_min := IZR fmin; c_max := IZR fmax; c_bpo := bins; c_thresh := 54 / 10000 |}.
Definition mfcc_settings (rate f : Z) : mfccconfig :=
  {| k_fs := Z.quot rate f; k_fftsize := 2048; k_nceps := 19; k_logpower := 1; k_want_c0 := true; k_window := Hamming |}.

(** initialise(fs), ClusterMeltSegmenter.cpp:49-112.  The objects of an earlier call are leaked. *)
Definition initialise (o : melter) (mem : Z -> Z -> R) (rate : Z) : res melter :=
  let s := u_seg o in
  match t_type s with
  | ConstQ | Chroma =>
    f <- factor_for 11025 rate ;;
    dec <- make_decimator (u_dec o) (mem 0 0) (get_windowsize (u_secs o) rate) f ;;
    q <- cq_make (cq_settings rate (u_fmin o) (u_fmax o) (t_bins s) f) mem ;;
    let n := q_len q in
    q <- sparsekernel q (rjunk mem 2 n) (rjunk mem 3 n) (rjunk mem 4 n) (rjunk mem 5 n) (cjunk mem 6 n) (cjunk mem 7 n) ;;
    t <- fftreal_new n (cjunk mem 8 (n / 2)) (cjunk mem 9 (n / 2)) (cjunk mem 10 n) ;;
    OK (Melter (with_rate s rate (q_uk q)) (u_secs o) (u_fmin o) (u_fmax o) (Some q) (u_mfcc o) dec (Some t) (u_window o))
  | Mfcc =>
    f <- factor_for 22050 rate ;;
    dec <- make_decimator (u_dec o) (mem 0 0) (get_windowsize (u_secs o) rate) f ;;
    m <- mfcc_new (mfcc_settings rate f) (cjunk mem 8 1024) (cjunk mem 9 1024) (cjunk mem 10 2048) ;;
    OK (Melter (with_rate s rate 20) (u_secs o) (u_fmin o) (u_fmax o) (u_cq o) (Some m) dec (u_fft o) (u_window o))
  | Unknown => OK (Melter (with_rate s rate (t_ncoeff s)) (u_secs o) (u_fmin o) (u_fmax o) (u_cq o) (u_mfcc o) (u_dec o) (u_fft o) (u_window o))
  end.

(** ClusterMeltSegmenter.cpp:173-183 and 261-271: the decimator, the samples to be analysed. *)
Definition decimated (dec : option (decimator R)) (mem : Z -> Z -> R) (samples : list R) : res (option (decimator R) * list R) :=
  match dec with
  | None => OK (None, samples)
  | Some d =>
    let pcount := Z.quot (zlen samples) (d_factor d) in
    '(d, out) <- decimator_block Rplus Rminus Rmult (fun x => x) (fun x => x) d samples (rjunk mem 0 pcount) ;;
    OK (Some d, out)
  end.

(** ClusterMeltSegmenter.cpp:202-208 and 284-290. *)
Definition fill_frame (p : list R) (origin n : Z) (frame : list R) : res (list R) :=
  for_up 0 n (fun i frame =>
    if origin + i <? zlen p then v <- aget p (origin + i) ;; aset frame i v else aset frame i 0%R) frame.

(** The loop over the frames, ClusterMeltSegmenter.cpp:196-227 and 278-299: [step] handles the frame at an origin;
    the flag says that the loop was left by break. *)
Definition over_frames {S} (step : Z -> S -> res S) (pcount n : Z) (s : S) : res (Z * S) :=
  '(_, frames, s, _) <- while (Z.to_nat (pcount + 2))
    (fun '(origin, _, _, stop) => (origin <=? pcount) && negb stop)
    (fun '(origin, frames, s, _) =>
      if (0 <? origin) && (pcount <=? origin + n) then OK (origin, frames, s, true)
      else s <- step origin s ;; OK (origin + Z.quot n 2, frames + 1, s, false))
    (0, 0, s, false) ;;
  OK (frames, s).

(** Division of the sums, ClusterMeltSegmenter.cpp:235-237 and 304-306. *)
Definition averaged (ncoeff frames : Z) (v : list R) : res (list R) :=
  for_up 0 ncoeff (fun i v => x <- aget v i ;; aset v i (x / IZR frames)%R) v.

(** features.push_back. *)
Definition pushed (s : segmenter) (v : list R) : segmenter :=
  Segmenter (t_features s ++ [v]) (t_type s) (t_rate s) (t_hop s) (t_bins s) (t_ncoeff s) (t_states s) (t_clusters s) (t_hist s) (t_limit s) (t_result s).

(** One frame, ClusterMeltSegmenter.cpp:202-224. *)
Definition constq_frame (q : cq) (w p : list R) (ncoeff n : Z) (origin : Z)
    '(t, frame, real, imag, cre, cim, sums) : res (fftreal * list R * list R * list R * list R * list R * list R) :=
  frame <- fill_frame p origin n frame ;;
  frame <- swap_halves (Z.quot n 2) frame ;;
  frame <- cut_in_place w n frame ;;
  '(t, real, imag) <- fftreal_forward t frame real imag ;;
  '(cre, cim) <- cq_process q real imag cre cim ;;
  sums <- for_up 0 ncoeff (fun i sums => s <- aget sums i ;; x <- aget cre i ;; y <- aget cim i ;; aset sums i (s + sqrt (x * x + y * y))%R) sums ;;
  OK (t, frame, real, imag, cre, cim, sums).

(** extractFeaturesConstQ, ClusterMeltSegmenter.cpp:145-238. *)
Definition extract_constq (o : melter) (mem : Z -> Z -> R) (samples : list R) : res melter :=
  let s := u_seg o in
  match u_cq o with
  | None => OK o
  | Some q =>
    if zlen samples <? get_windowsize (u_secs o) (t_rate s) then OK o else
    let n := q_len q in
    w <- (match u_window o with
          | Some w => if zlen w =? n then OK w else encache Hamming n
          | None => encache Hamming n
          end) ;;
    '(dec, p) <- decimated (u_dec o) mem samples ;;
    match u_fft o with
    | None => UB
    | Some t =>
      '(frames, (t, _, _, _, _, _, sums)) <- over_frames (constq_frame q w p (t_ncoeff s) n) (zlen p) n
        (t, rjunk mem 1 n, rjunk mem 2 n, rjunk mem 3 n, rjunk mem 4 (t_ncoeff s), rjunk mem 5 (t_ncoeff s), repeat 0%R (Z.to_nat (t_ncoeff s))) ;;
      v <- averaged (t_ncoeff s) frames sums ;;
      OK (Melter (pushed s v) (u_secs o) (u_fmin o) (u_fmax o) (u_cq o) (u_mfcc o) dec (Some t) (Some w))
    end
  end.

(** One frame, ClusterMeltSegmenter.cpp:284-296; [jin]: the uninitialised inputData of MFCC::process. *)
Definition mfcc_frame (p : list R) (jin : list R) (ncoeff n : Z) (origin : Z) '(m, frame, out, sums) : res (mfcc * list R * list R * list R) :=
  frame <- fill_frame p origin n frame ;;
  '(m, out, _) <- mfcc_time m jin frame out ;;
  sums <- for_up 0 ncoeff (fun i sums => s <- aget sums i ;; x <- aget out i ;; aset sums i (s + x)%R) sums ;;
  OK (m, frame, out, sums).

(** extractFeaturesMFCC, ClusterMeltSegmenter.cpp:240-311. *)
Definition extract_mfcc (o : melter) (mem : Z -> Z -> R) (samples : list R) : res melter :=
  let s := u_seg o in
  match u_mfcc o with
  | None => OK o
  | Some m =>
    if zlen samples <? get_windowsize (u_secs o) (t_rate s) then OK o else
    let n := m_fftsize m in
    '(dec, p) <- decimated (u_dec o) mem samples ;;
    '(frames, (m, _, _, sums)) <- over_frames (mfcc_frame p (rjunk mem 1 n) (t_ncoeff s) n) (zlen p) n
      (m, rjunk mem 2 n, rjunk mem 3 (t_ncoeff s), repeat 0%R (Z.to_nat (t_ncoeff s))) ;;
    v <- averaged (t_ncoeff s) frames sums ;;
    OK (Melter (pushed s v) (u_secs o) (u_fmin o) (u_fmax o) (u_cq o) (Some m) dec (u_fft o) (u_window o))
  end.

(** extractFeatures, ClusterMeltSegmenter.cpp:135-143. *)
Definition extract (o : melter) (mem : Z -> Z -> R) (samples : list R) : res melter :=
  match t_type (u_seg o) with
  | ConstQ | Chroma => extract_constq o mem samples
  | Mfcc => extract_mfcc o mem samples
  | Unknown => OK o
  end.

(** segment(), ClusterMeltSegmenter.cpp:325-332 and then as in SegModel.v. *)
Definition melter_segment junk junkZ rnd1 rnd2 sfmin pca (o : melter) : res melter :=
  s <- segment junk junkZ rnd1 rnd2 sfmin pca (u_seg o) ;;
  OK (Melter s (u_secs o) (u_fmin o) (u_fmax o) None None None (u_fft o) (u_window o)).
