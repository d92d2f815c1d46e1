(** Model of dsp/tonal/TonalEstimator.{h,cpp}, TCSgram.{h,cpp} and ChangeDetectionFunction.{h,cpp} over
    exact reals.  A valarray is a list; an index outside it is [UB].  pow(x, 2.0) is the square and
    pow(x, 0.5) of a value that is not negative the square root.  printDebug is not modelled, and
    normalize of TCSgram.h has no body in the library. *)
From Coq Require Import List ZArith Reals Bool.
From Verif.Base Require Import Imp RealOps.
Import ListNotations.
Open Scope Z_scope.

(** *** ChromaVector and TCSVector *)
(** ChromaVector::normalizeL1, TonalEstimator.h:40-46. *)
Definition normalizeL1 (c : list R) : res (list R) :=
  dSum <- for_up 0 12 (fun i dSum => x <- aget c i ;; OK (dSum + Rabs x)%R) 0%R ;;
  for_up 0 12 (fun i c =>
    if Rltb 0.0000001 dSum then x <- aget c i ;; aset c i (x / dSum)%R
    else aset c i 0%R) c.

(** ChromaVector::clear, TonalEstimator.h:48-50. *)
Definition chroma_clear (c : list R) : res (list R) := for_up 0 12 (fun i c => aset c i 0%R) c.

(** TCSVector(), TonalEstimator.h:56-58. *)
Definition tcs_new : list R := repeat 0%R 6.

(** TCSVector::magnitude, TonalEstimator.h:69-77. *)
Definition magnitude (v : list R) : res R :=
  dMag <- for_up 0 6 (fun i dMag => x <- aget v i ;; OK (dMag + x ^ 2)%R) 0%R ;;
  OK (sqrt dMag).

(** *** TonalEstimator *)
Definition basis_row (f : Z -> R) : res (list R) :=
  for_up 0 12 (fun iP row => aset row iP (f iP)) (repeat 0%R 12).

(** Constructor, TonalEstimator.cpp:21-73. *)
Definition tonal_new : res (list (list R)) :=
  b0 <- basis_row (fun iP => sin ((7.0 / 6.0) * IZR iP * PI))%R ;;
  b1 <- basis_row (fun iP => cos ((7.0 / 6.0) * IZR iP * PI))%R ;;
  b2 <- basis_row (fun iP => 0.6 * sin ((2.0 / 3.0) * IZR iP * PI))%R ;;
  b3 <- basis_row (fun iP => 0.6 * cos ((2.0 / 3.0) * IZR iP * PI))%R ;;
  b4 <- basis_row (fun iP => 1.1 * sin ((3.0 / 2.0) * IZR iP * PI))%R ;;
  b5 <- basis_row (fun iP => 1.1 * cos ((3.0 / 2.0) * IZR iP * PI))%R ;;
  OK [b0; b1; b2; b3; b4; b5].

(** transform2TCS, TonalEstimator.cpp:79-91. *)
Definition transform2TCS (basis : list (list R)) (c : list R) : res (list R) :=
  for_up 0 6 (fun i v =>
    for_up 0 12 (fun iP v =>
      row <- aget basis i ;; b <- aget row iP ;; x <- aget c iP ;;
      y <- aget v i ;; aset v i (y + b * x)%R) v) tcs_new.

(** *** TCSGram *)
(** static_cast<long> of a double: towards zero; outside the range of a 64-bit long it is undefined. *)
Definition to_long (x : R) : res Z :=
  let z := if Rltb x 0 then - Zfloor (- x) else Zfloor x in
  if (- 2 ^ 63 <=? z) && (z <? 2 ^ 63) then OK z else UB.

(** TCSgram.h:27-51: the frames with their times, and m_dFrameDurationMS.  m_uNumBins is never read. *)
Record gram := { g_list : list (Z * list R); g_dur : R }.

(** TCSGram(), TCSgram.cpp:25-28; m_dFrameDurationMS is left with whatever the memory held. *)
Definition gram_new (junk : R) : gram := {| g_list := []; g_dur := junk |}.
(** setFrameDuration and clear, TCSgram.h:39-42. *)
Definition set_duration (g : gram) (d : R) : gram := {| g_list := g_list g; g_dur := d |}.
Definition gram_clear (g : gram) : gram := {| g_list := []; g_dur := g_dur g |}.

(** getTCSVector, TCSgram.cpp:35-44. *)
Definition get_vec (g : gram) (i : Z) : res (list R) :=
  if i <? 0 then OK tcs_new
  else if zlen (g_list g) <=? i then OK tcs_new
  else p <- aget (g_list g) i ;; OK (snd p).

(** getTime, TCSgram.cpp:46-49. *)
Definition get_time (g : gram) (i : Z) : res Z := p <- aget (g_list g) i ;; OK (fst p).

(** addTCSVector, TCSgram.cpp:52-61. *)
Definition add_vec (g : gram) (v : list R) : res gram :=
  ms <- to_long (IZR (zlen (g_list g)) * g_dur g)%R ;;
  OK {| g_list := g_list g ++ [(ms, v)]; g_dur := g_dur g |}.

(** getDuration, TCSgram.cpp:63-67. *)
Definition get_duration (g : gram) : res Z := to_long (IZR (zlen (g_list g)) * g_dur g)%R.

(** *** ChangeDetectionFunction *)
(** m_iFilterWidth and m_vaGaussian. *)
Record cdf := { f_width : Z; f_gauss : list R }.

(** Constructor and setFilterWidth, ChangeDetectionFunction.cpp:18-21 and 28-48; resizing to a negative
    width throws. *)
Definition cdf_new (smoothingWidth : Z) : res cdf :=
  let width := smoothingWidth * 2 + 1 in
  let sigma := (IZR width / (2 * 2.3548))%R in
  if width <? 0 then Throw else
  let dScale := (1.0 / (sigma * sqrt (2 * PI)))%R in
  let half := Z.quot (width - 1) 2 in
  g <- for_up (- half) (half + 1) (fun x g =>
         let w := (dScale * exp (IZR (- (x * x)) / (2 * sigma * sigma)))%R in
         aset g (x + half) w) (repeat 0%R (Z.to_nat width)) ;;
  OK {| f_width := width; f_gauss := g |}.

(** The smoothed frame at iPosition, ChangeDetectionFunction.cpp:58-92. *)
Definition smooth_frame (o : cdf) (g : gram) (pos : Z) : res (list R) :=
  let n := zlen (g_list g) in
  let half := Z.quot (f_width o - 1) 2 in
  let lower := pos - half in
  let upper := pos + half in
  let '(skip, lower) := if lower <? 0 then (- lower, 0) else (0, lower) in
  let upper := if n <=? upper then n - 1 else upper in
  for_up 0 6 (fun pc sv =>
    '(j, s) <- for_up lower (upper + 1) (fun i '(j, s) =>
       v <- get_vec g i ;;
       w <- aget (f_gauss o) (skip + j) ;;
       x <- aget v pc ;;
       OK (j + 1, (s + w * x)%R)) (0, 0%R) ;;
    aset sv pc s) tcs_new.

(** process, ChangeDetectionFunction.cpp:51-133; [junk] is the uninitialised frame duration of the local
    TCSGram. *)
Definition change_process (o : cdf) (g : gram) (junk : R) : res (list R) :=
  let n := zlen (g_list g) in
  sm <- for_up 0 n (fun pos sm => v <- smooth_frame o g pos ;; add_vec sm v) (gram_new junk) ;;
  for_up 0 n (fun pos out =>
    prev <- get_vec sm (pos - 1) ;;
    next <- get_vec sm (pos + 1) ;;
    d <- for_up 0 6 (fun j d => a <- aget next j ;; b <- aget prev j ;; OK (d + (a - b) ^ 2)%R) 0%R ;;
    aset out pos (sqrt d)) (repeat 0%R (Z.to_nat n)).

(** A client: the frames of a piece added one after another. *)
Fixpoint add_all (g : gram) (vs : list (list R)) : res gram :=
  match vs with [] => OK g | v :: vs => g <- add_vec g v ;; add_all g vs end.
