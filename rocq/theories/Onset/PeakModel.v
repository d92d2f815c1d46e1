(** Model of dsp/signalconditioning/DFProcess.{h,cpp} and dsp/onsets/PeakPicking.{h,cpp}, double
    replaced by exact reals. *)
From Coq Require Import List ZArith Reals Lia Bool.
From Verif.Base Require Import Imp RealOps.
From Verif.Signal Require Import FilterModel FiltFiltModel.
From Verif.Maths Require Import RealModel NormModel.
From Verif.Polyfit Require Import PolyModel.
Import ListNotations.
Open Scope Z_scope.

(** *** DFProcess *)

(** Members of DFProcess that are used, DFProcess.h:66-86.  (m_FFOrd and the two m_filtScratch
    pointers are only set to 0 / NULL and deleted.) *)
Record dfp := mkDfp {
  df_length : Z; df_pre : Z; df_post : Z; df_alpha : Z; df_positive : bool; df_delta : R;
  df_src : list R; df_dst : list R; df_filter : filtfilt R }.

(** DFProcess::initialise, DFProcess.cpp:52-76.  [a] and [b] are the LPOrd + 1 coefficients at
    LPACoeffs and LPBCoeffs; [junk] the indeterminate contents of the new arrays.  The parameter of
    the norm is kept as a double and converted to int when passed to getAlphaNorm. *)
Definition dfp_new (length : Z) (a b : list R) (pre post alpha : Z) (positive : bool) (delta : R) (junk : Z -> R) : res dfp :=
  f <- filtfilt_new 0%R a b ;;
  OK {| df_length := length; df_pre := pre; df_post := post; df_alpha := alpha; df_positive := positive;
        df_delta := delta; df_src := ztab length junk; df_dst := ztab length junk; df_filter := f |}.

(** DFProcess::removeDCNormalize, DFProcess.cpp:179-192.  An input of which all values are 0 makes
    the norm 0 and the quotients NaN; this is not modelled, and shows as [UB]. *)
Definition remove_dc_normalize (length alpha : Z) (src dst : list R) : res (list R) :=
  '(mn, _) <- getFrameMinMax src length ;;
  norm <- getAlphaNorm src length alpha ;;
  if Reqb norm 0 then UB else
  for_up 0 length (fun i dst => v <- aget src i ;; aset dst i ((v - mn) / norm)%R) dst.

(** DFProcess::medianFilter, DFProcess.cpp:99-176.  [scratch] enters with indeterminate contents.
    The three breaks at index >= m_length are written as skipping the rest. *)
Definition median_filter (o : dfp) (scratch src dst : list R) : res (list R) :=
  let L := df_length o in let P := df_pre o in let Q := df_post o in
  let y := repeat 0%R (Z.to_nat (Q + P + 1)) in
  (* 111-124 *)
  '(index, scratch, y) <- for_up 0 P (fun i '(index, scratch, y) =>
    if L <=? index then OK (index, scratch, y) else
    let k := i + Q + 1 in
    y <- for_up 0 k (fun j y => v <- aget src j ;; aset y j v) y ;;
    m <- median_ y k ;;
    scratch <- aset scratch index m ;;
    OK (index + 1, scratch, y)) (0, scratch, y) ;;
  (* 126-141: for (i = 0; i + m_winPost + m_winPre < m_length; i++) *)
  '(index, scratch, y) <- for_up 0 (L - Q - P) (fun i '(index, scratch, y) =>
    if L <=? index then OK (index, scratch, y) else
    '(_, y) <- for_up i (i + Q + P + 1) (fun j '(l, y) => v <- aget src j ;; y <- aset y l v ;; OK (l + 1, y)) (0, y) ;;
    m <- median_ y (Q + P + 1) ;;
    scratch <- aset scratch index m ;;
    OK (index + 1, scratch, y)) (index, scratch, y) ;;
  (* 143-159 *)
  '(_, scratch, _) <- for_up (Z.max (L - Q) 1) L (fun i '(index, scratch, y) =>
    if L <=? index then OK (index, scratch, y) else
    let k := Z.max (i - P) 1 in
    '(l, y) <- for_up k L (fun j '(l, y) => v <- aget src j ;; y <- aset y l v ;; OK (l + 1, y)) (0, y) ;;
    m <- median_ y l ;;
    scratch <- aset scratch index m ;;
    OK (index + 1, scratch, y)) (index, scratch, y) ;;
  (* 161-175 *)
  for_up 0 L (fun i dst =>
    v <- aget src i ;; s <- aget scratch i ;;
    let val := (v - s - df_delta o)%R in
    if df_positive o then aset dst i (if Rltb 0 val then val else 0%R) else aset dst i val) dst.

(** DFProcess::process, DFProcess.cpp:87-96; [scratch] is the uninitialised new array. *)
Definition dfp_process (o : dfp) (scratch src dst : list R) : res (dfp * list R) :=
  if df_length o =? 0 then OK (o, dst) else
  fs <- remove_dc_normalize (df_length o) (df_alpha o) src (df_src o) ;;
  '(f, fd) <- filtfilt_process 0%R 2%R Rplus Rminus Rmult (df_filter o) fs (df_dst o) (df_length o) ;;
  dst <- median_filter o scratch fd dst ;;
  OK ({| df_length := df_length o; df_pre := df_pre o; df_post := df_post o; df_alpha := df_alpha o;
         df_positive := df_positive o; df_delta := df_delta o; df_src := fs; df_dst := fd; df_filter := f |}, dst).

(** *** PeakPicking *)

(** Members used, PeakPicking.h:98-107 (Qfiltb is never read). *)
Record ppick := mkPpick { pp_length : Z; pp_a : R; pp_c : R; pp_work : list R; pp_smooth : dfp }.

(** PeakPicking::initialise, PeakPicking.cpp:46-70. *)
Definition pp_new (length : Z) (a b : list R) (pre post alpha : Z) (delta qa qc : R) (junk : Z -> R) : res ppick :=
  s <- dfp_new length a b pre post alpha false delta junk ;;
  OK {| pp_length := length; pp_a := qa; pp_c := qc; pp_work := repeat 0%R (Z.to_nat length); pp_smooth := s |}.

(** PeakPicking::quadEval, PeakPicking.cpp:99-151. *)
Definition quad_eval (qa qc : R) (src : list R) (idx : list Z) : res (list Z) :=
  let poly := [0; 0; 0]%R in
  let err := map IZR [-2; -1; 0; 1; 2] in
  maxIndex <- for_up 2 (zlen src - 2) (fun i acc =>
    v <- aget src i ;; u <- aget src (i - 1) ;; w <- aget src (i + 1) ;;
    OK (if Rltb u v && Rltb w v && Rltb 0 v then acc ++ [i] else acc)) [] ;;
  '(idx, _) <- for_up 0 (zlen maxIndex) (fun j '(idx, poly) =>
    maxFit <- for_up (-2) 3 (fun k acc => m <- aget maxIndex j ;; selMax <- aget src (m + k) ;; OK (acc ++ [selMax])) [] ;;
    '(_, poly) <- polyfit2 err maxFit poly ;;
    f <- aget poly 0 ;; h <- aget poly 2 ;;
    if Rltb h (- qa) || Rltb qc f then m <- aget maxIndex j ;; OK (idx ++ [m], poly) else OK (idx, poly)) (idx, poly) ;;
  OK idx.

(** PeakPicking::process, PeakPicking.cpp:79-97: object, data and onsets afterwards. *)
Definition pp_process (o : ppick) (scratch src : list R) (len : Z) (onsets : list Z) : res (ppick * list R * list Z) :=
  if len <? 4 then OK (o, src, onsets) else
  '(s, work) <- dfp_process (pp_smooth o) scratch src (pp_work o) ;;
  maxima <- for_up 0 len (fun i acc => v <- aget work i ;; OK (acc ++ [v])) [] ;;
  onsets <- quad_eval (pp_a o) (pp_c o) maxima onsets ;;
  src <- for_up 0 (zlen maxima) (fun b src => v <- aget maxima b ;; aset src b v) src ;;
  OK ({| pp_length := pp_length o; pp_a := pp_a o; pp_c := pp_c o; pp_work := work; pp_smooth := s |}, src, onsets).

(** A client's sequence of DFProcess::process calls on one object: for each, the uninitialised
    scratch array, the input and the output buffer.  Returns the output buffers. *)
Fixpoint dfp_calls (o : dfp) (calls : list (list R * list R * list R)) : res (list (list R)) :=
  match calls with
  | [] => OK []
  | (scratch, src, dst) :: rest =>
      '(o, d) <- dfp_process o scratch src dst ;;
      ds <- dfp_calls o rest ;; OK (d :: ds)
  end.
