(** Model of dsp/signalconditioning/DFProcess.{h,cpp} and of dsp/onsets/PeakPicking.cpp with infinities and NaN:
    what DFProcess does with data that are 0 throughout, and afterwards.  Input data are finite; all else is
    of type [xr], reals with infinities and NaN (no rounding, no overflow).  On data that are not all 0 this is PeakModel
    (DfxProofs.v, [dfx_finite]). *)
From Coq Require Import List ZArith Reals Lia Bool.
From Verif.Base Require Import Imp RealOps Xreal.
From Verif.Signal Require Import FilterModel FiltFiltModel.
From Verif.Maths Require Import RealModel NormModel.
From Verif.Onset Require Import PeakModel.
Import ListNotations.
Open Scope Z_scope.

Definition is_nan (x : xr) : bool := match x with NaN => true | _ => false end.

(** std::sort, MathUtilities.cpp:90.  Insertion sort stands for it when there is no NaN.  Values that are all NaN are
    equivalent under < and are left.  A mixture does not meet the requirements of std::sort: undefined. *)
Fixpoint xinsert (x : xr) (l : list xr) : list xr :=
  match l with
  | [] => [x]
  | y :: t => if xlt y x then y :: xinsert x t else x :: l
  end.
Definition xsort (l : list xr) : res (list xr) :=
  if forallb is_nan l then OK l else if existsb is_nan l then UB else OK (fold_right xinsert [] l).

(** median, MathUtilities.cpp:84-98. *)
Definition xmedian (src : list xr) (len : Z) : res xr :=
  if len =? 0 then OK (Fin 0) else
  scratch <- for_up 0 len (fun i s => v <- aget src i ;; OK (s ++ [v])) [] ;;
  scratch <- xsort scratch ;;
  let middle := Z.quot len 2 in
  if Z.rem len 2 =? 0 then
    u <- aget scratch middle ;; v <- aget scratch (middle - 1) ;; OK (xdiv (xadd u v) (Fin 2))
  else aget scratch middle.

(** Members as in PeakModel.dfp, DFProcess.h:66-86. *)
Record dfx := mkDfx {
  dx_length : Z; dx_pre : Z; dx_post : Z; dx_alpha : Z; dx_positive : bool; dx_delta : R;
  dx_src : list xr; dx_dst : list xr; dx_filter : filtfilt xr }.

(** DFProcess::initialise, DFProcess.cpp:52-76. *)
Definition dfx_new (length : Z) (a b : list R) (pre post alpha : Z) (positive : bool) (delta : R) (junk : Z -> R) : res dfx :=
  f <- filtfilt_new (Fin 0) (map Fin a) (map Fin b) ;;
  OK {| dx_length := length; dx_pre := pre; dx_post := post; dx_alpha := alpha; dx_positive := positive;
        dx_delta := delta; dx_src := ztab length (fun i => Fin (junk i)); dx_dst := ztab length (fun i => Fin (junk i)); dx_filter := f |}.

(** DFProcess::removeDCNormalize, DFProcess.cpp:179-192. *)
Definition remove_dcx (length alpha : Z) (src : list R) (dst : list xr) : res (list xr) :=
  '(mn, _) <- getFrameMinMax src length ;;
  norm <- getAlphaNorm src length alpha ;;
  for_up 0 length (fun i dst => v <- aget src i ;; aset dst i (xdiv (Fin (v - mn)) (Fin norm))) dst.

(** DFProcess::medianFilter, DFProcess.cpp:99-176, as PeakModel.median_filter. *)
Definition median_filterx (o : dfx) (scratch src dst : list xr) : res (list xr) :=
  let L := dx_length o in let P := dx_pre o in let Q := dx_post o in
  let y := repeat (Fin 0) (Z.to_nat (Q + P + 1)) in
  (* 111-124 *)
  '(index, scratch, y) <- for_up 0 P (fun i '(index, scratch, y) =>
    if L <=? index then OK (index, scratch, y) else
    let k := i + Q + 1 in
    y <- for_up 0 k (fun j y => v <- aget src j ;; aset y j v) y ;;
    m <- xmedian y k ;;
    scratch <- aset scratch index m ;;
    OK (index + 1, scratch, y)) (0, scratch, y) ;;
  (* 126-141 *)
  '(index, scratch, y) <- for_up 0 (L - Q - P) (fun i '(index, scratch, y) =>
    if L <=? index then OK (index, scratch, y) else
    '(_, y) <- for_up i (i + Q + P + 1) (fun j '(l, y) => v <- aget src j ;; y <- aset y l v ;; OK (l + 1, y)) (0, y) ;;
    m <- xmedian y (Q + P + 1) ;;
    scratch <- aset scratch index m ;;
    OK (index + 1, scratch, y)) (index, scratch, y) ;;
  (* 143-159 *)
  '(_, scratch, _) <- for_up (Z.max (L - Q) 1) L (fun i '(index, scratch, y) =>
    if L <=? index then OK (index, scratch, y) else
    let k := Z.max (i - P) 1 in
    '(l, y) <- for_up k L (fun j '(l, y) => v <- aget src j ;; y <- aset y l v ;; OK (l + 1, y)) (0, y) ;;
    m <- xmedian y l ;;
    scratch <- aset scratch index m ;;
    OK (index + 1, scratch, y)) (index, scratch, y) ;;
  (* 161-175 *)
  for_up 0 L (fun i dst =>
    v <- aget src i ;; s <- aget scratch i ;;
    let val := xsub (xsub v s) (Fin (dx_delta o)) in
    if dx_positive o then aset dst i (if xlt (Fin 0) val then val else Fin 0) else aset dst i val) dst.

(** DFProcess::process, DFProcess.cpp:87-96; [scratch] is the uninitialised new array. *)
Definition dfx_process (o : dfx) (scratch : list R) (src : list R) (dst : list xr) : res (dfx * list xr) :=
  if dx_length o =? 0 then OK (o, dst) else
  fs <- remove_dcx (dx_length o) (dx_alpha o) src (dx_src o) ;;
  '(f, fd) <- filtfilt_process (Fin 0) (Fin 2) xadd xsub xmul (dx_filter o) fs (dx_dst o) (dx_length o) ;;
  dst <- median_filterx o (map Fin scratch) fd dst ;;
  OK ({| dx_length := dx_length o; dx_pre := dx_pre o; dx_post := dx_post o; dx_alpha := dx_alpha o;
         dx_positive := dx_positive o; dx_delta := dx_delta o; dx_src := fs; dx_dst := fd; dx_filter := f |}, dst).

(** A client's sequence of calls on one object, as PeakModel.dfp_calls. *)
Fixpoint dfx_calls (o : dfx) (calls : list (list R * list R * list xr)) : res (list (list xr)) :=
  match calls with
  | [] => OK []
  | (scratch, src, dst) :: rest =>
      '(o, d) <- dfx_process o scratch src dst ;;
      ds <- dfx_calls o rest ;; OK (d :: ds)
  end.

(** *** PeakPicking *)
(** Members as in PeakModel.ppick, PeakPicking.h:98-107. *)
Record ppx := mkPpx { px_length : Z; px_a : R; px_c : R; px_work : list xr; px_smooth : dfx }.

(** PeakPicking::initialise, PeakPicking.cpp:46-70. *)
Definition ppx_new (length : Z) (a b : list R) (pre post alpha : Z) (delta qa qc : R) (junk : Z -> R) : res ppx :=
  s <- dfx_new length a b pre post alpha false delta junk ;;
  OK {| px_length := length; px_a := qa; px_c := qc; px_work := repeat (Fin 0) (Z.to_nat length); px_smooth := s |}.

(** PeakPicking::quadEval, PeakPicking.cpp:99-151.  Finite data: PeakModel.quad_eval.  Otherwise the search for maxima
    (lines 119-126) is carried out; fitting parabolas to maxima among values that are not finite is not modelled ([UB]). *)
Definition quad_evalx (qa qc : R) (src : list xr) (idx : list Z) : res (list Z) :=
  if forallb (fun x => match x with Fin _ => true | _ => false end) src then quad_eval qa qc (map xval src) idx else
  maxIndex <- for_up 2 (zlen src - 2) (fun i acc =>
    v <- aget src i ;; u <- aget src (i - 1) ;; w <- aget src (i + 1) ;;
    OK (if xlt u v && xlt w v && xlt (Fin 0) v then acc ++ [i] else acc)) [] ;;
  match maxIndex with [] => OK idx | _ => UB end.

(** PeakPicking::process, PeakPicking.cpp:79-97: object, data and onsets afterwards. *)
Definition ppx_process (o : ppx) (scratch src : list R) (len : Z) (onsets : list Z) : res (ppx * list xr * list Z) :=
  if len <? 4 then OK (o, map Fin src, onsets) else
  '(s, work) <- dfx_process (px_smooth o) scratch src (px_work o) ;;
  maxima <- for_up 0 len (fun i acc => v <- aget work i ;; OK (acc ++ [v])) [] ;;
  onsets <- quad_evalx (px_a o) (px_c o) maxima onsets ;;
  src <- for_up 0 (zlen maxima) (fun b src => v <- aget maxima b ;; aset src b v) (map Fin src) ;;
  OK ({| px_length := px_length o; px_a := px_a o; px_c := px_c o; px_work := work; px_smooth := s |}, src, onsets).
