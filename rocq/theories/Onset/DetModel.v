(** Model of dsp/onsets/DetectionFunction.{h,cpp} over exact reals, on top of the models of Window and
    PhaseVocoder.  Destruction is not modelled; allocation succeeds. *)
From Coq Require Import List ZArith Reals Bool.
From Verif.Base Require Import Imp RealOps.
From Verif.Maths Require Import RealModel.
From Verif.Fft Require Import Cplx.
From Verif.Windows Require Import WindowModel.
From Verif.Vocoder Require Import PvModel.
Import ListNotations.
Open Scope Z_scope.

(** DetectionFunction.h:29-37. *)
Record dfconfig := { c_step : Z; c_frame : Z; c_type : Z; c_rise : R; c_whiten : bool; c_relax : R; c_floor : R }.

(** DetectionFunction.h:74-93; m_stepSize is only handed to the phase vocoder. *)
Record dfun := { d_type : Z; d_n : Z; d_half : Z; d_rise : R; d_whiten : bool; d_relax : R; d_floor : R;
  d_mag_hist : list R; d_phase_hist : list R; d_phase_old : list R; d_peaks : list R;
  d_windowed : list R; d_mag : list R; d_theta : list R; d_unwrapped : list R; d_window : list R; d_pv : pv }.

(** Uninitialised storage of the new arrays and of those in the phase vocoder. *)
Record dfjunk := { k1 : list cplx; k2 : list cplx; kc : list cplx; kt : list R; kr : list R; ki : list R;
  kmag : list R; ktheta : list R; kun : list R; kwin : list R }.

(** Constructor and initialise, DetectionFunction.cpp:23-33 and 40-75. *)
Definition df_new (c : dfconfig) (j : dfjunk) : res dfun :=
  let n := c_frame c in
  let half := Z.quot n 2 + 1 in
  let relax := if Rltb (c_relax c) 0 then 0.9997%R else c_relax c in
  let floor := if Rltb (c_floor c) 0 then 0.01%R else c_floor c in
  let zeros := repeat 0%R (Z.to_nat half) in
  v <- pv_new n (c_step c) (k1 j) (k2 j) (kc j) (kt j) (kr j) (ki j) ;;
  w <- encache Hanning n ;;
  OK {| d_type := c_type c; d_n := n; d_half := half; d_rise := c_rise c; d_whiten := c_whiten c;
        d_relax := relax; d_floor := floor; d_mag_hist := zeros; d_phase_hist := zeros; d_phase_old := zeros;
        d_peaks := zeros; d_windowed := kwin j; d_mag := kmag j; d_theta := ktheta j; d_unwrapped := kun j;
        d_window := w; d_pv := v |}.

(** whiten, DetectionFunction.cpp:117-128: m_magPeaks and m_magnitude.  A quotient 0/0 shows as [UB]. *)
Definition whiten (half : Z) (relax floor : R) (peaks mag : list R) : res (list R * list R) :=
  for_up 0 half (fun i '(peaks, mag) =>
    m <- aget mag i ;;
    p <- aget peaks i ;;
    let m := if Rltb m p then (m + (p - m) * relax)%R else m in
    let m := if Rltb m floor then floor else m in
    peaks <- aset peaks i m ;;
    x <- aget mag i ;;
    if Reqb m 0 then UB else
    mag <- aset mag i (x / m)%R ;;
    OK (peaks, mag)) (peaks, mag).

(** HFC, DetectionFunction.cpp:164-171. *)
Definition df_hfc (len : Z) (src : list R) : res R :=
  for_up 0 len (fun i val => s <- aget src i ;; OK (val + s * IZR (i + 1))%R) 0%R.

(** specDiff, DetectionFunction.cpp:173-192. *)
Definition df_specdiff (len : Z) (src hist : list R) : res (R * list R) :=
  for_up 0 len (fun i '(val, hist) =>
    s <- aget src i ;; h <- aget hist i ;;
    let temp := Rabs (s * s - h * h) in
    hist <- aset hist i s ;;
    OK (val + sqrt temp, hist)%R) (0%R, hist).

(** phaseDev, DetectionFunction.cpp:196-224: value, m_phaseHistory, m_phaseHistoryOld. *)
Definition df_phasedev (len : Z) (src hist old : list R) : res (R * list R * list R) :=
  for_up 0 len (fun i '(val, hist, old) =>
    s <- aget src i ;; h <- aget hist i ;; o <- aget old i ;;
    let dev := princarg (s - 2 * h + o)%R in
    old <- aset old i h ;;
    hist <- aset hist i s ;;
    OK (val + Rabs dev, hist, old)%R) (0%R, hist, old).

(** complexSD, DetectionFunction.cpp:227-256: value, m_magHistory, m_phaseHistory, m_phaseHistoryOld. *)
Definition df_complexsd (len : Z) (mag src mhist hist old : list R) : res (R * list R * list R * list R) :=
  for_up 0 len (fun i '(val, mhist, hist, old) =>
    s <- aget src i ;; h <- aget hist i ;; o <- aget old i ;;
    let dev := princarg (s - 2 * h + o)%R in
    mh <- aget mhist i ;; m <- aget mag i ;;
    let re := (mh - m * cos dev)%R in
    let im := (- (m * sin dev))%R in
    old <- aset old i h ;;
    hist <- aset hist i s ;;
    mhist <- aset mhist i m ;;
    OK (val + sqrt (re * re + im * im), mhist, hist, old)%R) (0%R, mhist, hist, old).

(** [10.0 * log10(q) > rise]; the logarithm of 0 is minus infinity, which exceeds no threshold. *)
Definition db_over (q rise : R) : bool := if Rltb 0 q then Rltb rise (10 * (ln q / ln 10))%R else false.

(** broadband, DetectionFunction.cpp:258-270. *)
Definition df_broadband (len : Z) (rise : R) (src hist : list R) : res (R * list R) :=
  for_up 0 len (fun i '(val, hist) =>
    s <- aget src i ;;
    let sqrmag := (s * s)%R in
    h <- aget hist i ;;
    let val := if Rltb 0 h then (if db_over (sqrmag / h) rise then (val + 1)%R else val) else val in
    hist <- aset hist i sqrmag ;;
    OK (val, hist)) (0%R, hist).

Definition set_hist (o : dfun) (mh ph po : list R) : dfun :=
  {| d_type := d_type o; d_n := d_n o; d_half := d_half o; d_rise := d_rise o; d_whiten := d_whiten o;
     d_relax := d_relax o; d_floor := d_floor o; d_mag_hist := mh; d_phase_hist := ph; d_phase_old := po;
     d_peaks := d_peaks o; d_windowed := d_windowed o; d_mag := d_mag o; d_theta := d_theta o;
     d_unwrapped := d_unwrapped o; d_window := d_window o; d_pv := d_pv o |}.

(** runDF, DetectionFunction.cpp:130-162. *)
Definition run_df (o : dfun) : res (dfun * R) :=
  let h := d_half o in
  if d_type o =? 1 then v <- df_hfc h (d_mag o) ;; OK (o, v)
  else if d_type o =? 2 then
    '(v, mh) <- df_specdiff h (d_mag o) (d_mag_hist o) ;; OK (set_hist o mh (d_phase_hist o) (d_phase_old o), v)
  else if d_type o =? 3 then
    '(v, ph, po) <- df_phasedev h (d_theta o) (d_phase_hist o) (d_phase_old o) ;; OK (set_hist o (d_mag_hist o) ph po, v)
  else if d_type o =? 4 then
    '(v, mh, ph, po) <- df_complexsd h (d_mag o) (d_theta o) (d_mag_hist o) (d_phase_hist o) (d_phase_old o) ;;
    OK (set_hist o mh ph po, v)
  else if d_type o =? 5 then
    '(v, mh) <- df_broadband h (d_rise o) (d_mag o) (d_mag_hist o) ;; OK (set_hist o mh (d_phase_hist o) (d_phase_old o), v)
  else OK (o, 0%R).

(** What both process functions do once the phase vocoder has returned. *)
Definition df_finish (o : dfun) (win : list R) (r : pv * list R * list R * list R) : res (dfun * R) :=
  let '(v, mag, theta, un) := r in
  '(peaks, mag) <- (if d_whiten o then whiten (d_half o) (d_relax o) (d_floor o) (d_peaks o) mag else OK (d_peaks o, mag)) ;;
  run_df {| d_type := d_type o; d_n := d_n o; d_half := d_half o; d_rise := d_rise o; d_whiten := d_whiten o;
     d_relax := d_relax o; d_floor := d_floor o; d_mag_hist := d_mag_hist o; d_phase_hist := d_phase_hist o;
     d_phase_old := d_phase_old o; d_peaks := peaks; d_windowed := win; d_mag := mag; d_theta := theta;
     d_unwrapped := un; d_window := d_window o; d_pv := v |}.

(** processTimeDomain, DetectionFunction.cpp:94-104. *)
Definition df_time (o : dfun) (samples : list R) : res (dfun * R) :=
  win <- cut (d_window o) (d_n o) samples (d_windowed o) ;;
  r <- pv_time (d_pv o) win (d_mag o) (d_theta o) (d_unwrapped o) ;;
  df_finish o win r.

(** processFrequencyDomain, DetectionFunction.cpp:106-115. *)
Definition df_freq (o : dfun) (reals imags : list R) : res (dfun * R) :=
  r <- pv_freq (d_pv o) reals imags (d_mag o) (d_theta o) (d_unwrapped o) ;;
  df_finish o (d_windowed o) r.

(** A call of either function, and a sequence of calls with the values returned. *)
Inductive frame := Samples (x : list R) | Bins (re im : list R).
Definition df_process (o : dfun) (f : frame) : res (dfun * R) :=
  match f with Samples x => df_time o x | Bins re im => df_freq o re im end.
Fixpoint df_calls (o : dfun) (fs : list frame) : res (dfun * list R) :=
  match fs with
  | [] => OK (o, [])
  | f :: fs => '(o, v) <- df_process o f ;; '(o, vs) <- df_calls o fs ;; OK (o, v :: vs)
  end.
