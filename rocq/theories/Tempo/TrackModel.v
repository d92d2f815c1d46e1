(** Model of dsp/tempotracking/TempoTrack.{h,cpp}.

    Detection functions, correlations, filter outputs and weights are values of an arbitrary
    arithmetic: rounding, overflow and NaN are whatever they are.  Beat periods (small integers divided
    by 2, 3, 4, and their mean) are exact reals, and so is the locked tempo; indices and sizes are
    unbounded integers. *)
From Coq Require Import List ZArith Reals Lia Bool.
From Verif.Base Require Import Imp RealOps Matrix Tables Arith.
From Verif.Signal Require Import FramerModel.
From Verif.Maths Require Import RealModel.
From Verif.Tempo Require Import BeatModel.
Import ListNotations.
Open Scope Z_scope.

(** What the tracker is built from.  The two DFProcess objects (one for frames of detection function, one
    for filterbank outputs) have states in [S]; a call takes the state, the input and the output buffer. *)
Record env (T S : Type) := mkEnv {
  e_arith : arith T;
  e_nonzero : T -> bool;                                          (** x != 0 *)
  e_rayleigh : Z -> T;                                            (** TempoTrack.cpp:115-121, value i *)
  e_gauss : R -> Z -> T;                                          (** TempoTrack.cpp:122-129, beatLag, value i *)
  e_phase : Z -> Z -> T;                                          (** TempoTrack.cpp:526, p, value i *)
  e_octave : Z -> Z -> T;                                         (** abs(1.0-abs(log(i/j)/log(2.0))), TempoTrack.cpp:232-235 *)
  e_cent : T;                                                     (** 0.01 *)
  e_df : S -> list T -> list T -> res (S * list T);               (** m_DFConditioning->process *)
  e_rcf : S -> list T -> list T -> res (S * list T);              (** m_RCFConditioning->process *)
  e_correlate : list T -> list T -> Z -> res (list T)             (** m_correlator.doAutoUnBiased *)
}.
Arguments e_arith {T S} _.
Arguments e_nonzero {T S} _ _.
Arguments e_rayleigh {T S} _ _.
Arguments e_gauss {T S} _ _ _.
Arguments e_phase {T S} _ _ _.
Arguments e_octave {T S} _ _ _.
Arguments e_cent {T S} _.
Arguments e_df {T S} _ _ _ _.
Arguments e_rcf {T S} _ _ _ _.
Arguments e_correlate {T S} _ _ _ _.

(** Members of TempoTrack that are used, TempoTrack.h:66-104.  m_beats and m_lockedTempo are cleared by every
    process call and are kept in the state of that call. *)
Record tracker (T S : Type) := mkTracker {
  t_win : Z; t_lag : Z; t_framer : framer T; t_df : S; t_rcf : S;
  t_raw : list T; t_smooth : list T; t_acf : list T; t_scratch : list T; t_smoothRCF : list T }.
Arguments mkTracker {T S}.
Arguments t_win {T S}. Arguments t_lag {T S}. Arguments t_framer {T S}. Arguments t_df {T S}. Arguments t_rcf {T S}.
Arguments t_raw {T S}. Arguments t_smooth {T S}. Arguments t_acf {T S}. Arguments t_scratch {T S}. Arguments t_smoothRCF {T S}.

Section Track.
  Context {T S : Type} (E : env T S).
  Local Notation A := (e_arith E).
  Local Notation "0.0" := (a_of A 0).

  (** initialise, TempoTrack.cpp:59-98.  [junk] is the contents of the new arrays; [s1] and [s2] are the
      new DFProcess objects. *)
  Definition tracker_new (win lag : Z) (s1 s2 : S) (junk : Z -> T) : res (tracker T S) :=
    if (win <? 0) || (lag <? 0) then Throw else
    f <- framer_configure win lag framer_new ;;
    OK (mkTracker win lag f s1 s2 (ztab win junk) (ztab win junk) (ztab win junk) (ztab lag junk) (ztab lag junk)).

  (** createCombFilter, TempoTrack.cpp:111-130. *)
  Definition comb_filter (filter : list T) (lag : Z) (beatLag : R) : res (list T) :=
    if Reqb beatLag 0 then for_up 0 lag (fun i f => aset f i (e_rayleigh E i)) filter
    else for_up 0 lag (fun i f => aset f i (e_gauss E beatLag i)) filter.

  (** tempoMM, the filterbank, TempoTrack.cpp:147-173. *)
  Definition filterbank (lag : Z) (acf weight : list T) (tsig : Z) (scratch : list T) : res (list T) :=
    scratch <- for_up 0 lag (fun i sc => aset sc i 0.0) scratch ;;
    let numelem := if tsig =? 0 then 4 else tsig in
    for_up 1 (lag - 1) (fun i sc => for_up 1 (numelem + 1) (fun a sc => for_up (1 - a) a (fun b sc =>
      s <- aget sc i ;; v <- aget acf (a * (i + 1) + b - 1) ;; w <- aget weight i ;;
      let c := if tsig =? 0 then a_div A (a_of A 1) (a_of A (2 * a - 1)) else a_of A 1 in
      aset sc i (a_add A s (a_mul A (a_mul A v c) w))) sc) sc) scratch.

  (** tempoMM with a time signature: the highest output, TempoTrack.cpp:185-191. *)
  Definition highest (lag : Z) (scratch : list T) : res Z :=
    '(_, ix) <- for_up 0 lag (fun i '(mx, ix) =>
       v <- aget scratch i ;; OK (if a_lt A mx v then (v, i) else (mx, ix))) (0.0, 0) ;;
    OK ix.

  (** tempoMM without a time signature: the pair of periods that fit best, TempoTrack.cpp:193-277. *)
  Definition best_pair (lag : Z) (smoothRCF scratch : list T) : res (list T * Z) :=
    scratch <- for_up 0 lag (fun i sc => v <- aget smoothRCF i ;; aset sc i v) scratch ;;
    sumRcf <- for_up 0 lag (fun i s => v <- aget scratch i ;; OK (a_add A s v)) 0.0 ;;
    scratch <- for_up 0 lag (fun i sc => v <- aget sc i ;; aset sc i (a_div A v sumRcf)) scratch ;;
    let mat := repeat (repeat 0.0 (Z.to_nat lag)) (Z.to_nat lag) in
    mat <- for_up 1 lag (fun i mat => for_up 1 lag (fun j mat =>
      mat <- mput mat i j (e_octave E i j) ;;
      u <- aget scratch i ;; v <- aget scratch j ;; m <- mget mat i j ;;
      mput mat i j (a_add A m (a_mul A (e_cent E) (a_div A (a_of A 1) (a_add A u v))))) mat) mat ;;
    maxVal <- for_up 1 lag (fun i mx => for_up 1 lag (fun j mx =>
      m <- mget mat i j ;; OK (if a_lt A mx m then m else mx)) mx) 0.0 ;;
    mat <- for_up 1 lag (fun i mat => mput mat i i maxVal) mat ;;
    '(_, p_i, p_j) <- for_up 1 lag (fun i st => for_up 1 lag (fun j '(mn, p_i, p_j) =>
      m <- mget mat i j ;; OK (if a_lt A m mn then (m, i, j) else (mn, p_i, p_j))) st) (maxVal, 1, 1) ;;
    u <- aget scratch p_i ;; v <- aget scratch p_j ;;
    OK (scratch, if a_lt A v u then p_i else p_j).

  (** The three searches of tempoMM for a peak, such as TempoTrack.cpp:306-317: position of the highest
      positive value of [acf] in [lo, hi), counted from [lo]. *)
  Definition peak_in (acf : list T) (lo hi : Z) : res Z :=
    '(_, ix, _) <- for_up lo hi (fun i '(mx, ix, count) =>
       v <- aget acf i ;; OK (if a_lt A mx v then (v, count, count + 1) else (mx, ix, count + 1))) (0.0, 0, 0) ;;
    OK ix.

  (** tempoMM, TempoTrack.cpp:132-397, on the members it uses: m_lagLength, m_RCFConditioning, m_tempoScratch, m_smoothRCF,
      m_lockedTempo; returns the last four and the period.  5168.f / 0 is infinite and not below 180. *)
  Definition tempoMM (lag : Z) (s2 : S) (scratch smoothRCF : list T) (locked : R) (acf weight : list T) (tsig : Z)
    : res (S * list T * list T * R * R) :=
    scratch <- filterbank lag acf weight tsig scratch ;;
    '(s2, smoothRCF) <- e_rcf E s2 scratch smoothRCF ;;
    '(scratch, m) <-
      (if negb (tsig =? 0) then m <- highest lag scratch ;; OK (scratch, m)
       else best_pair lag smoothRCF scratch) ;;
    let locked := if m =? 0 then locked
                  else let l := (5168 / IZR m)%R in
                       if negb (Rltb l 30) && negb (Rltb 180 l) then l else locked in
    let tsig := if tsig =? 0 then 4 else tsig in
    let p0 := IZR (m + 1) in
    i1 <- peak_in acf ((2 * m + 1) - 1) ((2 * m + 1) + 2) ;;
    let p1 := (IZR (i1 + 1 + ((2 * m + 1) - 2) + 1) / 2)%R in
    i2 <- peak_in acf ((3 * m + 2) - 2) ((3 * m + 2) + 3) ;;
    let p2 := (IZR (i2 + 1 + ((3 * m + 2) - 4) + 1) / 3)%R in
    period <-
      (if tsig =? 4 then
         i3 <- peak_in acf ((4 * m + 3) - 3) ((4 * m + 3) + 4) ;;
         let p3 := (IZR (i3 + 1 + ((4 * m + 3) - 9) + 1) / 4)%R in
         mean_ [p0; p1; p2; p3] 4
       else mean_ [p0; p1; p2] 3) ;;
    OK (s2, scratch, smoothRCF, locked, period).

  (** stepDetect, TempoTrack.cpp:399-412: the flag afterwards. *)
  Definition step_detect (periodP periodG : list R) (idx flag : Z) : res Z :=
    g <- aget periodG idx ;; p <- aget periodP idx ;;
    if negb (flag =? 0) then OK flag else OK (if Rltb 3.9017 (Rabs (g - p)) then 3 else flag).

  (** constDetect, TempoTrack.cpp:414-423. *)
  Definition const_detect (periodP : list R) (idx : Z) : res Z :=
    p <- aget periodP idx ;; p1 <- aget periodP (idx - 1) ;; p2 <- aget periodP (idx - 2) ;;
    OK (if Rltb (Rabs (2 * p - p1 - p2)) (2 * 3.9017) then 1 else 0).

  (** findMeter, TempoTrack.cpp:425-485.  The array dbf (which is never freed) is written but never read. *)
  Definition sum_acf (acf : list T) (lo hi : Z) : res T :=
    for_up lo hi (fun i s => v <- aget acf i ;; OK (a_add A s v)) 0.0.
  Definition find_meter (acf : list T) (len : Z) (period : R) : res Z :=
    let p := round_away period in
    let dbf := repeat 0.0 (Z.to_nat len) in
    '(e3, e4) <-
      (if len <? 6 * p + 2 then
         '(temp3A, _, _) <- for_up (3 * p - 2) ((3 * p + 2) + 1) (fun i '(s, t, dbf) =>
            v <- aget acf i ;; dbf <- aset dbf t v ;; OK (a_add A s v, t + 1, dbf)) (0.0, 0, dbf) ;;
         temp4A <- sum_acf acf (4 * p - 2) ((4 * p + 2) + 1) ;;
         OK (temp3A, temp4A)
       else
         temp3A <- sum_acf acf (3 * p - 2) ((3 * p + 2) + 1) ;;
         temp4A <- sum_acf acf (4 * p - 2) ((4 * p + 2) + 1) ;;
         temp3B <- sum_acf acf (6 * p - 2) ((6 * p + 2) + 1) ;;
         temp4B <- sum_acf acf (2 * p - 2) ((2 * p + 2) + 1) ;;
         OK (a_add A temp3A temp3B, a_add A temp4A temp4B)) ;;
    OK (if a_lt A e4 e3 then 3 else 4).

  (** getFrameMinMax, MathUtilities.cpp:140-163 (length not 0). *)
  Definition frame_min_max (data : list T) (len : Z) : res (T * T) :=
    d0 <- aget data 0 ;;
    for_up 0 len (fun i '(mn, mx) =>
      v <- aget data i ;; OK (if a_lt A v mn then v else mn, if a_lt A mx v then v else mx)) (d0, d0).

  (** createPhaseExtractor, TempoTrack.cpp:487-554.  (The replacement of a period above 10000 has no
      effect, as [period] is not used again.)  getFrameMinMax leaves 0, 0 when the length is 0. *)
  Definition phase_extractor (filter : list T) (period : R) (fsp lastBeat : Z) : res (list T) :=
    let p := round_away period in
    if p * 2 + 2 <? 0 then Throw else
    let scratch := repeat 0.0 (Z.to_nat (p * 2 + 2)) in
    let predictedOffset := if negb (lastBeat =? 0) then lastBeat + p - fsp else 0 in
    let lastBeat := if negb (lastBeat =? 0) && (predictedOffset <? 0) then 0 else lastBeat in
    if negb (lastBeat =? 0) then
      scratch <- for_up 0 (p * 2) (fun i sc => aset sc i (e_phase E p i)) scratch ;;
      '(mn, mx) <- (if p * 2 =? 0 then OK (0.0, 0.0) else frame_min_max scratch (p * 2)) ;;
      scratch <- for_up 0 (p * 2) (fun i sc => v <- aget sc i ;; aset sc i (a_div A (a_sub A v mn) mx)) scratch ;;
      '(_, filter) <- for_up (p - (predictedOffset - 1)) (p + (p - predictedOffset) + 1) (fun i '(index, f) =>
         v <- aget scratch i ;; f <- aset f index v ;; OK (index + 1, f)) (0, filter) ;;
      OK filter
    else for_up 0 p (fun i f => aset f i (a_of A 1)) filter.

  (** phaseMM, TempoTrack.cpp:556-592. *)
  Definition phaseMM (df weighting : list T) (win : Z) (period : R) : res Z :=
    let p := round_away period in
    if p <? 0 then Throw else
    y <- for_up 0 win (fun i y => let v := a_div A (a_of A (- i + win)) (a_of A win) in aset y i (a_mul A v v))
           (repeat 0.0 (Z.to_nat win)) ;;
    align <- for_up 0 p (fun o align =>
      '(_, temp) <- while (Z.to_nat win) (fun '(i, _) => i <? win) (fun '(i, temp) =>
         d <- aget df i ;; w <- aget y i ;; OK (i + (p + 1), a_add A temp (a_mul A d w))) (1 + (o - 1), 0.0) ;;
      w <- aget weighting o ;;
      aset align o (a_mul A temp w)) (repeat 0.0 (Z.to_nat p)) ;;
    '(_, alignment) <- for_up 0 p (fun i '(mx, ix) =>
       v <- aget align i ;; OK (if a_lt A mx v then (v, i) else (mx, ix))) (0.0, 0) ;;
    OK alignment.

  (** beatPredict, TempoTrack.cpp:594-614: the last beat, and all beats.  The roundings of the integers
      FSP0 and alignment are left out.  A period that rounds to 0 makes the loop run until memory is exhausted:
      [Diverge]. *)
  Definition beat_predict (fsp alignment : Z) (period : R) (step : Z) (beats : list Z) : res (Z * list Z) :=
    let p := round_away period in
    let fep := fsp + step in
    let beat := fsp + alignment in
    while (Z.to_nat step) (fun '(beat, _) => beat + p <? fep)
      (fun '(beat, beats) => OK (beat + p, beats ++ [beat + p])) (beat, beats ++ [beat]).

  (** The variables of process, TempoTrack.cpp:621-672. *)
  Record frame_state := mkFS {
    fs_t : tracker T S; fs_P : list R; fs_G : list R; fs_step : Z; fs_const : Z; fs_fsp : Z; fs_tsig : Z;
    fs_last : Z; fs_GW : list T; fs_PW : list T; fs_locked : R; fs_beats : list Z; fs_tempi : list R }.

  (** One turn of the frame loop, TempoTrack.cpp:676-769, with TTLoopIndex = [i] and a tempo vector given. *)
  Definition track_frame (rw : list T) (i : Z) (st : frame_state) : res frame_state :=
    let t := fs_t st in
    let lag := t_lag t in
    '(fr, raw) <- framer_getFrame 0.0 (t_framer t) (t_raw t) ;;
    '(s1, smooth) <- e_df E (t_df t) raw (t_smooth t) ;;
    acf <- e_correlate E smooth (t_acf t) (t_win t) ;;
    '(s2, scratch, rcf, locked, per) <- tempoMM lag (t_rcf t) (t_scratch t) (t_smoothRCF t) (fs_locked st) acf rw 0 ;;
    P <- aset (fs_P st) i per ;;
    g0 <- aget (fs_GW st) 0 ;;
    '(s2, scratch, rcf, locked, per) <-
      (if e_nonzero E g0 then tempoMM lag s2 scratch rcf locked acf (fs_GW st) (fs_tsig st)
       else OK (s2, scratch, rcf, locked, 0%R)) ;;
    G <- aset (fs_G st) i per ;;
    step <- step_detect P G i (fs_step st) ;;
    '(step, const) <-
      (if step =? 1 then c <- const_detect P i ;; OK (0, c) else OK (step - 1, fs_const st)) ;;
    let step := if step <? 0 then 0 else step in
    '(s2, scratch, rcf, locked, G, tsig, GW, PW, const, period) <-
      (if negb (const =? 0) then
         p <- aget P i ;;
         tsig <- find_meter acf (t_win t) p ;;
         GW <- comb_filter (fs_GW st) lag p ;;
         '(s2, scratch, rcf, locked, per) <- tempoMM lag s2 scratch rcf locked acf GW tsig ;;
         G <- aset G i per ;;
         PW <- phase_extractor (fs_PW st) per (fs_fsp st) 0 ;;
         OK (s2, scratch, rcf, locked, G, tsig, GW, PW, 0, per)
       else
         g0 <- aget (fs_GW st) 0 ;;
         if e_nonzero E g0 then
           period <- aget G i ;;
           let period := if Rltb 10000 period then 43%R else period in
           PW <- phase_extractor (fs_PW st) period (fs_fsp st) (fs_last st) ;;
           OK (s2, scratch, rcf, locked, G, fs_tsig st, fs_GW st, PW, const, period)
         else
           period <- aget P i ;;
           PW <- phase_extractor (fs_PW st) period (fs_fsp st) 0 ;;
           OK (s2, scratch, rcf, locked, G, fs_tsig st, fs_GW st, PW, const, period)) ;;
    alignment <- phaseMM raw PW (t_win t) period ;;
    '(last, beats) <- beat_predict (fs_fsp st) alignment period lag (fs_beats st) ;;
    OK (mkFS (mkTracker (t_win t) lag fr s1 s2 raw smooth acf scratch rcf)
             P G step const (fs_fsp st + lag) tsig last GW PW locked beats (fs_tempi st ++ [locked])).

  (** process, TempoTrack.cpp:618-781, with a tempo vector given: the object, the beats and the tempi.  The
      zeros appended to the copy of the input are never read, because Framer is told the original length. *)
  Definition track_start (t : tracker T S) (df : list T) : res (list T * frame_state) :=
    let lag := t_lag t in
    let zeros := repeat 0.0 (Z.to_nat lag) in
    f <- framer_setSource df (t_framer t) ;;
    let frames := framer_getMax f in
    if frames <? 0 then Throw else
    let t := mkTracker (t_win t) lag f (t_df t) (t_rcf t) (t_raw t) (t_smooth t) (t_acf t) (t_scratch t) (t_smoothRCF t) in
    rw <- comb_filter zeros lag 0 ;;
    OK (rw, mkFS t (repeat 0%R (Z.to_nat frames)) (repeat 0%R (Z.to_nat frames)) 0 0 0 0 0 zeros zeros 0%R [] []).
  Definition track (t : tracker T S) (df : list T) : res (tracker T S * list Z * list R) :=
    '(rw, st) <- track_start t df ;;
    st <- for_up 0 (framer_getMax (t_framer (fs_t st))) (track_frame rw) st ;;
    OK (fs_t st, fs_beats st, fs_tempi st).
End Track.
Arguments frame_state : clear implicits.
