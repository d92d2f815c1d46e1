(** Model of TempoTrackV2::calculateBeatPeriod, get_rcf, viterbi_decode
    (dsp/tempotracking/TempoTrackV2.cpp:101-353) and filter_df (lines 36-92).
    Numbers are exact reals; exp is the real exponential. *)
From Coq Require Import List ZArith Reals Lia Bool.
From Verif.Base Require Import Imp RealOps Arith.
From Verif.Maths Require Import RealModel.
From Verif.Tempo Require Import BeatModel.
Import ListNotations.
Open Scope Z_scope.
Local Notation Rn := (zn 0%R).

(** #define EPS, line 25. *)
Definition EPS : R := (8 / 10000000)%R.

(** ** viterbi_decode *)
(** The transition matrix, lines 246-268: zero, then overwritten inside the borders of 20. *)
Definition tmat (wv_len : Z) : list (list R) :=
  ztab wv_len (fun i => ztab wv_len (fun j =>
    if (20 <=? i) && (i <? wv_len - 20) && (20 <=? j) && (j <? wv_len - 20)
    then exp (-1 * (IZR j - IZR i) ^ 2 / (2 * 8 ^ 2)) else 0%R)).

(** Lines 298-304 and 323-330: divide a column by its sum plus EPS. *)
Definition norm_col (Q : Z) (col : list R) : res (list R) :=
  deltasum <- for_up 0 Q (fun i s => v <- aget col i ;; OK (s + v)%R) 0%R ;;
  for_up 0 Q (fun i col => v <- aget col i ;; aset col i (v / (deltasum + EPS))%R) col.

(** First column of delta, lines 292-304; [rcf0] is rcfmat[0], as long as delta[0]. *)
Definition first_col (Q : Z) (wv rcf0 : list R) : res (list R) :=
  d <- for_up 0 Q (fun j d => w <- aget wv j ;; r <- aget rcf0 j ;; aset d j (w * r)%R)
    (repeat 0%R (length rcf0)) ;;
  norm_col Q d.

(** Column t of delta and psi from column t-1, lines 306-330; [rcft] is rcfmat[t]. *)
Definition next_col (Q : Z) (tm : list (list R)) (prev rcft : list R) : res (list R * list Z) :=
  ' (d, p, _) <- for_up 0 Q (fun j '(d, p, tmp_vec) =>
    row <- aget tm j ;;
    tmp_vec <- for_up 0 Q (fun i tmp =>
      x <- aget prev i ;; y <- aget row i ;; aset tmp i (x * y)%R) tmp_vec ;;
    m <- get_max_val Rarith tmp_vec ;;
    d <- aset d j m ;;
    k <- get_max_ind Rarith tmp_vec ;;
    p <- aset p j k ;;
    v <- aget d j ;; r <- aget rcft j ;;
    d <- aset d j (v * r)%R ;;
    OK (d, p, tmp_vec)) (repeat 0%R (length rcft), repeat 0 (length rcft), repeat 0%R (Z.to_nat Q)) ;;
  d <- norm_col Q d ;;
  OK (d, p).

(** The loop over t, lines 306-330.  The code keeps all columns of delta; only the previous one
    is read again, so the model keeps that and the list of psi columns. *)
Definition columns (Q : Z) (tm : list (list R)) (rcfmat : list (list R)) (d0 : list R) (psi0 : list Z)
    : res (list R * list (list Z)) :=
  for_up 1 (zlen rcfmat) (fun t '(d, psis) =>
    rcft <- aget rcfmat t ;;
    ' (d', p) <- next_col Q tm d rcft ;;
    OK (d', psis ++ [p])) (d0, [psi0]).

(** The back-trace, lines 332-350. *)
Definition backtrace (T Q : Z) (dlast : list R) (psis : list (list Z)) : res (list Z) :=
  tmp_vec <- for_up 0 Q (fun i tmp => v <- aget dlast i ;; aset tmp i v) (repeat 0%R (Z.to_nat Q)) ;;
  s <- get_max_ind Rarith tmp_vec ;;
  bp <- aset (repeat 0 (Z.to_nat T)) (T - 1) s ;;
  bp <- for_down (T - 2) 1 (fun t bp =>
    p <- aget psis (t + 1) ;; b <- aget bp (t + 1) ;; v <- aget p b ;; aset bp t v) bp ;;
  p <- aget psis 1 ;; b <- aget bp 1 ;; v <- aget p b ;; aset bp 0 v.

(** Writing the result, lines 352-371; [factor] is 60. * m_rate / m_increment. *)
Definition write_out (factor : R) (T : Z) (bestpath : list Z) (beat_period tempi : list R)
    : res (list R * list R) :=
  ' (beat_period, lastind) <- for_up 0 T (fun i st =>
    for_up 0 128 (fun j '(beat_period, _) =>
      let lastind := i * 128 + j in
      b <- aget bestpath i ;;
      beat_period <- aset beat_period lastind (IZR b) ;;
      OK (beat_period, lastind)) st) (beat_period, 0) ;;
  beat_period <- for_up lastind (zlen beat_period) (fun i bp =>
    v <- aget bp lastind ;; aset bp i v) beat_period ;;
  tempi <- for_up 0 (zlen beat_period) (fun i tempi =>
    v <- aget beat_period i ;; OK (tempi ++ [(factor / v)%R])) tempi ;;
  OK (beat_period, tempi).

Definition viterbi_decode (factor : R) (rcfmat : list (list R)) (wv beat_period tempi : list R)
    : res (list R * list R) :=
  let T := zlen rcfmat in
  if T <? 2 then OK (beat_period, tempi) else
  rcf0 <- aget rcfmat 0 ;;
  let Q := zlen rcf0 in
  let tm := tmat (zlen wv) in
  d0 <- first_col Q wv rcf0 ;;
  ' (dlast, psis) <- columns Q tm rcfmat d0 (repeat 0 (length rcf0)) ;;
  bestpath <- backtrace T Q dlast psis ;;
  write_out factor T bestpath beat_period tempi.

(** ** get_rcf, lines 183-236 *)
Definition acf_of (dfframe : list R) : res (list R) :=
  let n := zlen dfframe in
  for_up 0 n (fun lag acf =>
    sum <- for_up 0 (n - lag) (fun k s =>
      x <- aget dfframe k ;; y <- aget dfframe (k + lag) ;; OK (s + x * y)%R) 0%R ;;
    aset acf lag (sum / IZR (n - lag))%R) (repeat 0%R (Z.to_nat n)).
Definition comb (acf wv rcf : list R) : res (list R) :=
  for_up 2 (zlen rcf) (fun i rcf =>
    for_up 1 5 (fun a rcf =>
      for_up (1 - a) a (fun b rcf =>
        v <- aget rcf (i - 1) ;; x <- aget acf (a * i + b - 1) ;; w <- aget wv (i - 1) ;;
        aset rcf (i - 1) (v + x * w / (2 * IZR a - 1))%R) rcf) rcf) rcf.
Definition get_rcf (dfframe_in wv rcf : list R) : res (list R) :=
  dfframe <- adaptiveThreshold dfframe_in ;;
  acf <- acf_of dfframe ;;
  rcf <- comb acf wv rcf ;;
  rcf <- adaptiveThreshold rcf ;;
  ' (rcf, rcfsum) <- for_up 0 (zlen rcf) (fun i '(rcf, s) =>
    v <- aget rcf i ;; rcf <- aset rcf i (v + EPS)%R ;;
    v <- aget rcf i ;; OK (rcf, (s + v)%R)) (rcf, 0%R) ;;
  for_up 0 (zlen rcf) (fun i rcf => v <- aget rcf i ;; aset rcf i (v / (rcfsum + EPS))%R) rcf.

(** ** calculateBeatPeriod, lines 101-181 *)
(** 60*44100/512 in int arithmetic is 5167. *)
Definition rayparam (inputtempo : R) : R := (IZR (60 * 44100 / 512) / inputtempo)%R.
Definition weight_vec (inputtempo : R) (constraintempo : bool) : list R :=
  let rp := rayparam inputtempo in
  ztab 128 (fun i =>
    if constraintempo then exp (-1 * (IZR i - rp) ^ 2 / (2 * (rp / 4) ^ 2))
    else (IZR i / rp ^ 2 * exp (-1 * (- IZR i) ^ 2 / (2 * rp ^ 2)))%R).

(** Number of frames: for (i = 0; i+512 < df_len; i += 128). *)
Definition n_frames (df_len : Z) : Z := if df_len <=? 512 then 0 else (df_len - 512 + 127) / 128.

Definition calculateBeatPeriod (factor : R) (df beat_period tempi : list R)
    (inputtempo : R) (constraintempo : bool) : res (list R * list R) :=
  let wv := weight_vec inputtempo constraintempo in
  rcfmat <- for_up 0 (n_frames (zlen df)) (fun c rcfmat =>
    let i := c * 128 in
    dfframe <- for_up 0 512 (fun k fr => v <- aget df (i + k) ;; aset fr k v) (repeat 0%R 512) ;;
    rcf <- get_rcf dfframe wv (repeat 0%R 128) ;;
    OK (rcfmat ++ [rcf])) [] ;;
  viterbi_decode factor rcfmat wv beat_period tempi.

(** ** filter_df, lines 36-92 *)
Definition butter (inp : Z -> res R) (n : Z) (lp : list R) : res (list R) :=
  ' (lp, _, _, _, _) <- for_up 0 n (fun i '(lp, inp1, inp2, out1, out2) =>
    x <- inp i ;;
    let y := (2066 / 10000 * x + 4131 / 10000 * inp1 + 2066 / 10000 * inp2
              - (- (3695 / 10000)) * out1 - 1958 / 10000 * out2)%R in
    lp <- aset lp i y ;;
    OK (lp, x, inp1, y, out1)) (lp, 0%R, 0%R, 0%R, 0%R) ;;
  OK lp.
Definition filter_df (df : list R) : res (list R) :=
  let n := zlen df in
  lp <- butter (aget df) n (repeat 0%R (Z.to_nat n)) ;;
  df <- for_up 0 n (fun i df => v <- aget lp (n - i - 1) ;; aset df i v) df ;;
  lp <- for_up 0 n (fun i lp => aset lp i 0%R) lp ;;
  lp <- butter (aget df) n lp ;;
  for_up 0 n (fun i df => v <- aget lp (n - i - 1) ;; aset df i v) df.
