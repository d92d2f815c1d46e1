(** Model of TempoTrackV2::calculateBeats (dsp/tempotracking/TempoTrackV2.cpp:404-499) and the
    helpers it calls.
    Scores are computed in an arbitrary arithmetic.  The transition weight
      exp(-0.5*pow(tightness * log((round(2*mu)-j)/mu), 2))            (line 446)
    is a parameter [wt mu j]; BeatSpec.v gives its meaning over the reals.  Beat periods are
    finite doubles, hence reals; 2*p and 0.5*p are exact in double, so the conversions to int
    are those of the exact values.  int overflow (periods above 2^30) is not modelled. *)
From Coq Require Import List ZArith Reals Lia Bool.
From Verif.Base Require Import Imp RealOps Arith.
Import ListNotations.
Open Scope Z_scope.

(** Conversion double -> int: towards zero. *)
Definition trunc (x : R) : Z := if Rltb x 0 then - Zfloor (- x) else Zfloor x.
(** round() of <cmath>: halves away from zero. *)
Definition round_away (x : R) : Z := if Rltb x 0 then - Zfloor (- x + / 2) else Zfloor (x + / 2).

Section Beats.
  Context {T : Type} (A : arith T) (wt : R -> Z -> T).
  Local Notation "0.0" := (a_of A 0).

  (** get_max_val, TempoTrackV2.cpp:350-363. *)
  Definition get_max_val (df : list T) : res T :=
    for_up 0 (zlen df) (fun i maxval =>
      v <- aget df i ;; OK (if a_lt A maxval v then v else maxval)) 0.0.
  (** get_max_ind, TempoTrackV2.cpp:365-380. *)
  Definition get_max_ind (df : list T) : res Z :=
    ' (_, ind) <- for_up 0 (zlen df) (fun i '(maxval, ind) =>
      v <- aget df i ;; OK (if a_lt A maxval v then (v, i) else (maxval, ind))) (0.0, 0) ;;
    OK ind.

  (** Body of the main loop, lines 430-462. *)
  Definition beat_step (alpha : T) (df : list T) (beat_period : list R)
      (i : Z) (st : list T * list Z) : res (list T * list Z) :=
    let '(cumscore, backlink) := st in
    p <- aget beat_period i ;;
    let prange_min := trunc (-2 * p)%R in
    let prange_max := round_away (- (1 / 2) * p)%R in
    let txwt_len := prange_max - prange_min + 1 in
    (* vector(n) with negative n throws length_error *)
    if txwt_len <? 0 then Throw else
    scorecands <- for_up 0 txwt_len (fun j sc =>
      let cscore_ind := i + prange_min + j in
      if 0 <=? cscore_ind then
        c <- aget cumscore cscore_ind ;; aset sc j (a_mul A (wt p j) c)
      else OK sc) (repeat 0.0 (Z.to_nat txwt_len)) ;;
    vv <- get_max_val scorecands ;;
    xx <- get_max_ind scorecands ;;
    l <- aget df i ;;
    cumscore <- aset cumscore i (a_add A (a_mul A alpha vv) (a_mul A (a_sub A (a_of A 1) alpha) l)) ;;
    backlink <- aset backlink i (i + prange_min + xx) ;;
    OK (cumscore, backlink).

  (** The main loop, lines 415-463. *)
  Definition beat_scores (alpha : T) (df : list T) (beat_period : list R) : res (list T * list Z) :=
    let df_len := zlen df in
    for_up 0 df_len (beat_step alpha df beat_period)
      (repeat 0.0 (Z.to_nat df_len), repeat (-1) (Z.to_nat df_len)).

  (** Choice of the last beat, lines 465-477. *)
  Definition beat_start (df_len : Z) (last_period : R) (cumscore : list T) : res Z :=
    let from := trunc (IZR df_len - last_period) in
    tmp <- for_up from df_len (fun i tmp => v <- aget cumscore i ;; OK (tmp ++ [v])) [] ;;
    ind <- get_max_ind tmp ;;
    let startpoint := trunc (IZR (ind + df_len) - last_period) in
    OK (if df_len <=? startpoint then df_len - 1 else startpoint).

  (** The back-trace, lines 481-491; [ibeats] is kept latest first, i.e. reversed. *)
  Definition back_step (backlink : list Z) (st : list Z * bool) : res (list Z * bool) :=
    let '(ibeats, _) := st in
    match ibeats with
    | [] => UB
    | b :: _ =>
        l <- aget backlink b ;;
        if l <=? 0 then OK (ibeats, false)
        else if l =? b then OK (ibeats, false)
        else OK (l :: ibeats, true)
    end.

  (** calculateBeats.  [beats] is the caller's vector, appended to. *)
  Definition calculateBeats (alpha : T) (df : list T) (beat_period : list R) (beats : list Z) : res (list Z) :=
    if (zlen df =? 0) || (zlen beat_period =? 0) then OK beats else
    let df_len := zlen df in
    ' (cumscore, backlink) <- beat_scores alpha df beat_period ;;
    lastp <- aget beat_period (zlen beat_period - 1) ;;
    startpoint <- beat_start df_len lastp cumscore ;;
    ' (ibeats, _) <- while (Z.to_nat (df_len + 1)) snd (back_step backlink) ([startpoint], true) ;;
    OK (beats ++ ibeats).
End Beats.
