(** Model of dsp/tempotracking/DownBeat.cpp. *)
From Coq Require Import List ZArith QArith Reals Lia Bool.
From Verif.Base Require Import Imp RealOps.
From Verif.Maths Require Import RealModel.
From Verif.Rate Require Import DecimatorModel.
Import ListNotations.
Open Scope Z_scope.

(** ** The audio buffer, lines 75-137.  Arithmetic of double ([T]) and float ([F]) arbitrary, as in
    DecimatorModel.v.  size_t does not overflow and malloc does not fail. *)
Section Buffer.
  Context {T : Type} (zero : T) (add sub mul : T -> T -> T) (lit : Q -> T).
  Context {F : Type} (up : F -> T) (down : T -> F).
  (** Indeterminate memory contents. *)
  Variables (junk : T) (junkF : F).

  (** Members, DownBeat.h:117-134; a null decimator is None, a null buffer is empty. *)
  Record downbeat := mkDownBeat { b_factor : Z; b_inc : Z; b_dec1 : option (decimator T);
    b_dec2 : option (decimator T); b_decbuf : list F; b_buffer : list F; b_bufsiz : Z; b_fill : Z }.
  Definition downbeat_new (factor increment : Z) : downbeat :=
    mkDownBeat factor increment None None [] [] 0 0.

  (** makeDecimators, lines 75-88; getHighestSupportedFactor() is 8 (Decimator.h:55). *)
  Definition makeDecimators (s : downbeat) : res downbeat :=
    if b_factor s <? 2 then OK s else
    if b_factor s <=? 8 then
      d1 <- decimator_new zero lit junk (b_inc s) (b_factor s) ;;
      OK (mkDownBeat (b_factor s) (b_inc s) (Some d1) (b_dec2 s) (b_decbuf s) (b_buffer s) (b_bufsiz s) (b_fill s))
    else
      d1 <- decimator_new zero lit junk (b_inc s) 8 ;;
      d2 <- decimator_new zero lit junk (b_inc s / 8) (b_factor s / 8) ;;
      OK (mkDownBeat (b_factor s) (b_inc s) (Some d1) (Some d2) (repeat junkF (Z.to_nat (b_inc s / 8)))
            (b_buffer s) (b_bufsiz s) (b_fill s)).

  (** Growing the buffer, lines 93-101. *)
  Definition grow (s : downbeat) : downbeat :=
    if b_bufsiz s <? b_fill s + b_inc s / b_factor s then
      let siz := if b_bufsiz s =? 0 then b_inc s * 16 else b_bufsiz s * 2 in
      mkDownBeat (b_factor s) (b_inc s) (b_dec1 s) (b_dec2 s) (b_decbuf s)
        (b_buffer s ++ repeat junkF (Z.to_nat (siz - zlen (b_buffer s)))) siz (b_fill s)
    else s.

  (** Processing into m_buffer + m_buffill. *)
  Definition into_buffer (s : downbeat) (d : decimator T) (blk : list F) : res (decimator T * list F) :=
    '(d, o) <- decimator_block add sub mul up down d blk (skipn (Z.to_nat (b_fill s)) (b_buffer s)) ;;
    OK (d, firstn (Z.to_nat (b_fill s)) (b_buffer s) ++ o).

  (** pushAudioBlock, lines 90-118. *)
  Definition push (s : downbeat) (audio : list F) : res downbeat :=
    if b_factor s =? 0 then UB else
    let s := grow s in
    s <- (match b_dec1 s with
          | None => if 1 <? b_factor s then makeDecimators s else OK s
          | Some _ => OK s end) ;;
    let fill := b_fill s + b_inc s / b_factor s in
    match b_dec1 s, b_dec2 s with
    | Some d1, Some d2 =>
        '(d1, decbuf) <- decimator_block add sub mul up down d1 audio (b_decbuf s) ;;
        '(d2, buffer) <- into_buffer s d2 decbuf ;;
        OK (mkDownBeat (b_factor s) (b_inc s) (Some d1) (Some d2) decbuf buffer (b_bufsiz s) fill)
    | Some d1, None =>
        '(d1, buffer) <- into_buffer s d1 audio ;;
        OK (mkDownBeat (b_factor s) (b_inc s) (Some d1) None (b_decbuf s) buffer (b_bufsiz s) fill)
    | None, _ =>
        buffer <- for_up 0 (b_inc s) (fun i buf => v <- aget audio i ;; aset buf (b_fill s + i) v) (b_buffer s) ;;
        OK (mkDownBeat (b_factor s) (b_inc s) None (b_dec2 s) (b_decbuf s) buffer (b_bufsiz s) fill)
    end.

  (** getBufferedAudio, lines 120-125: the first [length] = m_buffill samples of m_buffer. *)
  Definition getBufferedAudio (s : downbeat) : list F := firstn (Z.to_nat (b_fill s)) (b_buffer s).

  (** resetAudioBuffer, lines 127-137. *)
  Definition resetAudioBuffer (s : downbeat) : downbeat :=
    mkDownBeat (b_factor s) (b_inc s) (b_dec1 s) (b_dec2 s) (b_decbuf s) [] 0 0.

  Inductive op := Push (blk : list F) | ResetBuffer.
  Fixpoint run_ops (s : downbeat) (ops : list op) : res downbeat :=
    match ops with
    | [] => OK s
    | Push b :: rest => s <- push s b ;; run_ops s rest
    | ResetBuffer :: rest => run_ops (resetAudioBuffer s) rest
    end.
End Buffer.

(** ** findDownBeats, lines 139-241, over the reals. *)
(** EPS of maths/MathAliases.h:23. *)
Definition EPS : R := (22204 / 10000 / 10 ^ 16)%R.

(** measureSpecDiff, lines 243-292.  The vectors are copies. *)
Definition measureSpecDiff (oldspec newspec : list R) : res R :=
  let SPECSIZE := Z.min 512 (zlen oldspec / 4) in
  ' (newspec, oldspec, sumnew, sumold) <- for_up 0 SPECSIZE (fun i '(nw, old, sn, so) =>
    n <- aget nw i ;; nw <- aset nw i (n + EPS)%R ;;
    o <- aget old i ;; old <- aset old i (o + EPS)%R ;;
    n <- aget nw i ;; o <- aget old i ;;
    OK (nw, old, (sn + n)%R, (so + o)%R)) (newspec, oldspec, 0%R, 0%R) ;;
  ' (_, _, SD) <- for_up 0 SPECSIZE (fun i '(nw, old, SD) =>
    n <- aget nw i ;; nw <- aset nw i (n / sumnew)%R ;;
    o <- aget old i ;; old <- aset old i (o / sumold)%R ;;
    n <- aget nw i ;; nw <- (if Reqb n 0 then aset nw i 1%R else OK nw) ;;
    o <- aget old i ;; old <- (if Reqb o 0 then aset old i 1%R else OK old) ;;
    n <- aget nw i ;; o <- aget old i ;;
    let sd1 := (/ 2 * o + / 2 * n)%R in
    OK (nw, old, (SD + - sd1 * ln sd1 + / 2 * (o * ln o) + / 2 * (n * ln n))%R))
    (newspec, oldspec, 0%R) ;;
  OK SD.

Section Find.
  (** m_beatframesize, m_increment, m_factor and the transform of FFTReal. *)
  Variables (framesize inc factor : Z) (fft : list R -> list R * list R).

  (** (size_t)((b * m_increment) / m_factor): truncation, undefined at -1 and below (the bound
      2^64 is not modelled) and for a zero factor (an infinity or NaN). *)
  Definition pos (b : R) : res Z :=
    if factor =? 0 then UB else
    let x := (b * IZR inc / IZR factor)%R in
    if Rleb x (-1) then UB else OK (if Rltb x 0 then 0 else Zfloor x).

  (** Lines 170-195: the windowed beat in the frame buffer. *)
  Definition beat_frame (audio : list R) (beatframe : list R) (beatstart beatlen : Z) : res (list R) :=
    fr <- for_up 0 (Z.min beatlen framesize) (fun j fr =>
      v <- aget audio (beatstart + j) ;;
      let mul := (/ 2 * (1 - cos (2 * PI * (IZR j / IZR beatlen))))%R in
      aset fr j (v * mul)%R) beatframe ;;
    for_up beatlen framesize (fun j fr => aset fr j 0%R) fr.

  (** Lines 160-222. *)
  Definition spectra (audio : list R) (beats : list R) (beatframe : list R) : res (list R) :=
    let half := framesize / 2 in
    let audioLength := zlen audio in
    ' (_, _, beatsd) <- for_up 0 (zlen beats - 1) (fun i '(beatframe, oldspec, beatsd) =>
      b0 <- aget beats i ;; b1 <- aget beats (i + 1) ;;
      beatstart <- pos b0 ;;
      beatend <- pos b1 ;;
      let beatend := if audioLength <=? beatend then audioLength - 1 else beatend in
      let beatend := if beatend <? beatstart then beatstart else beatend in
      let beatlen := beatend - beatstart in
      beatframe <- beat_frame audio beatframe beatstart beatlen ;;
      let '(re, im) := fft beatframe in
      newspec <- for_up 0 half (fun j sp =>
        r <- aget re j ;; m <- aget im j ;; aset sp j (sqrt (r * r + m * m))%R) (repeat 0%R (Z.to_nat half)) ;;
      newspec <- adaptiveThreshold newspec ;;
      beatsd <- (if 0 <? i then d <- measureSpecDiff oldspec newspec ;; OK (beatsd ++ [d]) else OK beatsd) ;;
      oldspec <- for_up 0 half (fun j old => v <- aget newspec j ;; aset old j v) oldspec ;;
      OK (beatframe, oldspec, beatsd)) (beatframe, repeat 0%R (Z.to_nat half), []) ;;
    OK beatsd.

  (** Lines 226-231: the mean spectral difference for each phase; [for (example = beat-1; example < n;
      example += timesig)] as a loop over the examples beat-1 + k*timesig. *)
  Definition candidate (beatsd : list R) (timesig beat : Z) : res R :=
    let n := zlen beatsd in
    let steps := if n <=? beat - 1 then 0 else (n - (beat - 1) + timesig - 1) / timesig in
    ' (c, count) <- for_up 0 steps (fun k '(c, count) =>
      let example := beat - 1 + k * timesig in
      if example <? 0 then OK (c, count) else
      v <- aget beatsd example ;; OK ((c + v / IZR timesig)%R, count + 1)) (0%R, 0) ;;
    OK (if 0 <? count then (c / IZR count)%R else c).

  (** findDownBeats.  [bpb] is m_bpb; [beatframe] the member array.  Returns the downbeats appended
      and m_beatsd. *)
  Definition findDownBeats (bpb : Z) (audio beats : list R) (beatframe : list R) (downbeats : list Z)
      : res (list Z * list R) :=
    if zlen audio =? 0 then OK (downbeats, []) else
    beatsd <- spectra audio beats beatframe ;;
    let timesig := if bpb =? 0 then 4 else bpb in
    (* vector(timesig) throws for a negative size *)
    if timesig <? 0 then Throw else
    dbcand <- for_up 0 timesig (fun beat db => v <- candidate beatsd timesig beat ;; aset db beat v)
      (repeat 0%R (Z.to_nat timesig)) ;;
    ' (dbind, _) <- getMax dbcand (zlen dbcand) ;;
    let steps := if zlen beats <=? dbind then 0 else (zlen beats - dbind + timesig - 1) / timesig in
    for_up 0 steps (fun k '(db, sd) => OK (db ++ [dbind + k * timesig], sd)) (downbeats, beatsd).
End Find.
