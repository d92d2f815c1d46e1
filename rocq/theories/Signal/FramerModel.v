(** Model of dsp/signalconditioning/Framer.cpp. *)
From Coq Require Import List ZArith Lia Bool.
From Verif.Base Require Import Imp.
Import ListNotations.
Open Scope Z_scope.

Section Framer.
  Context {T : Type} (zero : T).

  (** Members, Framer.h:34-47.  [fr_src] is the array [m_srcBuffer] points to (the caller's
      array of [m_sampleLen] samples; reading outside it is [UB]).  m_dataFrame and
      m_strideFrame are allocated but never used and are left out. *)
  Record framer := mkFramer { fr_sampleLen : Z; fr_framesRead : Z; fr_src : list T;
    fr_frameLength : Z; fr_stepSize : Z; fr_maxFrames : Z; fr_srcIndex : Z }.

  (** Constructor, Framer.cpp:20-31. *)
  Definition framer_new : framer := mkFramer 0 0 [] 0 0 0 0.

  (** resetCounters, Framer.cpp:80-84. *)
  Definition framer_reset (f : framer) : framer :=
    mkFramer (fr_sampleLen f) 0 (fr_src f) (fr_frameLength f) (fr_stepSize f) (fr_maxFrames f) 0.

  (** configure, Framer.cpp:39-51 ([new double[n]] with n < 0 throws). *)
  Definition framer_configure (frameLength hop : Z) (f : framer) : res framer :=
    let f := mkFramer (fr_sampleLen f) (fr_framesRead f) (fr_src f) frameLength hop
                      (fr_maxFrames f) (fr_srcIndex f) in
    let f := framer_reset f in
    if (frameLength <? 0) || (hop <? 0) then Throw else OK f.

  (** setSource, Framer.cpp:91-102.  Integer division by zero is undefined.  C++ division
      truncates towards zero ([Z.quot]). *)
  Definition INT_MAX : Z := 2147483647.
  Definition framer_setSource (src : list T) (f : framer) : res framer :=
    let length := zlen src in
    if fr_stepSize f =? 0 then UB else
    let maxFrames := Z.quot length (fr_stepSize f) in
    let maxFrames := if maxFrames * fr_stepSize f <? length then maxFrames + 1 else maxFrames in
    let maxFrames := if INT_MAX <? maxFrames then INT_MAX else maxFrames in
    OK (mkFramer length (fr_framesRead f) src (fr_frameLength f) (fr_stepSize f) maxFrames
                 (fr_srcIndex f)).

  (** getMaxNoFrames, Framer.cpp:86-89. *)
  Definition framer_getMax (f : framer) : Z := fr_maxFrames f.

  (** getFrame, Framer.cpp:53-78.  [dst] is the caller's array.  Index arithmetic is on
      unbounded integers (the source uses int64_t, and int for [rem] and [zero]). *)
  Definition framer_getFrame (f : framer) (dst : list T) : res (framer * list T) :=
    let copy n '(ix, dst) := for_up 0 n (fun i '(ix, dst) =>
          v <- aget (fr_src f) ix ;; dst <- aset dst i v ;; OK (ix + 1, dst)) (ix, dst) in
    '(ix, dst) <-
      (if fr_srcIndex f + fr_frameLength f <? fr_sampleLen f then
         '(ix, dst) <- copy (fr_frameLength f) (fr_srcIndex f, dst) ;;
         OK (ix - (fr_frameLength f - fr_stepSize f), dst)
       else
         let rem := fr_sampleLen f - fr_srcIndex f in
         let zeros := fr_frameLength f - rem in
         '(ix, dst) <- copy rem (fr_srcIndex f, dst) ;;
         dst <- for_up 0 zeros (fun i dst => aset dst (rem + i) zero) dst ;;
         OK (ix - (rem - fr_stepSize f), dst)) ;;
    OK (mkFramer (fr_sampleLen f) (fr_framesRead f + 1) (fr_src f) (fr_frameLength f)
                 (fr_stepSize f) (fr_maxFrames f) ix, dst).

  (** A client taking frames into a sequence of buffers. *)
  Fixpoint framer_frames (f : framer) (dsts : list (list T)) : res (framer * list (list T)) :=
    match dsts with
    | [] => OK (f, [])
    | d :: rest =>
        '(f, o) <- framer_getFrame f d ;;
        '(f, os) <- framer_frames f rest ;; OK (f, o :: os)
    end.
End Framer.
Arguments framer : clear implicits.
