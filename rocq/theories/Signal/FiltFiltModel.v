(** Model of dsp/signalconditioning/FiltFilt.{h,cpp}. *)
From Coq Require Import List ZArith Lia Bool.
From Verif.Base Require Import Imp.
From Verif.Signal Require Import FilterModel.
Import ListNotations.
Open Scope Z_scope.

Section FiltFilt.
  Context {T : Type} (zero two : T) (add sub mul : T -> T -> T).

  (** Members m_filter and m_ord (FiltFilt.h:40-41); the constructor, FiltFilt.cpp:18-22,
      sets m_ord = m_filter.getOrder(). *)
  Record filtfilt := mkFiltFilt { ff_filter : filter T; ff_ord : Z }.
  Definition filtfilt_new (a b : list T) : res filtfilt :=
    f <- filter_new zero a b ;; OK {| ff_filter := f; ff_ord := f_order f |}.

  (** FiltFilt::process, FiltFilt.cpp:28-94, for [length >= 0]; [dst] is the caller's
      output array.  The scratch arrays are filled with 0.0 first (lines 44-47). *)
  Definition filtfilt_process (ff : filtfilt) (src dst : list T) (length : Z)
    : res (filtfilt * list T) :=
    if length =? 0 then OK (ff, dst) else
    let nFilt := ff_ord ff + 1 in
    let nFact := 3 * (nFilt - 1) in
    let nExt := length + 2 * nFact in
    let scratchIn := repeat zero (Z.to_nat nExt) in
    let scratchOut := repeat zero (Z.to_nat nExt) in
    s0 <- aget src 0 ;;
    sN <- aget src (length - 1) ;;
    let sample0 := mul two s0 in
    let sampleN := mul two sN in
    (* lines 54-60: for (i = nFact; i > 0; i--) *)
    '(_, scratchIn) <- for_down nFact 1 (fun i '(index, sc) =>
        sc <- (if i <? length then v <- aget src i ;; aset sc index (sub sample0 v) else OK sc) ;;
        OK (index + 1, sc)) (0, scratchIn) ;;
    (* lines 62-69 *)
    '(_, scratchIn) <- for_up 0 nFact (fun i '(index, sc) =>
        sc <- (if i + 1 <? length then
                 v <- aget src ((length - 2) - i) ;;
                 aset sc ((nExt - nFact) + index) (sub sampleN v) else OK sc) ;;
        OK (index + 1, sc)) (0, scratchIn) ;;
    (* lines 71-73 *)
    scratchIn <- for_up 0 length (fun i sc => v <- aget src i ;; aset sc (i + nFact) v) scratchIn ;;
    (* line 79 *)
    '(f, scratchOut) <- filter_process zero add sub mul (ff_filter ff) scratchIn scratchOut nExt ;;
    (* lines 82-84 *)
    scratchIn <- for_up 0 nExt (fun i sc => v <- aget scratchOut (nExt - i - 1) ;; aset sc i v) scratchIn ;;
    (* lines 87-89 *)
    let f := filter_reset zero f in
    '(f, scratchOut) <- filter_process zero add sub mul f scratchIn scratchOut nExt ;;
    (* lines 92-94 *)
    dst <- for_up 0 length (fun i d => v <- aget scratchOut (nExt - nFact - i - 1) ;; aset d i v) dst ;;
    OK ({| ff_filter := f; ff_ord := ff_ord ff |}, dst).

  (** Successive process calls on one object: inputs with their output buffers. *)
  Fixpoint filtfilt_run (ff : filtfilt) (calls : list (list T * list T)) : res (list (list T)) :=
    match calls with
    | [] => OK []
    | (src, dst) :: rest =>
        '(ff, d) <- filtfilt_process ff src dst (zlen src) ;;
        ds <- filtfilt_run ff rest ;; OK (d :: ds)
    end.
End FiltFilt.
Arguments filtfilt : clear implicits.
