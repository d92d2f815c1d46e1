(** C07, C08: Framer (dsp/signalconditioning/Framer.cpp). *)
From Coq Require Import List ZArith Lia Bool.
From Verif.Base Require Import Imp.
From Verif.Signal Require Import FramerModel FramerSpec FramerProofs.
Import ListNotations.
Open Scope Z_scope.

(** C07: whatever was done with the object before, after configure and setSource the k-th frame
    is the source from k*hop, zero-padded, for every k below getMaxNoFrames(), which is
    ceil(length/hop) (capped at INT_MAX); nothing beyond the frame is written. *)
Theorem C07_framer_covers :
  forall (T : Type) (zero : T) f0 len hop src ds,
    0 <= len -> 1 <= hop -> big_enough len ds ->
    exists f c, (f <- framer_configure len hop f0 ;; framer_setSource src f) = OK f /\
      is_ceil (zlen src) hop c /\ framer_getMax f = Z.min c INT_MAX /\
      (zlen ds <= framer_getMax f ->
       exists f' os, framer_frames zero f ds = OK (f', os) /\ frames_from zero src 0 hop len ds os).
Proof. exact @framer_covers. Qed.
Print Assumptions C07_framer_covers.

Example C07_case :
  (f <- framer_configure 4 3 (@framer_new Z) ;; f <- framer_setSource [1; 2; 3; 4; 5; 6; 7] f ;;
   '(_, os) <- framer_frames 0 f (repeat [9; 9; 9; 9; 9] 3) ;; OK (framer_getMax f, os))
  = OK (3, [[1; 2; 3; 4; 9]; [4; 5; 6; 7; 9]; [7; 0; 0; 0; 9]]).
Proof. reflexivity. Qed.

(** C08 is false of the code: setSource does not rewind.  After two frames of one source, the
    frames of the next source start at its index 2*hop ... *)
Theorem C08_framer_reuse_refuted :
  exists (src1 src2 : list Z) len hop ds1 ds2 f f1 os1 f2 os2,
    (f <- framer_configure len hop (@framer_new Z) ;; framer_setSource src1 f) = OK f /\
    zlen ds1 <= framer_getMax f /\
    framer_frames 0 f ds1 = OK (f1, os1) /\
    (f <- framer_setSource src2 f1 ;; framer_frames 0 f ds2) = OK (f2, os2) /\
    big_enough len ds2 /\ zlen ds2 = 1 /\ ~ frames_from 0 src2 0 hop len ds2 os2.
Proof.
  exists [1; 2; 3; 4], [5; 6; 7; 8], 2, 2, [[0; 0]; [0; 0]], [[9; 9]].
  do 5 eexists. split; [vm_compute; reflexivity|]. split; [vm_compute; discriminate|].
  split; [vm_compute; reflexivity|]. split; [vm_compute; reflexivity|]. splits; [|reflexivity|].
  - repeat constructor. cbn. lia.
  - intros [_ H]. specialize (H 0 ltac:(cbn; lia)). destruct H as [_ H].
    specialize (H 0 ltac:(cbn; lia)). cbn in H. discriminate.
Qed.
Print Assumptions C08_framer_reuse_refuted.

(** ... and with a shorter second source it writes outside the frame. *)
Theorem C08_framer_reuse_unsafe_refuted :
  exists (src1 src2 : list Z) len hop ds1 d f f1 os1,
    (f <- framer_configure len hop (@framer_new Z) ;; framer_setSource src1 f) = OK f /\
    zlen ds1 <= framer_getMax f /\
    framer_frames 0 f ds1 = OK (f1, os1) /\ len <= zlen d /\
    (f <- framer_setSource src2 f1 ;; framer_getFrame 0 f d) = UB.
Proof.
  exists [1; 2; 3; 4], [5], 2, 2, [[0; 0]; [0; 0]], [9; 9].
  do 3 eexists. split; [vm_compute; reflexivity|]. split; [vm_compute; discriminate|].
  split; [vm_compute; reflexivity|]. split; [vm_compute; discriminate|]. vm_compute; reflexivity.
Qed.
Print Assumptions C08_framer_reuse_unsafe_refuted.

(** What does hold: with resetCounters() after setSource, reuse works from any point. *)
Theorem C08_framer_reuse_reset_partial :
  forall (T : Type) (zero : T) f src0 src len hop ix ds,
    at_index f src0 len hop ix -> 0 <= len -> 1 <= hop -> big_enough len ds ->
    (zlen ds - 1) * hop < zlen src ->
    exists f' os, (f <- framer_setSource src f ;; framer_frames zero (framer_reset f) ds) = OK (f', os) /\
      frames_from zero src 0 hop len ds os.
Proof. exact @framer_reset_reuse. Qed.
Print Assumptions C08_framer_reuse_reset_partial.

(** Without it, the frames taken are those from the old position on. *)
Theorem C08_framer_reuse_continues_partial :
  forall (T : Type) (zero : T) f src0 src len hop ix ds,
    at_index f src0 len hop ix -> 0 <= len -> 1 <= hop -> 0 <= ix -> big_enough len ds ->
    ix + (zlen ds - 1) * hop <= zlen src ->
    exists f' os, (f <- framer_setSource src f ;; framer_frames zero f ds) = OK (f', os) /\
      frames_from zero src ix hop len ds os.
Proof. exact @framer_resource. Qed.
Print Assumptions C08_framer_reuse_continues_partial.

Example C08_case :
  exists f, (f <- framer_configure 2 2 (@framer_new Z) ;; f <- framer_setSource [1; 2; 3; 4] f ;;
             '(f, _) <- framer_frames 0 f [[0; 0]; [0; 0]] ;; OK f) = OK f /\
    at_index f [1; 2; 3; 4] 2 2 4.
Proof. eexists. split; [reflexivity|]. unfold at_index; splits; reflexivity. Qed.
