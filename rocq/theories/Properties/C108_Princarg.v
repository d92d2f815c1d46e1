(** Phase wrapping and unwrapping in IEEE doubles: MathUtilities::princarg and PhaseVocoder. *)
From Coq Require Import ZArith Reals List.
From Verif.Base Require Import Imp Double.
From Verif.Maths Require Import DoubleModel DoubleSpec DoubleProofs DoubleCases.
From Verif.Vocoder Require Import PvSpec PvDouble PvDoubleSpec PvDoubleProofs.
Import ListNotations.
Open Scope R_scope.

(** C108. Up to 2^48 the result differs from the angle by whole turns of the true 2 pi, and lies in
    [-pi, pi], up to an error of 10 (|angle| + 4) units of 2^-53. *)
Theorem C108_princarg_doubles_partial (ang : double) : finite ang -> Rabs (dval ang) <= 281474976710656 ->
  let e := 10 * uro * (Rabs (dval ang) + 4) in
  finite (dprincarg ang) /\ near_angle e (dval (dprincarg ang)) (dval ang) /\ Rabs (dval (dprincarg ang)) <= PI + e.
Proof. exact (princarg_near ang). Qed.
Print Assumptions C108_princarg_doubles_partial.

(** The documented range is left by a finite double of moderate size: near 37 pi the result exceeds pi. *)
Theorem C108_range_refuted : exists ang, finite ang /\ Rabs (dval ang) <= 117 /\ finite (dprincarg ang) /\ PI < dval (dprincarg ang).
Proof. exact range_left. Qed.
Print Assumptions C108_range_refuted.

(** And for huge finite angles the result has nothing to do with a principal argument. *)
Theorem C108_large_refuted : exists ang, finite ang /\ finite (dprincarg ang) /\ 131 < dval (dprincarg ang).
Proof. exact large_result. Qed.
Print Assumptions C108_large_refuted.

(** C109. *)
Theorem C109_unwrapping_doubles (n hop : Z) (frames : list (list double * list double)) :
  (2 <= n < 2 ^ 31)%Z -> (1 <= hop <= 1048576)%Z ->
  ((2 * Z.of_nat (length frames) + 1) * (4 * hop) <= 281474976710656)%Z ->
  phase_frames (n / 2 + 1) frames ->
  exists outs, dpv_run n hop frames = OK outs /\
    forall k, (0 <= k <= n / 2)%Z -> tracks n hop k 0 (- advance n hop k) frames outs.
Proof. exact (fun Hn Hh => run_tracks n hop Hn Hh frames). Qed.
Print Assumptions C109_unwrapping_doubles.

(** Cases. *)
Example C108_case : finite (dint 100) /\ Rabs (dval (dint 100)) <= 281474976710656.
Proof. exact case_100. Qed.
Example C109_case : phase_frames (2 / 2 + 1) [([dint 1; dint (-3)], [d0; d0]); ([dint 2; dint 3], [d0; d0; d0])].
Proof. exact case_frames. Qed.
