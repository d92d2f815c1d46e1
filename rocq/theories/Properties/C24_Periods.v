(** C24, C52, C53: beat periods (dsp/tempotracking/TempoTrackV2.cpp). *)
From Coq Require Import List ZArith Reals Lia Lra Bool.
From Verif.Base Require Import Imp Arith RealOps.
From Verif.Maths Require Import RealSpec.
From Verif.Tempo Require Import BeatModel BeatSpec BeatReal PeriodModel PeriodSpec PeriodProofs RcfProofs FilterDf.
Import ListNotations.
Open Scope Z_scope.
Local Notation Rn := (zn 0%R).

(** The periods written out are those of a best path. *)
Theorem C24_viterbi_best_path :
  forall factor Q (rcfmat : list (list R)) wv bp tempi,
    let T := zlen rcfmat in
    let score q := path_score (Rn wv) (fun t j => Rn (zn [] rcfmat t) j) (tempo_change (zlen wv)) q (Z.to_nat (T - 1)) in
    1 <= Q <= zlen wv -> 2 <= T -> Forall (fun r => zlen r = Q) rcfmat -> 128 * T <= zlen bp ->
    (forall j, 0 <= j < Q -> (0 <= Rn wv j)%R) ->
    (forall t j, 0 <= t < T -> 0 <= j < Q -> (0 <= Rn (zn [] rcfmat t) j)%R) ->
    exists path, zlen path = T /\ Forall (fun k => 0 <= k < Q) path /\
      viterbi_decode factor rcfmat wv bp tempi =
        OK (ztab (zlen bp) (period_at path), tempi ++ ztab (zlen bp) (fun k => (factor / period_at path k)%R)) /\
      forall q, (forall t, 0 <= q t < Q) -> (score q <= score (zn 0%Z path))%R.
Proof. exact viterbi_best. Qed.
Print Assumptions C24_viterbi_best_path.

(** The whole estimation, from the detection function. *)
Theorem C52_periods_in_range :
  forall factor df bp tempi tempo constrain,
    let T := n_frames (zlen df) in
    let wv := weight_vec tempo constrain in
    let score q := path_score (Rn wv) (fun t j => Rn (period_fit local_mean EPS wv (df_frame df t)) j)
                     (tempo_change 128) q (Z.to_nat (T - 1)) in
    (0 < tempo)%R -> 2 <= T -> 128 * T <= zlen bp ->
    exists path, zlen path = T /\ Forall (fun k => 20 <= k < 108) path /\
      calculateBeatPeriod factor df bp tempi tempo constrain =
        OK (ztab (zlen bp) (period_at path), tempi ++ ztab (zlen bp) (fun k => (factor / period_at path k)%R)) /\
      forall q, (forall t, 0 <= q t < 128) -> (score q <= score (zn 0%Z path))%R.
Proof. exact beat_period_ok. Qed.
Print Assumptions C52_periods_in_range.

Theorem C52_number_of_frames :
  forall n, 0 <= n -> 0 <= n_frames n /\ (forall i, 0 <= i -> (i < n_frames n <-> i * 128 + 512 < n)) /\ 128 * n_frames n <= n.
Proof. exact n_frames_spec. Qed.
Print Assumptions C52_number_of_frames.

(** With at most 640 values nothing is estimated and the caller's vectors stay as they were. *)
Theorem C52_short_input :
  forall factor df bp tempi tempo constrain,
    zlen df <= 640 -> calculateBeatPeriod factor df bp tempi tempo constrain = OK (bp, tempi).
Proof. exact beat_period_short. Qed.
Print Assumptions C52_short_input.

(** Used together, as in the beat tracker: always beats, increasing and in range. *)
Theorem C52_beats_of_periods :
  forall factor df (tempo : R) constrain tight alpha,
    let bp0 := repeat 0%R (length df) in
    640 < zlen df -> (0 < tempo)%R ->
    exists bp tempi beats, calculateBeatPeriod factor df bp0 [] tempo constrain = OK (bp, tempi) /\
      calculateBeats Rarith (wtR tight) alpha df bp [] = OK beats /\
      increasing beats /\ within 0 (zlen df) beats /\ beats <> [].
Proof. exact beats_of_periods. Qed.
Print Assumptions C52_beats_of_periods.

(** Two passes of the same filter, forwards and backwards. *)
Theorem C53_two_passes :
  forall df, exists y out, filter_df df = OK out /\ zlen y = zlen df /\ zlen out = zlen df /\
    butterworth_output (zlen df) (Rn df) (Rn y) /\ butterworth_output (zlen df) (Rn (rev y)) (Rn (rev out)).
Proof. exact filter_df_ok. Qed.
Print Assumptions C53_two_passes.

(** Linear with a symmetric, positive kernel that depends only on the length: no delay. *)
Theorem C53_zero_phase :
  exists kernel : Z -> Z -> Z -> R,
    (forall n i k, kernel n i k = kernel n k i) /\
    (forall n x, (0 <= rsum n (fun i => rsum n (fun k => x i * kernel n i k * x k)))%R) /\
    forall df, exists out, filter_df df = OK out /\ zlen out = zlen df /\
      forall i, 0 <= i < zlen df -> Rn out i = rsum (zlen df) (fun k => (kernel (zlen df) i k * Rn df k)%R).
Proof. exact (ex_intro _ kernel (conj kernel_sym (conj kernel_pos filter_df_kernel))). Qed.
Print Assumptions C53_zero_phase.

(** Cases. *)
Example C24_hypotheses :
  let rcfmat := [[1; 2]; [2; 1]; [1; 1]]%R in
  2 <= zlen rcfmat /\ Forall (fun r : list R => zlen r = 2) rcfmat /\ 128 * zlen rcfmat <= zlen (repeat 0%R 384).
Proof. cbv zeta. rewrite zlen_repeat. change (zlen [[1; 2]; [2; 1]; [1; 1]]%R) with 3. splits; try lia. repeat constructor. Qed.
Example C52_hypotheses : 2 <= n_frames 641 /\ n_frames 640 = 1 /\ 128 * n_frames 3000 <= 3000.
Proof. repeat split; vm_compute; discriminate. Qed.
