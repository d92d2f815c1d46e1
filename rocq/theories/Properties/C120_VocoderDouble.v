(** C120: the phase vocoder in IEEE doubles. *)
From Coq Require Import Reals ZArith List.
From Flocq Require Import Core.
From Verif.Base Require Import Imp RealOps Double.
From Verif.Fft Require Import FftDouble FftDoubleSpec FftDoubleCases FftrDouble.
From Verif.Vocoder Require Import PvSpec PvDouble PvDoubleSpec PvWholeDouble PvWholeSpec PvWholeProofs PvWholeCases.
Import ListNotations.
Open Scope R_scope.

(** Frame after frame from a new or reset vocoder: magnitude and phase describe the bins of each
    frame, and the unwrapped phases unwrap the phases returned. *)
Theorem C120_frames : forall (dcos dsin : double -> double), accurate dcos cos -> accurate dsin sin ->
  forall (datan2 : double -> double -> double), accurate_angle datan2 ->
  forall (n hop : Z) (ps : list Z), (2 <= n <= 2 ^ 30)%Z -> (n mod 2 = 0)%Z -> prime_factors n ps -> (1 <= hop <= 1048576)%Z ->
  forall o frames, voc_fresh dcos dsin datan2 n hop o ->
    ((2 * Z.of_nat (length frames) + 1) * (4 * hop) <= 281474976710656)%Z ->
    Forall (frame_bounded n) frames ->
    exists o' rs, dvoc_run datan2 o frames = OK (o', rs) /\ Forall2 (describes n (weight ps)) frames rs /\
      forall k, (0 <= k <= n / 2)%Z ->
        tracks n hop k 0 (- advance n hop k) (map (fun r => (rs_theta r, rs_out r)) rs) (map rs_out rs).
Proof. exact voc_frames. Qed.
Print Assumptions C120_frames.

(** The magnitudes and phases of one frame, whatever frames came before (also with NaN or
    infinite data), and the call stays within its arrays whatever the data. *)
Theorem C120_any_state : forall (dcos dsin : double -> double), accurate dcos cos -> accurate dsin sin ->
  forall (datan2 : double -> double -> double), accurate_angle datan2 ->
  forall (n hop : Z) (ps : list Z), (2 <= n <= 2 ^ 30)%Z -> (n mod 2 = 0)%Z -> prime_factors n ps ->
  forall o f, voc_in_use dcos dsin datan2 n hop o -> frame_room n f ->
    exists o' r, dvoc_process datan2 o f = OK (o', r) /\ describes n (weight ps) f r.
Proof. exact voc_call_runs. Qed.
Print Assumptions C120_any_state.

(** Construction and reset return. *)
Theorem C120_new : forall (dcos dsin : double -> double) (n hop : Z), (2 <= n <= 2 ^ 30)%Z -> (n mod 2 = 0)%Z ->
  forall j1 j2 jc jt jr ji, zlen j1 = (n / 2)%Z -> zlen j2 = (n / 2)%Z -> zlen jc = n -> zlen jt = n -> zlen jr = n -> zlen ji = n ->
    exists o, dvoc_new dcos dsin n hop j1 j2 jc jt jr ji = OK o.
Proof. exact voc_new_runs. Qed.
Print Assumptions C120_new.

(** Correctly rounded cos, sin and atan2; size 6, hop 3; a frame of samples and one of bins. *)
Example C120_case : accurate (near_fun cos) cos /\ accurate (near_fun sin) sin /\ accurate_angle near_atan2 /\
  prime_factors 6 [2; 3]%Z /\ weight [2; 3]%Z = 6 /\ Forall (frame_bounded 6) [frame_a; frame_b] /\
  exists o, voc_fresh (near_fun cos) (near_fun sin) near_atan2 6 3 o.
Proof. exact voc_case. Qed.
