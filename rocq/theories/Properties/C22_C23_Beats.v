(** C22, C23: beat positions (dsp/tempotracking/TempoTrackV2.cpp calculateBeats). *)
From Coq Require Import List ZArith Reals Lia Lra Bool.
From Verif.Base Require Import Imp Arith RealOps.
From Verif.Tempo Require Import BeatModel BeatSpec BeatProofs BeatReal.
Import ListNotations.
Open Scope Z_scope.

(** Whatever the arithmetic does: the call returns, and the beats it appends are strictly
    increasing frame numbers of the detection function.  What is missing from C22: the last beat
    period has to be shorter than the detection function plus one frame. *)
Theorem C22_beats_increasing_partial :
  forall (T : Type) (A : arith T) (wt : R -> Z -> T) (alpha : T) (df : list T) (periods : list R) (beats : list Z),
    zlen df <= zlen periods -> (forall i, 0 <= i < zlen periods -> (0 <= zn 0 periods i)%R) ->
    (zn 0 periods (zlen periods - 1) < IZR (zlen df) + 1)%R ->
    exists new, calculateBeats A wt alpha df periods beats = OK (beats ++ new) /\
      increasing new /\ within 0 (zlen df) new /\ (df <> [] -> new <> []).
Proof. exact @beats_ok. Qed.
Print Assumptions C22_beats_increasing_partial.

(** Otherwise the code reads before the start of its score array. *)
Theorem C22_long_last_period :
  forall (T : Type) (A : arith T) (wt : R -> Z -> T) (alpha : T) (df : list T) (periods : list R) (beats : list Z),
    1 <= zlen df <= zlen periods -> (forall i, 0 <= i < zlen periods -> (0 <= zn 0 periods i)%R) ->
    (IZR (zlen df) + 1 <= zn 0 periods (zlen periods - 1))%R ->
    calculateBeats A wt alpha df periods beats = UB.
Proof. exact @beats_short_input. Qed.
Print Assumptions C22_long_last_period.

Theorem C22_beats_refuted :
  exists (df periods : list R), zlen df <= zlen periods /\
    Forall (fun p => (1 <= p)%R) periods /\ calculateBeats Rarith (wtR 4) (9 / 10)%R df periods [] = UB.
Proof.
  exists [1%R], [5%R]. split; [reflexivity|]. split; [repeat constructor; lra|].
  apply beats_short_input; [change (1 <= 1 <= 1); lia| |change (1 + 1 <= 5)%R; lra].
  intros i Hi. change (zlen [5%R]) with 1 in Hi. assert (i = 0) as -> by lia. change (0 <= 5)%R. lra.
Qed.
Print Assumptions C22_beats_refuted.

(** Over the reals, with periods of whole frames (as calculateBeatPeriod gives): the beats are
    a best chain among those that end within the last period.  What is missing from C23: a first
    beat in frame 0 is not returned. *)
Theorem C23_beats_optimal_partial :
  forall tightness alpha df (ks : list Z) beats,
    let n := zlen df in let periods := map IZR ks in let last := zn 0 ks (zlen ks - 1) in
    let score := chain_score alpha (log_gauss tightness) (zn 0%R df) (zn 0%R periods) in
    1 <= n -> n <= zlen ks -> Forall (fun k => 1 <= k) ks -> last <= n ->
    (0 <= alpha <= 1)%R -> (forall i, 0 <= i < n -> (0 <= zn 0%R df i)%R) ->
    exists new c, calculateBeats Rarith (wtR tightness) alpha df periods beats = OK (beats ++ new) /\
      (rev c = new \/ rev c = 0 :: new) /\
      (forall k, 0 <= k < zlen new - 1 -> 0 < zn 0 new k) /\
      chain n (zn 0%R periods) c /\ n - last <= hd 0 c /\
      forall c', chain n (zn 0%R periods) c' -> n - last <= hd 0 c' -> (score c' <= score c)%R.
Proof. exact beats_optimal. Qed.
Print Assumptions C23_beats_optimal_partial.

(** The chain returned can be strictly worse than another one with the same last beat. *)
Theorem C23_beats_optimal_refuted :
  exists df ks alpha new c',
    calculateBeats Rarith (wtR 4) alpha df (map IZR ks) [] = OK new /\
    chain (zlen df) (zn 0%R (map IZR ks)) (rev new) /\ chain (zlen df) (zn 0%R (map IZR ks)) c' /\
    hd 0 c' = last new 0 /\
    (chain_score alpha (log_gauss 4) (zn 0%R df) (zn 0%R (map IZR ks)) (rev new) <
     chain_score alpha (log_gauss 4) (zn 0%R df) (zn 0%R (map IZR ks)) c')%R.
Proof. exact beats_omit_zero. Qed.
Print Assumptions C23_beats_optimal_refuted.

(** A case: ten frames, periods of three frames. *)
Example C22_C23_hypotheses :
  let df := repeat 1%R 10 in let ks := repeat 3 10 in
  1 <= zlen df /\ zlen df <= zlen ks /\ Forall (fun k => 1 <= k) ks /\ zn 0 ks (zlen ks - 1) <= zlen df /\
  (forall i, 0 <= i < zlen df -> (0 <= zn 0%R df i)%R).
Proof.
  cbv zeta. rewrite !zlen_repeat. change (zn 0 (repeat 3 10) (Z.of_nat 10 - 1)) with 3.
  splits; try lia; [repeat constructor; lia|].
  intros i Hi. rewrite zn_repeat_in by exact Hi. lra.
Qed.
Example C23_chain : chain 10 (fun _ => 3%R) [8; 5; 2].
Proof. split; [|repeat constructor; lia]. assert (H : admissible 3 3) by (unfold admissible; splits; try lra; lia). cbn [chain_ok]; splits; try exact Logic.I; exact H. Qed.
