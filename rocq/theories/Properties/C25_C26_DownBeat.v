(** C25, C26, C54: audio buffering and downbeat estimation (dsp/tempotracking/DownBeat.cpp). *)
From Coq Require Import List ZArith QArith Reals Lia Lra Bool.
From Verif.Base Require Import Imp RealOps.
From Verif.Tempo Require Import DownBeatModel DownBeatSpec DownBeatProofs DownBeatFind.
Import ListNotations.
Open Scope Z_scope.

(** Whatever the arithmetic does: any history of pushes and resets runs without touching memory
    outside the buffers, and what is buffered is the part since the last reset of the decimation of
    everything pushed.  The documented factors are the powers of two up to 64. *)
Theorem C25_buffered_audio :
  forall (T : Type) (zero : T) (add sub mul : T -> T -> T) (lit : Q -> T) (F : Type) (up : F -> T) (down : T -> F)
    (fz : F) (junk : T) (junkF : F) (factor inc : Z) (ops : list (@op F)),
    1 <= factor -> 0 <= inc -> (factor | inc) -> (factor <= 8 \/ (8 | factor)) -> blocks_of inc ops ->
    exists s w, run_ops zero add sub mul lit up down junk junkF (downbeat_new factor inc) ops = OK s /\
      decimated zero add sub mul lit up down factor (pushed ops) w /\
      zlen w = pushes ops * (inc / factor) /\
      getBufferedAudio s = skipn (Z.to_nat ((pushes ops - since_reset 0 ops) * (inc / factor))) w.
Proof. exact @buffered_audio. Qed.
Print Assumptions C25_buffered_audio.

(** Two-stage decimation by 16 of blocks of 32: buffer growth happens, then a reset. *)
Example C25_case : exists s, run_ops 0 Z.add Z.sub Z.mul (fun _ => 1) (fun z => z) (fun z => z) 7 9 (downbeat_new 16 32)
    (repeat (Push (repeat 5 32)) 3 ++ [ResetBuffer] ++ repeat (Push (repeat 5 32)) 2) = OK s /\
    zlen (getBufferedAudio s) = 4.
Proof.
  destruct (C25_buffered_audio Z 0 Z.add Z.sub Z.mul (fun _ => 1) Z (fun z => z) (fun z => z) 0 7 9 16 32
    (repeat (Push (repeat 5 32)) 3 ++ [ResetBuffer] ++ repeat (Push (repeat 5 32)) 2)) as (s & w & E & _ & L & B).
  - lia.
  - lia.
  - now exists 2.
  - right. now exists 2.
  - intros b [H|[H|[H|[H|[H|[H|[]]]]]]]; try discriminate H; injection H as <-; reflexivity.
  - exists s. split; [exact E|]. rewrite B. unfold zlen in *. rewrite skipn_length.
    change (Z.of_nat (length w) = 10) in L. change (Z.to_nat ((_ - _) * _)) with 6%nat. lia.
Qed.
Example C25_no_decimation : exists s, run_ops 0 Z.add Z.sub Z.mul (fun _ => 1) (fun z => z) (fun z => z) 7 9 (downbeat_new 1 2)
    [Push [1; 2]; Push [3; 4]; ResetBuffer; Push [5; 6]; Push [7; 8]] = OK s /\ getBufferedAudio s = [5; 6; 7; 8].
Proof. eexists. split; reflexivity. Qed.

(** The downbeats appended are d, d+T, d+2T, ...; d is the first phase with the largest mean
    spectral change, where the changes [sd] (getBeatSD) are the Jensen-Shannon divergences between
    the spectra of successive beats.  [size] is the frame size, [fft] the real transform. *)
Theorem C26_downbeats :
  forall (size inc factor : Z) (fft : list R -> list R * list R), 0 <= size ->
    (forall fr, zlen fr = size -> size / 2 <= zlen (fst (fft fr)) /\ size / 2 <= zlen (snd (fft fr))) ->
    0 <= inc -> 1 <= factor -> forall (bpb : Z) (audio beats frame : list R) (downbeats : list Z),
    zlen frame = size -> 1 <= zlen audio -> 0 <= bpb -> Forall (Rle 0) beats ->
    let T := if bpb =? 0 then 4 else bpb in
    let spectrum := beat_spectrum size inc factor fft audio beats in
    exists d new sd, findDownBeats size inc factor fft bpb audio beats frame downbeats = OK (downbeats ++ new, sd) /\
      every_from d T (zlen beats) new /\ 0 <= d < T /\
      (forall b, 0 <= b < T -> (phase_strength sd T b <= phase_strength sd T d)%R) /\
      (forall b, 0 <= b < d -> (phase_strength sd T b < phase_strength sd T d)%R) /\
      zlen sd = Z.max 0 (zlen beats - 2) /\
      forall e, 0 <= e < zlen sd -> zn 0%R sd e = spectral_change (spectrum e) (spectrum (e + 1)).
Proof. exact findDownBeats_ok. Qed.
Print Assumptions C26_downbeats.

Theorem C26_no_audio : forall size inc factor fft bpb beats frame downbeats,
  findDownBeats size inc factor fft bpb [] beats frame downbeats = OK (downbeats, []).
Proof. reflexivity. Qed.
Print Assumptions C26_no_audio.

(** Six beats of eight samples, three beats in a bar; the last beat is beyond the audio. *)
Example C26_case : exists d new sd,
  findDownBeats 16 8 1 (fun fr => (fr, fr)) 3 (repeat 1%R 40) [0; 1; 2; 3; 4; 5]%R (repeat 0%R 16) [] = OK (new, sd) /\
  every_from d 3 6 new /\ 0 <= d < 3 /\ zlen sd = 4.
Proof.
  destruct (C26_downbeats 16 8 1 (fun fr => (fr, fr)) ltac:(lia)) with (bpb := 3) (audio := repeat 1%R 40)
    (beats := [0; 1; 2; 3; 4; 5]%R) (frame := repeat 0%R 16) (downbeats := @nil Z) as (d & new & sd & E & V & D & _ & _ & L & _).
  - intros fr H. cbn [fst snd]. rewrite H. change (8 <= 16 /\ 8 <= 16). lia.
  - lia.
  - lia.
  - reflexivity.
  - change (1 <= 40). lia.
  - lia.
  - repeat constructor; lra.
  - exists d, new, sd. auto.
Qed.

(** C54: the spectral differences lie between 0 and ln 2 ... *)
Theorem C54_beatSD_range_partial :
  forall (size inc factor : Z) (fft : list R -> list R * list R), 0 <= size ->
    (forall fr, zlen fr = size -> size / 2 <= zlen (fst (fft fr)) /\ size / 2 <= zlen (snd (fft fr))) ->
    0 <= inc -> 1 <= factor -> forall (bpb : Z) (audio beats frame : list R) (db0 db : list Z) (sd : list R),
    zlen frame = size -> 0 <= bpb -> Forall (Rle 0) beats ->
    findDownBeats size inc factor fft bpb audio beats frame db0 = OK (db, sd) -> Forall (fun x => 0 <= x <= ln 2)%R sd.
Proof. exact beatSD_range. Qed.
Print Assumptions C54_beatSD_range_partial.

(** ... but there are not as many as the header says (one for each beat, less one). *)
Theorem C54_beatSD_count_refuted :
  exists size fft audio beats frame db sd, Forall (Rle 0) beats /\ 2 <= zlen beats /\
    (forall fr, zlen fr = size -> size / 2 <= zlen (fst (fft fr)) /\ size / 2 <= zlen (snd (fft fr))) /\
    findDownBeats size 8 1 fft 4 audio beats frame [] = OK (db, sd) /\ zlen sd <> zlen beats - 1.
Proof.
  exists 16, (fun fr => (fr, fr)), (repeat 1%R 40), [0; 1; 2]%R, (repeat 0%R 16).
  assert (H : forall fr : list R, zlen fr = 16 -> 16 / 2 <= zlen (fst (fr, fr)) /\ 16 / 2 <= zlen (snd (fr, fr))).
  { intros fr H. cbn [fst snd]. rewrite H. change (8 <= 16 /\ 8 <= 16). lia. }
  destruct (C26_downbeats 16 8 1 (fun fr => (fr, fr)) ltac:(lia) H) with (bpb := 4) (audio := repeat 1%R 40)
    (beats := [0; 1; 2]%R) (frame := repeat 0%R 16) (downbeats := @nil Z) as (d & new & sd & E & _ & _ & _ & _ & L & _);
    try lia; try reflexivity.
  - change (1 <= 40). lia.
  - repeat constructor; lra.
  - exists new, sd. split; [repeat constructor; lra|]. split; [change (2 <= 3); lia|]. split; [exact H|].
    split; [exact E|]. rewrite L. change (Z.max 0 (3 - 2) <> 3 - 1). lia.
Qed.
Print Assumptions C54_beatSD_count_refuted.
