(** C86-C90: the older tempo tracker. *)
From Coq Require Import List ZArith Reals Lia Lra Bool.
From Verif.Base Require Import Imp RealOps Arith Xreal.
From Verif.Signal Require Import FramerModel.
From Verif.Tempo Require Import BeatModel TrackModel TrackSpec TrackParts TrackProofs TrackReal TrackResults TrackRuns TrackScale TrackNumb TrackRefuted.
Import ListNotations.
Open Scope Z_scope.

(** Sizes the tracker can work with: [win] and [lag] as in WinT and TTParams, LPOrd >= 1. *)
Definition workable (win lag pre post alpha : Z) (a b : list R) : Prop :=
  3 <= lag /\ 4 * lag + 3 <= win /\ (forall p, 1 <= p <= lag -> win <> 6 * p + 2) /\
  zlen a = zlen b /\ 2 <= zlen b /\ 0 <= pre /\ 0 <= post /\ pre + post < lag /\ 1 <= alpha.

(** A lag of 8, windows of 36 and a one-pole smoother. *)
Example C86_workable : workable 36 8 1 1 2 [1; -1/2]%R [1/2; 0]%R.
Proof. unfold workable. change (zlen [1; -1/2]%R) with 2. change (zlen [1/2; 0]%R) with 2. repeat split; lia. Qed.

(** C86, C87: every detection function, every content of uninitialised memory. *)
Theorem C86_track :
  forall win lag pre post alpha a b octave junk1 junk2, workable win lag pre post alpha a b ->
  forall junk df, zlen df <= INT_MAX ->
  exists t t' beats tempi frames, real_tracker win lag a b pre post alpha junk = OK t /\
    track (real_env win lag octave junk1 junk2) t (map Fin df) = OK (t', beats, tempi) /\
    blocks (zlen df) lag frames /\ blockwise lag frames beats /\
    zlen tempi = frames /\ (forall i, 0 <= i < frames -> tempo_value lag (zn 0%R tempi i)).
Proof. intros win lag pre post alpha a b octave junk1 junk2 (H1 & H2 & H3 & H4 & H5 & H6 & H7 & H8 & H9). apply real_track; auto. Qed.
Print Assumptions C86_track.

(** What the shape of the beats means. *)
Theorem C86_beats_increase : forall lag frames beats, 0 <= frames -> blockwise lag frames beats -> increasing beats.
Proof. exact blockwise_increasing. Qed.
Print Assumptions C86_beats_increase.
Theorem C86_beats_within :
  forall lag frames beats, blockwise lag frames beats -> forall x, In x beats -> exists k, 0 <= k < frames /\ k * lag <= x < (k + 1) * lag.
Proof. exact blockwise_in. Qed.
Print Assumptions C86_beats_within.
Theorem C86_beats_everywhere :
  forall lag frames beats k, blockwise lag frames beats -> 0 <= k < frames -> exists x, In x beats /\ k * lag <= x < (k + 1) * lag.
Proof. exact blockwise_each. Qed.
Print Assumptions C86_beats_everywhere.

(** In any arithmetic, with any smoother and correlation that fill their arrays: memory-safe, but it may not end. *)
Theorem C86_any_arithmetic :
  forall (T S : Type) (E : env T S) win lag s1 s2 junk df,
  2 <= lag -> 4 * lag + 3 <= win -> (forall p, 1 <= p <= lag -> win <> 6 * p + 2) ->
  fills win (e_df E) -> fills lag (e_rcf E) ->
  (forall x y, zlen x = win -> zlen y = win -> exists z, e_correlate E x y win = OK z /\ zlen z = win) ->
  e_nonzero E (a_of (e_arith E) 0) = false -> zlen df <= INT_MAX ->
  exists t, tracker_new win lag s1 s2 junk = OK t /\
    ((exists t' beats tempi frames, track E t df = OK (t', beats, tempi) /\ blocks (zlen df) lag frames /\ blockwise lag frames beats /\
        zlen tempi = frames /\ (forall i, 0 <= i < frames -> tempo_value lag (zn 0%R tempi i))) \/
     track E t df = Diverge).
Proof. intros T S E. exact (any_arithmetic E). Qed.
Print Assumptions C86_any_arithmetic.

(** The size conditions are needed.  A lag of 2 reads beyond the correlation for every detection function, ... *)
Theorem C86_every_lag_refuted :
  forall win pre post alpha a b octave junk1 junk2, 8 <= win <= 10 -> zlen a = zlen b -> 2 <= zlen b -> 0 <= pre -> 0 <= post -> pre + post < 2 -> 1 <= alpha ->
  forall junk df, 1 <= zlen df <= INT_MAX ->
  exists t, real_tracker win 2 a b pre post alpha junk = OK t /\ track (real_env win 2 octave junk1 junk2) t (map Fin df) = UB.
Proof. exact two_undefined. Qed.
Print Assumptions C86_every_lag_refuted.
Example C86_every_lag_case : exists t, real_tracker 8 2 [1; -1/2]%R [1/2; 0]%R 0 1 2 (fun _ => 0%R) = OK t /\
  track (real_env 8 2 octave_fabs (fun _ _ => 0%R) (fun _ _ => 0%R)) t (map Fin [1; 0; 0; 1]%R) = UB.
Proof.
  apply C86_every_lag_refuted; try lia; try reflexivity; try (change (zlen [1/2; 0]%R) with 2; lia).
  change (zlen [1; 0; 0; 1]%R) with 4. unfold INT_MAX. lia.
Qed.

(** ... and finding the metre reads one value beyond it when the window is six periods and two long, as for windows
    of 512 and a period of 85. *)
Theorem C86_metre_overrun :
  forall (T S : Type) (E : env T S) acf per, 1 <= round_away per -> zlen acf = 6 * round_away per + 2 -> find_meter E acf (zlen acf) per = UB.
Proof. intros T S E. exact (metre_overrun E). Qed.
Print Assumptions C86_metre_overrun.
Example C86_metre_case : round_away 85 = 85 /\ zlen (repeat (Fin 1) (Z.to_nat 512)) = 6 * 85 + 2.
Proof.
  split.
  - unfold round_away. destruct (Rltb_spec 85 0); [lra|]. apply Zfloor_unique. lra.
  - rewrite zlen_repeat. lia.
Qed.

(** C88: level does not matter, and beats and tempi so far depend only on the windows so far. *)
Theorem C88_level :
  forall win lag pre post alpha a b octave junk1 junk2, workable win lag pre post alpha a b ->
  forall junk df c, zlen df <= INT_MAX -> (0 < c)%R ->
  exists t t1 t2 beats tempi, real_tracker win lag a b pre post alpha junk = OK t /\
    track (real_env win lag octave junk1 junk2) t (map Fin df) = OK (t1, beats, tempi) /\
    track (real_env win lag octave junk1 junk2) t (map Fin (map (Rmult c) df)) = OK (t2, beats, tempi).
Proof. intros win lag pre post alpha a b octave junk1 junk2 (H1 & H2 & H3 & H4 & H5 & H6 & H7 & H8 & H9). apply real_scaled; auto. Qed.
Print Assumptions C88_level.
Theorem C88_causal :
  forall win lag pre post alpha a b octave junk1 junk2, workable win lag pre post alpha a b ->
  forall junk df1 df2 K, zlen df1 <= INT_MAX -> zlen df2 <= INT_MAX -> 1 <= K -> (K - 1) * lag < zlen df1 -> (K - 1) * lag < zlen df2 ->
  (forall i, 0 <= i < (K - 1) * lag + win -> zn 0%R df1 i = zn 0%R df2 i) ->
  exists t t1 t2 b1 b2 te1 te2, real_tracker win lag a b pre post alpha junk = OK t /\
    track (real_env win lag octave junk1 junk2) t (map Fin df1) = OK (t1, b1, te1) /\
    track (real_env win lag octave junk1 junk2) t (map Fin df2) = OK (t2, b2, te2) /\
    filter (fun x => x <? K * lag) b1 = filter (fun x => x <? K * lag) b2 /\ firstn (Z.to_nat K) te1 = firstn (Z.to_nat K) te2.
Proof. intros win lag pre post alpha a b octave junk1 junk2 (H1 & H2 & H3 & H4 & H5 & H6 & H7 & H8 & H9). apply real_causal; auto. Qed.
Print Assumptions C88_causal.
Theorem C88_causal_any_arithmetic :
  forall (T S : Type) (E : env T S) win lag s1 s2 junk t df1 df2 t1 t2 b1 b2 te1 te2 K, 1 <= win -> 1 <= lag -> tracker_new win lag s1 s2 junk = OK t ->
  zlen df1 <= INT_MAX -> zlen df2 <= INT_MAX -> 1 <= K -> (K - 1) * lag < zlen df1 -> (K - 1) * lag < zlen df2 ->
  (forall i, 0 <= i < (K - 1) * lag + win -> zn (a_of (e_arith E) 0) df1 i = zn (a_of (e_arith E) 0) df2 i) ->
  track E t df1 = OK (t1, b1, te1) -> track E t df2 = OK (t2, b2, te2) ->
  filter (fun x => x <? K * lag) b1 = filter (fun x => x <? K * lag) b2 /\ firstn (Z.to_nat K) te1 = firstn (Z.to_nat K) te2.
Proof. intros T S E win lag s1 s2 junk t df1 df2 t1 t2 b1 b2 te1 te2 K H1 H2 H3. apply (causal E win lag t df1 df2 t1 t2); auto. apply (new_at_frame win lag s1 s2 junk); auto. Qed.
Print Assumptions C88_causal_any_arithmetic.

(** C89: a tracker cannot be used for a second detection function. *)
Theorem C89_reuse_refuted :
  forall win lag pre post alpha a b octave junk1 junk2, workable win lag pre post alpha a b ->
  forall junk df1 df2, zlen df1 <= INT_MAX -> zlen df2 <= INT_MAX -> lag < zlen df1 -> 1 <= zlen df2 ->
  exists t t1 b1 te1, real_tracker win lag a b pre post alpha junk = OK t /\ track (real_env win lag octave junk1 junk2) t (map Fin df1) = OK (t1, b1, te1) /\
    (forall r, track (real_env win lag octave junk1 junk2) t1 (map Fin df2) <> OK r) /\
    (zlen df2 < zlen df1 -> track (real_env win lag octave junk1 junk2) t1 (map Fin df2) = UB).
Proof. intros win lag pre post alpha a b octave junk1 junk2 (H1 & H2 & H3 & H4 & H5 & H6 & H7 & H8 & H9). apply real_reuse; auto. Qed.
Print Assumptions C89_reuse_refuted.
Theorem C89_reuse_any_arithmetic :
  forall (T S : Type) (E : env T S) win lag s1 s2 junk t df1 df2 t' beats tempi, 1 <= win -> 1 <= lag -> tracker_new win lag s1 s2 junk = OK t ->
  zlen df1 <= INT_MAX -> zlen df2 <= INT_MAX -> track E t df1 = OK (t', beats, tempi) -> lag < zlen df1 -> 1 <= zlen df2 ->
  forall r, track E t' df2 <> OK r.
Proof. intros T S E win lag s1 s2 junk t df1 df2 t' beats tempi H1 H2 H3. apply (reuse_never_returns E win lag t); auto. apply (new_at_frame win lag s1 s2 junk); auto. Qed.
Print Assumptions C89_reuse_any_arithmetic.

(** C90: a window that is zero throughout makes the tracker deaf: the tempi of the whole run are fixed by what
    came until the end of that window. *)
Theorem C90_tracks_after_silence_refuted :
  forall win lag pre post alpha a b octave junk1 junk2, workable win lag pre post alpha a b ->
  forall junk df1 df2 k, zlen df1 <= INT_MAX -> zlen df2 = zlen df1 -> 0 <= k -> k * lag < zlen df1 ->
  (forall i, 0 <= i < k * lag + win -> zn 0%R df1 i = zn 0%R df2 i) -> (forall i, k * lag <= i < k * lag + win -> zn 0%R df1 i = 0%R) ->
  exists t t1 t2 b1 b2 tempi, real_tracker win lag a b pre post alpha junk = OK t /\
    track (real_env win lag octave junk1 junk2) t (map Fin df1) = OK (t1, b1, tempi) /\
    track (real_env win lag octave junk1 junk2) t (map Fin df2) = OK (t2, b2, tempi).
Proof. intros win lag pre post alpha a b octave junk1 junk2 (H1 & H2 & H3 & H4 & H5 & H6 & H7 & H8 & H9). apply real_numb; auto. Qed.
Print Assumptions C90_tracks_after_silence_refuted.
(** Two pieces that start with 36 zeros, then pulses with different periods. *)
Example C90_case :
  let df1 := repeat 0%R 36 ++ concat (repeat [1; 0; 0; 0; 0; 0]%R 20) in let df2 := repeat 0%R 36 ++ concat (repeat [1; 0; 0; 0]%R 30) in
  zlen df2 = zlen df1 /\ zlen df1 <= INT_MAX /\ (forall i, 0 <= i < 0 * 8 + 36 -> zn 0%R df1 i = zn 0%R df2 i) /\ (forall i, 0 * 8 <= i < 0 * 8 + 36 -> zn 0%R df1 i = 0%R).
Proof.
  cbv zeta. split; [reflexivity|]. split; [vm_compute; discriminate|].
  assert (Z0 : forall l i, 0 <= i < 36 -> zn 0%R (repeat 0%R 36 ++ l) i = 0%R).
  { intros l i Hi. unfold zn. destruct (Z.ltb_spec i 0); [lia|]. rewrite app_nth1 by (rewrite repeat_length; lia). apply nth_repeat. }
  split; intros i Hi; rewrite !Z0 by lia; reflexivity.
Qed.
