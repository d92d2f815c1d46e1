(** Configurations in which the older tempo tracker reads outside its arrays. *)
From Coq Require Import List ZArith Reals Lia Lra Bool.
From Verif.Base Require Import Imp RealOps Arith Loops Xreal Images.
From Verif.Signal Require Import FramerModel FilterSpec FramerSpec FramerProofs.
From Verif.Measures Require Import MeasModel MeasProofs.
From Verif.Onset Require Import PeakModel PeakSpec DfResults DfxModel DfxProofs DfxResults.
From Verif.Tempo Require Import BeatModel TrackModel TrackSpec TrackParts TrackProofs TrackReal TrackResults.
Import ListNotations.
Open Scope Z_scope.

Local Notation Zx := (zn (Fin 0)).

(** *** Finding the metre when the window is six periods and two long *)
Lemma sum_overrun {T S} (E : env T S) acf lo hi : 0 <= lo <= zlen acf -> zlen acf < hi -> sum_acf E acf lo hi = UB.
Proof.
  intros H1 H2. unfold sum_acf. rewrite (for_up_split lo (zlen acf) hi) by lia.
  match goal with |- bind (for_up lo _ ?f ?s) _ = _ => destruct (for_up_inv (fun _ _ => True) lo (zlen acf) f s) as (v & -> & _); auto; try lia end.
  { intros i s Hi _. rewrite (aget_OK (a_of (e_arith E) 0)) by lia. ret. eauto. }
  ret. rewrite for_up_first by lia. rewrite aget_UB by lia. reflexivity.
Qed.
Lemma metre_overrun {T S} (E : env T S) acf per : 1 <= round_away per -> zlen acf = 6 * round_away per + 2 -> find_meter E acf (zlen acf) per = UB.
Proof.
  intros Hp La. unfold find_meter. set (p := round_away per) in *. destruct (Z.ltb_spec (zlen acf) (6 * p + 2)); [lia|].
  destruct (sum_acf_ok E acf (3 * p - 2) (3 * p + 2 + 1)) as (u & ->); [lia|lia|]. ret.
  destruct (sum_acf_ok E acf (4 * p - 2) (4 * p + 2 + 1)) as (v & ->); [lia|lia|]. ret.
  rewrite sum_overrun by lia. reflexivity.
Qed.

(** *** A lag of two *)
Section Two.
  Variables (win pre post alpha : Z) (a b : list R) (octave : Z -> Z -> R) (junk1 junk2 : nat -> Z -> R).
  Hypothesis Hwin : 8 <= win <= 10.
  Hypothesis Hlen : zlen a = zlen b.
  Hypothesis Hord : 2 <= zlen b.
  Hypothesis Hpre : 0 <= pre.
  Hypothesis Hpost : 0 <= post.
  Hypothesis Hn : pre + post < 2.
  Hypothesis Hal : 1 <= alpha.
  Let E := real_env win 2 octave junk1 junk2.

  Lemma peak_overrun acf lo hi : 0 <= lo <= zlen acf -> zlen acf < hi -> peak_in E acf lo hi = UB.
  Proof.
    intros H1 H2. unfold peak_in. rewrite (for_up_split lo (zlen acf) hi) by lia.
    match goal with |- bind (bind (for_up lo _ ?f ?s) _) _ = _ => destruct (for_up_inv (fun _ _ => True) lo (zlen acf) f s) as (((mx & ix) & c) & -> & _); auto; try lia end.
    { intros i ((mx & ix) & c) Hi _. rewrite (aget_OK (a_of (e_arith E) 0)) by lia. ret. destruct (a_lt _ _ _); eauto. }
    ret. rewrite for_up_first by lia. rewrite aget_UB by lia. reflexivity.
  Qed.

  Theorem two_undefined junk df : 1 <= zlen df <= INT_MAX ->
    exists t, real_tracker win 2 a b pre post alpha junk = OK t /\ track E t (map Fin df) = UB.
  Proof.
    intros Hd. unfold real_tracker. rewrite !new_fin.
    assert (Hab : accepted a b) by (right; split; [destruct a; [cbn in Hlen; lia|discriminate]|exact Hlen]).
    destruct (new_ready win pre post alpha true 0%R a b Hab) with (junk := junk) as (o1 & -> & R1); auto; try lia. cbn [rmap bind].
    destruct (new_ready 2 pre post alpha true 0%R a b Hab) with (junk := junk) as (o2 & -> & R2); auto; try lia. cbn [rmap bind].
    unfold tracker_new. destruct (Z.ltb_spec win 0); [lia|]. cbn [orb Z.ltb Z.compare].
    unfold framer_configure. destruct (Z.ltb_spec win 0); [lia|]. cbn [orb Z.ltb Z.compare bind].
    eexists; split; [reflexivity|]. set (f0 := framer_reset _).
    assert (F0 : at_index f0 [] win 2 0) by (unfold at_index; splits; auto).
    unfold track, track_start. cbn [t_lag t_framer t_win t_df t_rcf t_raw t_smooth t_acf t_scratch t_smoothRCF].
    destruct (setSource_frames win 2 f0 [] (map Fin df) ltac:(lia) F0) as (f & -> & Fr & c & Hc & Hmax). ret.
    rewrite zlen_map in Hc. unfold is_ceil in Hc. rewrite Z.min_l in Hmax by lia. unfold framer_getMax in *. cbv zeta. rewrite Hmax. destruct (Z.ltb_spec c 0); [lia|].
    rewrite comb_ok by reflexivity. ret. cbn [bind fs_t t_framer]. rewrite Hmax.
    rewrite for_up_first by lia. unfold track_frame at 1.
    cbv zeta. cbn [fs_t fs_P fs_G fs_step fs_const fs_fsp fs_tsig fs_last fs_GW fs_PW fs_locked fs_beats fs_tempi t_win t_lag t_framer t_df t_rcf t_raw t_smooth t_acf t_scratch t_smoothRCF].
    destruct (getFrame_spec (Fin 0) f (map Fin df) win 2 0 (ztab win (fun i => Fin (junk i)))) as (fr & raw & Eg & Fr' & MF' & Hraw & Vraw); auto; try (zl; lia).
    change (a_of (e_arith E) 0) with (Fin 0). rewrite Eg. ret. clear Eg. rewrite zlen_ztab in Hraw by lia.
    destruct (smooth_ok pre post alpha a b Hlen Hord Hpre Hpost Hal win junk1 (lift o1, 0%nat) raw (ztab win (fun i => Fin (junk i)))) as (s1 & sm & Es & _ & Lsm & Hsm); auto; try (zl; lia).
    { left. exists o1, [], []. split; [reflexivity|exact R1]. }
    { intros i Hi. rewrite Vraw by (zl; lia). destruct (Z.ltb_spec i win); [|lia]. rewrite zx_map. eexists; reflexivity. }
    change (e_df E) with (smooth win junk1). rewrite Es. ret. clear Es.
    destruct (correlate_ok win sm (ztab win (fun i => Fin (junk i)))) as (acf & Ec & Lacf & _); auto; try (zl; lia).
    change (e_correlate E) with correlate. rewrite Ec. ret. clear Ec.
    unfold tempoMM at 1. unfold filterbank. rewrite fill_const by (zl; lia). ret.
    rewrite for_up_empty by lia. ret.
    destruct (smooth_ok pre post alpha a b Hlen Hord Hpre Hpost Hal 2 junk2 (lift o2, 0%nat) (ztab 2 (fun _ => Fin 0)) (ztab 2 (fun i => Fin (junk i)))) as (s2 & rcf & Es & _ & Lrcf & _); auto; try (zl; lia).
    { left. exists o2, [], []. split; [reflexivity|exact R2]. }
    { intros i Hi. rewrite zn_ztab by lia. eexists; reflexivity. }
    change (a_of (e_arith E) 0) with (Fin 0). change (e_rcf E) with (smooth 2 junk2). rewrite Es. ret. clear Es. cbn [Z.eqb negb].
    destruct (best_pair_ok E 2 rcf (ztab 2 (fun _ => Fin 0))) as (sc & m & -> & Lsc & Hm); auto; try lia. ret.
    assert (m = 1) as -> by lia. cbv zeta.
    destruct (peak_in_ok E acf ((2 * 1 + 1) - 1) ((2 * 1 + 1) + 2)) as (i1 & -> & _); [lia|lia|]. ret.
    destruct (peak_in_ok E acf ((3 * 1 + 2) - 2) ((3 * 1 + 2) + 3)) as (i2 & -> & _); [lia|lia|]. ret.
    cbn [Z.eqb]. rewrite peak_overrun by lia. reflexivity.
  Qed.
End Two.
