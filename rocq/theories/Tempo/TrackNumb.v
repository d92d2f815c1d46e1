(** The older tempo tracker after a window of its detection function that is zero throughout. *)
From Coq Require Import List ZArith Reals Lia Lra Bool.
From Verif.Base Require Import Imp RealOps Arith Loops Xreal Images.
From Verif.Signal Require Import FramerModel FilterSpec FramerSpec FramerProofs.
From Verif.Onset Require Import PeakModel DfResults DfxModel DfxProofs DfxResults.
From Verif.Tempo Require Import BeatModel TrackModel TrackSpec TrackParts TrackProofs TrackReal TrackResults TrackRuns TrackScale.
Import ListNotations.
Open Scope Z_scope.

Local Notation Zx := (zn (Fin 0)).

Lemma frame_df {T S} (E : env T S) rw i st st' : track_frame E rw i st = OK st' ->
  exists fr raw, framer_getFrame (a_of (e_arith E) 0) (t_framer (fs_t st)) (t_raw (fs_t st)) = OK (fr, raw) /\ t_framer (fs_t st') = fr /\ t_raw (fs_t st') = raw /\
    e_df E (t_df (fs_t st)) raw (t_smooth (fs_t st)) = OK (t_df (fs_t st'), t_smooth (fs_t st')).
Proof.
  unfold track_frame. cbv zeta. destruct (framer_getFrame (a_of (e_arith E) 0) (t_framer (fs_t st)) (t_raw (fs_t st))) as [(fr & raw)| | |]; [|discriminate..].
  intros H. exists fr, raw. split; [reflexivity|]. revert H. cbn [bind].
  destruct (e_df E (t_df (fs_t st)) raw (t_smooth (fs_t st))) as [(d & sm)| | |]; [|discriminate..]. cbn [bind].
  repeat match goal with
    | |- bind ?x _ = OK _ -> _ => destruct x; cbn [bind]; [|discriminate..]
    | |- context [let '(_, _) := ?p in _] => destruct p
    | |- (match ?p with pair _ _ => _ end) = _ -> _ => destruct p
    end.
  intros H. injection H as <-. cbn. auto.
Qed.

(** A frame writes its own entries of the tables of periods, no others. *)
Definition same_but {T} (z : T) (i : Z) (l l' : list T) : Prop := zlen l' = zlen l /\ forall j, j <> i -> zn z l' j = zn z l j.
Lemma aset_but {T} (z : T) l i v l' : aset l i v = OK l' -> same_but z i l l'.
Proof.
  unfold aset. destruct (Z.leb_spec 0 i); [|discriminate]. destruct (Z.ltb_spec i (zlen l)); [|discriminate]. cbn [andb]. intros Q. injection Q as <-. split; [zl; lia|].
  intros j Hj. destruct (Z_lt_le_dec j 0); [rewrite !zn_out by (zl; lia); reflexivity|].
  destruct (Z_lt_le_dec j (zlen l)); [|rewrite !zn_out by (zl; lia); reflexivity]. rewrite zn_upd by lia. destruct (Z.eqb_spec j i); [contradiction|reflexivity].
Qed.
Lemma but_trans {T} (z : T) i l l' l'' : same_but z i l l' -> same_but z i l' l'' -> same_but z i l l''.
Proof. intros (A & B) (C & D). split; [congruence|]. intros j Hj. rewrite D, B; auto. Qed.

Lemma frame_tables {T S} (E : env T S) rw i st st' : track_frame E rw i st = OK st' -> same_but 0%R i (fs_P st) (fs_P st') /\ same_but 0%R i (fs_G st) (fs_G st').
Proof.
  unfold track_frame. cbv zeta.
  match goal with |- bind ?x _ = _ -> _ => destruct x as [(fr & raw)| | |]; [|discriminate..] end. cbn [bind].
  match goal with |- bind ?x _ = _ -> _ => destruct x as [(d1 & sm)| | |]; [|discriminate..] end. cbn [bind].
  match goal with |- bind ?x _ = _ -> _ => destruct x as [acf| | |]; [|discriminate..] end. cbn [bind].
  match goal with |- bind ?x _ = _ -> _ => destruct x as [((((d2' & sc') & rcf') & lk') & per)| | |]; [|discriminate..] end. cbn [bind].
  match goal with |- bind ?x _ = _ -> _ => destruct x as [P| | |] eqn:EP; [|discriminate..] end. cbn [bind]. apply (aset_but 0%R) in EP.
  match goal with |- bind ?x _ = _ -> _ => destruct x as [g0| | |]; [|discriminate..] end. cbn [bind].
  match goal with |- bind ?x _ = _ -> _ => destruct x as [((((d2c & scc) & rcfc) & lkc) & perc)| | |]; [|discriminate..] end. cbn [bind].
  match goal with |- bind ?x _ = _ -> _ => destruct x as [G| | |] eqn:EG; [|discriminate..] end. cbn [bind]. apply (aset_but 0%R) in EG.
  match goal with |- bind ?x _ = _ -> _ => destruct x as [s| | |]; [|discriminate..] end. cbn [bind].
  match goal with |- bind ?x _ = _ -> _ => destruct x as [(s' & cs)| | |]; [|discriminate..] end. cbn [bind].
  match goal with |- bind ?x _ = _ -> _ => assert (Q : forall d2e sce rcfe lke Ge tse GWe PWe cse pere, x = OK (d2e, sce, rcfe, lke, Ge, tse, GWe, PWe, cse, pere) -> same_but 0%R i G Ge); [|
    destruct x as [(((((((((d2e & sce) & rcfe) & lke) & Ge) & tse) & GWe) & PWe) & cse) & pere)| | |]; [|discriminate..]] end.
  { intros d2e sce rcfe lke Ge tse GWe PWe cse pere. destruct (negb (cs =? 0)).
    - match goal with |- bind ?x _ = _ -> _ => destruct x as [p| | |]; [|discriminate..] end. cbn [bind].
      match goal with |- bind ?x _ = _ -> _ => destruct x as [ts| | |]; [|discriminate..] end. cbn [bind].
      match goal with |- bind ?x _ = _ -> _ => destruct x as [GW'| | |]; [|discriminate..] end. cbn [bind].
      match goal with |- bind ?x _ = _ -> _ => destruct x as [((((a1 & a2) & a3) & a4) & a5)| | |]; [|discriminate..] end. cbn [bind].
      match goal with |- bind ?x _ = _ -> _ => destruct x as [G'| | |] eqn:EG'; [|discriminate..] end. cbn [bind]. apply (aset_but 0%R) in EG'.
      match goal with |- bind ?x _ = _ -> _ => destruct x as [PW'| | |]; [|discriminate..] end. cbn [bind]. intros Q. injection Q as <- <- <- <- <- <- <- <- <- <-. exact EG'.
    - destruct (e_nonzero E g0); (match goal with |- bind ?x _ = _ -> _ => destruct x as [p| | |]; [|discriminate..] end); cbn [bind];
        (match goal with |- bind ?x _ = _ -> _ => destruct x as [PW'| | |]; [|discriminate..] end); cbn [bind]; intros Q; injection Q as <- <- <- <- <- <- <- <- <- <-; split; auto. }
  specialize (Q _ _ _ _ _ _ _ _ _ _ eq_refl). cbn [bind].
  match goal with |- bind ?x _ = _ -> _ => destruct x as [al| | |]; [|discriminate..] end. cbn [bind].
  match goal with |- bind ?x _ = _ -> _ => destruct x as [(lst & bs)| | |]; [|discriminate..] end. cbn [bind].
  intros R. injection R as <-. cbn [fs_P fs_G]. split; [exact EP|]. eapply but_trans; eauto.
Qed.

Section Numb.
  Variables (win lag pre post alpha : Z) (a b : list R) (octave : Z -> Z -> R) (junk1 junk2 : nat -> Z -> R).
  Hypotheses (Hlag : 3 <= lag) (Hwin : 4 * lag + 3 <= win) (Hsix : forall p, 1 <= p <= lag -> win <> 6 * p + 2)
    (Hlen : zlen a = zlen b) (Hord : 2 <= zlen b) (Hpre : 0 <= pre) (Hpost : 0 <= post) (Hpp : pre + post < lag) (Halpha : 1 <= alpha).
  Let E := real_env win lag octave junk1 junk2.
  Notation ready_df := (sm_ready pre post alpha a b win).
  Notation numb_df s := (numb win pre post alpha true 0%R a b (fst s)).

  (** A state between frames. *)
  Definition going (k : Z) (df : list R) (s : frame_state xr smoother) : Prop :=
    at_index (t_framer (fs_t s)) (map Fin df) win lag (k * lag) /\ zlen (t_raw (fs_t s)) = win /\ zlen (t_smooth (fs_t s)) = win /\ ready_df (t_df (fs_t s)).

  Lemma frame_going rw k df s s' : 0 <= k -> k * lag <= zlen df -> going k df s -> track_frame E rw k s = OK s' ->
    going (k + 1) df s' /\ ((forall i, k * lag <= i < k * lag + win -> zn 0%R df i = 0%R) -> numb_df (t_df (fs_t s'))).
  Proof.
    intros Hk L (I & Lr & Ls & R) Ef. destruct (frame_df _ _ _ _ _ Ef) as (fr & raw & Eg & F1 & F2 & Ed).
    destruct (getFrame_spec (Fin 0) (t_framer (fs_t s)) (map Fin df) win lag (k * lag) (t_raw (fs_t s))) as (f' & d' & Eg' & Hf' & _ & Hd' & Vd); auto; try lia; try nia.
    { zl; lia. }
    change (a_of (e_arith E) 0) with (Fin 0) in Eg. rewrite Eg in Eg'. injection Eg' as E1 E2. subst f' d'.
    assert (Vr : raw = map Fin (ztab win (fun i => zn 0%R df (k * lag + i)))).
    { apply (zn_ext (Fin 0)); [zl; lia|]. intros i Hi. rewrite Vd by lia. destruct (Z.ltb_spec i win); [|lia]. rewrite !zx_map, zn_ztab by lia. reflexivity. }
    change (e_df E) with (smooth win junk1) in Ed.
    destruct (smooth_ok pre post alpha a b Hlen Hord Hpre Hpost Halpha win junk1 (t_df (fs_t s)) raw (t_smooth (fs_t s))) as (s2 & y2 & Es & R2 & Ly & _); auto; try lia.
    { intros i Hi. rewrite Vr, zx_map. eexists; reflexivity. }
    rewrite Ed in Es. injection Es as E1 E2.
    split.
    - unfold going. rewrite F1, F2. replace ((k + 1) * lag) with (k * lag + lag) by ring. splits; auto; [lia|rewrite E2; exact Ly|rewrite E1; exact R2].
    - intros Hz. revert Ed. unfold smooth. rewrite Vr, finite_map.
      assert (Sl : silent win (ztab win (fun i => zn 0%R df (k * lag + i)))) by (intros i Hi; rewrite zn_ztab by lia; apply Hz; lia).
      destruct R as [(o & xs & ys & Eo & R)|N].
      + rewrite Eo. destruct (silent_call win pre post alpha true 0%R a b Hlen Hord Hpre Hpost ltac:(lia) Halpha o xs ys (ztab win (junk1 (snd (t_df (fs_t s))))) (ztab win (fun i => zn 0%R df (k * lag + i))) (t_smooth (fs_t s)))
          as (x' & -> & N'); auto; try (zl; lia). cbn [bind]. intros Q. injection Q as Q _. rewrite <- Q. exact N'.
      + destruct (numb_call win pre post alpha true 0%R a b Hlen Hord Hpre Hpost ltac:(lia) Halpha (fst (t_df (fs_t s))) (ztab win (junk1 (snd (t_df (fs_t s))))) (ztab win (fun i => zn 0%R df (k * lag + i))) (t_smooth (fs_t s)))
          as (x' & -> & N'); auto; try (zl; lia). cbn [bind]. intros Q. injection Q as Q _. rewrite <- Q. exact N'.
  Qed.

  (** Two runs that differ in nothing that the tempi depend on. *)
  Definition deaf (k : Z) (df1 df2 : list R) (s1 s2 : frame_state xr smoother) : Prop :=
    at_index (t_framer (fs_t s1)) (map Fin df1) win lag (k * lag) /\ at_index (t_framer (fs_t s2)) (map Fin df2) win lag (k * lag) /\
    zlen (t_raw (fs_t s1)) = win /\ zlen (t_raw (fs_t s2)) = win /\ zlen (t_smooth (fs_t s1)) = win /\ numb_df (t_df (fs_t s1)) /\ numb_df (t_df (fs_t s2)) /\
    exists fr d raw last PW beats, s2 = mkFS (mkTracker (t_win (fs_t s1)) (t_lag (fs_t s1)) fr d (t_rcf (fs_t s1)) raw (t_smooth (fs_t s1))
       (t_acf (fs_t s1)) (t_scratch (fs_t s1)) (t_smoothRCF (fs_t s1))) (fs_P s1) (fs_G s1) (fs_step s1) (fs_const s1) (fs_fsp s1) (fs_tsig s1) last (fs_GW s1) PW
       (fs_locked s1) beats (fs_tempi s1).

  Lemma smooth_numb n junk s x y : lag <= n -> numb n pre post alpha true 0%R a b (fst s) -> (forall i, 0 <= i < n -> xfin (Zx x i)) -> zlen x = n -> zlen y = n ->
    exists s', smooth n junk s x y = OK (s', repeat (Fin 0) (Z.to_nat n)) /\ numb n pre post alpha true 0%R a b (fst s').
  Proof.
    intros Ln N Hx Lx Ly. unfold smooth. destruct (finite_all x) as (xs & -> & ->). { intros i Hi. apply Hx. lia. }
    rewrite zlen_map in Lx.
    destruct (numb_call n pre post alpha true 0%R a b Hlen Hord Hpre Hpost ltac:(lia) Halpha (fst s) (ztab n (junk (snd s))) xs y) as (x' & -> & N'); auto; try (zl; lia).
    cbn [bind blank]. rewrite skipn_all2, app_nil_r by (unfold zlen in *; lia). eexists; split; [reflexivity|exact N'].
  Qed.

  Lemma frame_deaf rw k df1 df2 s1 s2 s1' s2' : 0 <= k -> k * lag <= zlen df1 -> k * lag <= zlen df2 ->
    deaf k df1 df2 s1 s2 -> track_frame E rw k s1 = OK s1' -> track_frame E rw k s2 = OK s2' -> deaf (k + 1) df1 df2 s1' s2'.
  Proof.
    intros Hk L1 L2 (I1 & I2 & Lr & Lr2 & Lsm & N1 & N2 & fr & d & raw2 & last2 & PW2 & bs2 & E2).
    destruct s1 as [[w l f1 d1 d2 raw sm acf sc rcf] P1 G1 step cs fsp ts last GW PW lk bs tm].
    cbn [fs_t t_win t_lag t_framer t_df t_rcf t_raw t_smooth t_acf t_scratch t_smoothRCF fs_P fs_G fs_step fs_const fs_fsp fs_tsig fs_last fs_GW fs_PW fs_locked fs_beats fs_tempi] in *.
    subst s2. cbn [fs_t t_win t_lag t_framer t_df t_rcf t_raw t_smooth t_acf t_scratch t_smoothRCF fs_P fs_G fs_step fs_const fs_fsp fs_tsig fs_last fs_GW fs_PW fs_locked fs_beats fs_tempi] in *.
    unfold track_frame. cbv zeta.
    cbn [fs_t t_win t_lag t_framer t_df t_rcf t_raw t_smooth t_acf t_scratch t_smoothRCF fs_P fs_G fs_step fs_const fs_fsp fs_tsig fs_last fs_GW fs_PW fs_locked fs_beats fs_tempi].
    change (a_of (e_arith E) 0) with (Fin 0).
    destruct (getFrame_spec (Fin 0) f1 (map Fin df1) win lag (k * lag) raw) as (f1' & r1 & -> & Hf1 & _ & Hr1 & Vr1); auto; try (zl; lia); try nia.
    destruct (getFrame_spec (Fin 0) fr (map Fin df2) win lag (k * lag) raw2) as (f2' & r2 & -> & Hf2 & _ & Hr2 & Vr2); auto; try (zl; lia); try nia.
    cbn [bind]. change (e_df E) with (smooth win junk1).
    assert (Fr : forall df r, (forall i, 0 <= i < zlen r -> Zx r i = if i <? win then Zx (map Fin df) (k * lag + i) else Zx raw i) -> zlen r = win -> forall i, 0 <= i < win -> xfin (Zx r i)).
    { intros df r V Lz i Hi. rewrite V by lia. destruct (Z.ltb_spec i win); [|lia]. rewrite zx_map. eexists; reflexivity. }
    destruct (smooth_numb win junk1 d1 r1 sm) as (d1' & -> & N1'); auto; try lia. { apply (Fr df1); auto; [|lia]. intros i Hi. rewrite Vr1 by lia. reflexivity. }
    destruct (smooth_numb win junk1 d r2 sm) as (d' & -> & N2'); auto; try lia. { apply (Fr df2); auto; [|lia]. intros i Hi. rewrite Vr2 by lia. destruct (Z.ltb_spec i win); [reflexivity|lia]. }
    cbn [bind].
    destruct (e_correlate E (repeat (Fin 0) (Z.to_nat win)) acf w) as [acf'| | |]; [|discriminate..]. cbn [bind].
    destruct (tempoMM E l d2 sc rcf lk acf' rw 0) as [((((d2' & sc') & rcf') & lk') & per)| | |]; [|discriminate..]. cbn [bind].
    destruct (aset P1 k per) as [P1'| | |]; [|discriminate..]. cbn [bind].
    destruct (aget GW 0) as [g0| | |]; [|discriminate..]. cbn [bind].
    match goal with |- bind ?x _ = _ -> _ => destruct x as [((((d2c & scc) & rcfc) & lkc) & perc)| | |]; [|discriminate..] end. cbn [bind].
    destruct (aset G1 k perc) as [G1'| | |]; [|discriminate..]. cbn [bind].
    destruct (step_detect P1' G1' k step) as [step1| | |]; [|discriminate..]. cbn [bind].
    match goal with |- bind ?x _ = _ -> _ => destruct x as [(step2 & cs2)| | |]; [|discriminate..] end. cbn [bind].
    assert (Done : forall d2x scx rcfx lkx Gx tsx GWx PWx PWy csx period,
      (alignment <- phaseMM E r1 PWx w period ;; '(lst, beats) <- beat_predict fsp alignment period l bs ;;
       OK (mkFS (mkTracker w l f1' d1' d2x r1 (repeat (Fin 0) (Z.to_nat win)) acf' scx rcfx) P1' Gx (if step2 <? 0 then 0 else step2) csx (fsp + l) tsx lst GWx PWx lkx beats (tm ++ [lkx]))) = OK s1' ->
      (alignment <- phaseMM E r2 PWy w period ;; '(lst, beats) <- beat_predict fsp alignment period l bs2 ;;
       OK (mkFS (mkTracker w l f2' d' d2x r2 (repeat (Fin 0) (Z.to_nat win)) acf' scx rcfx) P1' Gx (if step2 <? 0 then 0 else step2) csx (fsp + l) tsx lst GWx PWy lkx beats (tm ++ [lkx]))) = OK s2' ->
      deaf (k + 1) df1 df2 s1' s2').
    { intros d2x scx rcfx lkx Gx tsx GWx PWx PWy csx period.
      destruct (phaseMM E r1 PWx w period) as [al| | |]; [|discriminate..]. cbn [bind]. destruct (beat_predict fsp al period l bs) as [(lst & beats)| | |]; [|discriminate..]. cbn [bind]. intros R1. injection R1 as <-.
      destruct (phaseMM E r2 PWy w period) as [al2| | |]; [|discriminate..]. cbn [bind]. destruct (beat_predict fsp al2 period l bs2) as [(lst2 & beats2)| | |]; [|discriminate..]. cbn [bind]. intros R2. injection R2 as <-.
      unfold deaf. cbn [fs_t t_win t_lag t_framer t_df t_rcf t_raw t_smooth t_acf t_scratch t_smoothRCF fs_P fs_G fs_step fs_const fs_fsp fs_tsig fs_last fs_GW fs_PW fs_locked fs_beats fs_tempi].
      replace ((k + 1) * lag) with (k * lag + lag) by ring. splits; auto; try lia; [zl; lia|]. do 6 eexists. reflexivity. }
    destruct (negb (cs2 =? 0)).
    - destruct (aget P1' k) as [p| | |]; [|discriminate..]. cbn [bind].
      destruct (find_meter E acf' w p) as [ts'| | |]; [|discriminate..]. cbn [bind].
      destruct (comb_filter E GW l p) as [GW'| | |]; [|discriminate..]. cbn [bind].
      destruct (tempoMM E l d2c scc rcfc lkc acf' GW' ts') as [((((d2e & sce) & rcfe) & lke) & pere)| | |]; [|discriminate..]. cbn [bind].
      destruct (aset G1' k pere) as [Ge| | |]; [|discriminate..]. cbn [bind].
      destruct (phase_extractor E PW pere fsp 0) as [PWx| | |]; [|discriminate..]. destruct (phase_extractor E PW2 pere fsp 0) as [PWy| | |]; [|cbn [bind]; discriminate..]. cbn [bind].
      apply Done.
    - destruct (e_nonzero E g0).
      + destruct (aget G1' k) as [p| | |]; [|discriminate..]. cbn [bind].
        match goal with |- context [phase_extractor E PW ?p fsp last] => destruct (phase_extractor E PW p fsp last) as [PWx| | |]; [|discriminate..]; destruct (phase_extractor E PW2 p fsp last2) as [PWy| | |]; [|cbn [bind]; discriminate..] end.
        cbn [bind]. apply Done.
      + destruct (aget P1' k) as [p| | |]; [|discriminate..]. cbn [bind].
        destruct (phase_extractor E PW p fsp 0) as [PWx| | |]; [|discriminate..]. destruct (phase_extractor E PW2 p fsp 0) as [PWy| | |]; [|cbn [bind]; discriminate..]. cbn [bind]. apply Done.
  Qed.

  Lemma going_run rw df F s s' : 0 <= F -> (F - 1) * lag <= zlen df -> going 0 df s -> for_up 0 F (track_frame E rw) s = OK s' -> going F df s'.
  Proof.
    intros HF L H. apply (for_up_pres (fun k => going k df)); auto. intros k x x' Hk Hx Ex. apply (frame_going rw k df x x'); auto; try lia. nia.
  Qed.

  Theorem numb_track t df1 df2 k t1 t2 b1 b2 te1 te2 : at_frame win lag 0 t -> zlen (t_smooth t) = win -> ready_df (t_df t) -> zlen df1 <= INT_MAX -> zlen df2 = zlen df1 ->
    0 <= k -> k * lag < zlen df1 -> (forall i, 0 <= i < k * lag + win -> zn 0%R df1 i = zn 0%R df2 i) -> (forall i, k * lag <= i < k * lag + win -> zn 0%R df1 i = 0%R) ->
    track E t (map Fin df1) = OK (t1, b1, te1) -> track E t (map Fin df2) = OK (t2, b2, te2) -> te1 = te2.
  Proof.
    intros Ht Lsm Rd L1 L2 Hk Kl Same Hz. unfold track.
    assert (Lm1 : zlen (map Fin df1) = zlen df1) by (zl; lia). assert (Lm2 : zlen (map Fin df2) = zlen df1) by (zl; lia).
    destruct (start_ok E win lag 0 t (map Fin df1) ltac:(lia) Ht ltac:(lia)) as (F1 & rw1 & s1 & E1 & B1 & P1 & M1 & I1 & R1 & S1). rewrite E1. cbn [bind]. rewrite M1.
    destruct (start_ok E win lag 0 t (map Fin df2) ltac:(lia) Ht ltac:(lia)) as (F2 & rw2 & s2 & E2 & B2 & P2 & M2 & I2 & R2 & S2). rewrite E2. cbn [bind]. rewrite M2. subst rw1 rw2.
    rewrite Lm1 in B1. rewrite Lm2 in B2. unfold blocks in *. assert (F2 = F1) as -> by nia.
    assert (k + 1 <= F1) by nia. rewrite !(for_up_split 0 (k + 1) F1) by lia. set (rw := ztab lag (e_rayleigh E)).
    destruct (for_up 0 (k + 1) (track_frame E rw) s1) as [m1| | |] eqn:A1; [|discriminate..]. cbn [bind].
    destruct (for_up 0 (k + 1) (track_frame E rw) s2) as [m2| | |] eqn:A2; [|cbn [bind]; discriminate..]. cbn [bind].
    destruct (for_up (k + 1) F1 (track_frame E rw) m1) as [e1| | |] eqn:C1; [|discriminate..]. cbn [bind].
    destruct (for_up (k + 1) F1 (track_frame E rw) m2) as [e2| | |] eqn:C2; [|cbn [bind]; discriminate..]. cbn [bind].
    intros Q1 Q2. injection Q1 as _ _ <-. injection Q2 as _ _ <-.
    destruct Ht as (W & G & Lr & _).
    (* the same up to the silent frame *)
    assert (Al : alike win lag (k + 1) (map Fin df1) (map Fin df2) F1 F1 m1 m2).
    { refine (for_up_sim (fun j => alike win lag j (map Fin df1) (map Fin df2) F1 F1) 0 (k + 1) _ _ s1 s2 m1 m2 _ _ _ A1 A2); try lia.
      - unfold alike. rewrite S1, S2. cbn [fs_t t_framer t_raw fs_P fs_G]. splits; auto; try (zl; lia); try (intros; lia). do 3 eexists. reflexivity.
      - intros j x y x' y' Hj Hxy Ex Ey. apply (frame_alike E win lag rw j (map Fin df1) (map Fin df2) F1 F1 x y x' y'); auto; try lia; try nia.
        change (a_of (e_arith E) 0) with (Fin 0). intros i Hi. rewrite !zx_map, Same; auto. nia. }
    assert (Gm : going (k + 1) df1 m1 /\ numb_df (t_df (fs_t m1))).
    { rewrite for_up_last in A1 by lia. destruct (for_up 0 k (track_frame E rw) s1) as [z| | |] eqn:B; [|discriminate..]. cbn [bind] in A1.
      assert (Gz : going k df1 z).
      { apply (going_run rw df1 k s1 z); auto; try nia. unfold going. rewrite S1 at 2 3 4. cbn [fs_t t_raw t_smooth t_df]. splits; auto. }
      destruct (frame_going rw k df1 z m1 ltac:(lia) ltac:(lia) Gz A1) as (G1 & G2). auto. }
    destruct Gm as ((g1 & g2 & g3 & g4) & Nm). destruct Al as (a1 & a2 & a3 & a4 & a5 & a6 & a7 & a8 & fr & P & G' & Em2).
    assert (Un : forall s0 m, s0 = s1 \/ s0 = s2 -> for_up 0 (k + 1) (track_frame E rw) s0 = OK m -> forall i, k + 1 <= i -> zn 0%R (fs_P m) i = 0%R /\ zn 0%R (fs_G m) i = 0%R).
    { intros s0 m Hs0 Er. revert Er.
      apply (for_up_pres (fun j x => forall i, j <= i -> zn 0%R (fs_P x) i = 0%R /\ zn 0%R (fs_G x) i = 0%R) 0 (k + 1)); try lia.
      - intros i Hi. destruct Hs0 as [-> | ->]; [rewrite S1|rewrite S2]; cbn [fs_P fs_G]; now rewrite !zn_repeat.
      - intros j x x' Hj Hx Ex i Hi. destruct (frame_tables _ _ _ _ _ Ex) as ((_ & T1) & (_ & T2)). rewrite T1, T2 by lia. apply Hx. lia. }
    assert (HP : P = fs_P m1 /\ G' = fs_G m1).
    { pose proof (Un s1 m1 (or_introl eq_refl) A1) as U1. pose proof (Un s2 m2 (or_intror eq_refl) A2) as U2. rewrite Em2 in a5, a7, a8, U2. cbn [fs_P fs_G] in a5, a7, a8, U2.
      split; apply (zn_ext 0%R); try lia; intros i Hi; (destruct (Z_lt_le_dec i (k + 1)) as [L|L]; [symmetry; apply a8; lia|]);
        destruct (U1 i ltac:(lia)) as (V1 & V2), (U2 i ltac:(lia)) as (W1 & W2); congruence. }
    destruct HP as (-> & ->).
    assert (De : deaf F1 df1 df2 e1 e2).
    { refine (for_up_sim (fun j => deaf j df1 df2) (k + 1) F1 _ _ m1 m2 e1 e2 _ _ _ C1 C2); try lia.
      - unfold deaf. splits; auto; rewrite Em2; cbn [fs_t t_raw t_df]; auto. do 6 eexists. reflexivity.
      - intros j x y x' y' Hj Hxy Ex Ey. apply (frame_deaf rw j df1 df2 x y x' y'); auto; try lia; try nia. }
    destruct De as (_ & _ & _ & _ & _ & _ & _ & fr' & d & raw & last & PW & beats & ->). reflexivity.
  Qed.

  Theorem real_numb junk df1 df2 k : zlen df1 <= INT_MAX -> zlen df2 = zlen df1 -> 0 <= k -> k * lag < zlen df1 ->
    (forall i, 0 <= i < k * lag + win -> zn 0%R df1 i = zn 0%R df2 i) -> (forall i, k * lag <= i < k * lag + win -> zn 0%R df1 i = 0%R) ->
    exists t t1 t2 b1 b2 tempi, real_tracker win lag a b pre post alpha junk = OK t /\ track E t (map Fin df1) = OK (t1, b1, tempi) /\ track E t (map Fin df2) = OK (t2, b2, tempi).
  Proof.
    intros L1 L2 Hk Kl Same Hz.
    destruct (real_track win lag pre post alpha a b octave junk1 junk2 Hlag Hwin Hsix Hlen Hord Hpre Hpost Hpp Halpha junk df1 L1) as (t & t1 & b1 & te1 & _ & Et & E1 & _).
    destruct (real_track win lag pre post alpha a b octave junk1 junk2 Hlag Hwin Hsix Hlen Hord Hpre Hpost Hpp Halpha junk df2 ltac:(lia)) as (t' & t2 & b2 & te2 & _ & Et' & E2 & _).
    rewrite Et in Et'. injection Et' as <-. exists t, t1, t2, b1, b2, te1. split; [exact Et|]. split; [exact E1|].
    assert (Q : at_frame win lag 0 t /\ zlen (t_smooth t) = win /\ ready_df (t_df t)).
    { revert Et. unfold real_tracker. rewrite !new_fin.
      assert (Hab : accepted a b) by (right; split; [destruct a; [cbn in Hlen; lia|discriminate]|exact Hlen]).
      destruct (new_ready win pre post alpha true 0%R a b Hab) with (junk := junk) as (o1 & Q1 & R1); auto; try lia. rewrite Q1. cbn [rmap bind].
      destruct (new_ready lag pre post alpha true 0%R a b Hab) with (junk := junk) as (o2 & Q2 & R2); auto; try lia. rewrite Q2. cbn [rmap bind].
      destruct (new_fresh win lag ltac:(lia) Hwin ready_df (fun _ => True) (lift o1, 0%nat) (lift o2, 0%nat) (fun i => Fin (junk i))) as (tt & Ett & Ft); auto.
      { left. exists o1, [], []. split; [reflexivity|exact R1]. }
      intros Et. assert (Ee : OK tt = OK t) by (rewrite <- Ett; exact Et). injection Ee as ->. destruct Ft as (W & G & Hs & S1 & _ & Lr & Lsm & _). split; [unfold at_frame; auto|auto]. }
    destruct Q as (Q1 & Q2 & Q3).
    rewrite (numb_track t df1 df2 k t1 t2 b1 b2 te1 te2); auto.
  Qed.
End Numb.
