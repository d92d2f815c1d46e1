(** The frame loop of the older tempo tracker. *)
From Coq Require Import List ZArith Reals Lia Lra Bool.
From Verif.Base Require Import Imp RealOps Matrix Tables Arith Loops.
From Verif.Signal Require Import FramerModel FramerSpec FramerProofs.
From Verif.Maths Require Import RealModel.
From Verif.Tempo Require Import BeatModel TrackModel TrackSpec TrackParts.
Import ListNotations.
Open Scope Z_scope.

(** Loops whose body may also fail to end. *)
Lemma for_up_or {St} (P : Z -> St -> Prop) (D : Prop) lo hi f s :
  lo <= hi -> P lo s ->
  (forall i s, lo <= i < hi -> P i s -> (exists s', f i s = OK s' /\ P (i + 1) s') \/ (D /\ f i s = Diverge)) ->
  (exists s', for_up lo hi f s = OK s' /\ P hi s') \/ (D /\ for_up lo hi f s = Diverge).
Proof.
  intros Hle. pattern hi. apply (Zlt_lower_bound_ind _ lo); [|exact Hle]. clear hi Hle. intros hi IH Hle H0 Hstep.
  destruct (Z.eq_dec lo hi) as [<- |Hn].
  - left. rewrite for_up_empty by lia. eauto.
  - replace hi with (hi - 1 + 1) by lia. rewrite for_up_last by lia. destruct (IH (hi - 1)) as [(s1 & -> & H1)|(HD & ->)]; try lia; auto.
    + intros i s' Hi. apply Hstep. lia.
    + cbn [bind]. destruct (Hstep (hi - 1) s1) as [(s2 & -> & H2)|(HD & ->)]; auto; try lia.
      left. exists s2. auto.
Qed.

(** Number of frames, from Framer::setSource. *)
Lemma setSource_frames {T} win lag (f : framer T) src0 src : 1 <= lag -> at_index f src0 win lag 0 ->
  exists f', framer_setSource src f = OK f' /\ at_index f' src win lag 0 /\
    exists c, is_ceil (zlen src) lag c /\ framer_getMax f' = Z.min c INT_MAX.
Proof.
  intros Hlag (H1 & H2 & H3 & H4 & H5). unfold framer_setSource. rewrite H4. destruct (Z.eqb_spec lag 0); [lia|].
  eexists; split; [reflexivity|]. split; [unfold at_index; cbn; splits; auto|].
  pose proof (zlen_nonneg src) as Hn. rewrite Z.quot_div_nonneg by lia.
  pose proof (Z.div_mod (zlen src) lag ltac:(lia)). pose proof (Z.mod_pos_bound (zlen src) lag ltac:(lia)). unfold framer_getMax; cbn [fr_maxFrames].
  exists (if zlen src / lag * lag <? zlen src then zlen src / lag + 1 else zlen src / lag).
  split; [unfold is_ceil; destruct (Z.ltb_spec (zlen src / lag * lag) (zlen src)); nia|].
  set (c := if _ <? zlen src then _ else _). destruct (Z.ltb_spec INT_MAX c); lia.
Qed.

Section Proofs.
  Context {T S : Type} (E : env T S).
  Local Notation A := (e_arith E).
  Local Notation "0.0" := (a_of A 0).
  Local Notation Zn := (zn 0.0).

  Variables (win lag : Z).
  Hypothesis Hlag : 2 <= lag.
  Hypothesis Hwin : 4 * lag + 3 <= win.
  Hypothesis Hsix : forall p, 1 <= p <= lag -> win <> 6 * p + 2.

  (** What is known of the parts.  [strict] is whether filterbank outputs are known to be positive. *)
  Variables (I1 I2 : S -> Prop) (adm smok acfok wok : list T -> Prop) (strict : Prop).
  Hypothesis Hdf : forall s x y, I1 s -> adm x -> zlen x = win -> zlen y = win ->
    exists s' y', e_df E s x y = OK (s', y') /\ I1 s' /\ zlen y' = win /\ smok y'.
  Hypothesis Hcor : forall x y, smok x -> zlen x = win -> zlen y = win -> exists z, e_correlate E x y win = OK z /\ zlen z = win /\ acfok z.
  Hypothesis Hwok : forall w, wok w -> zlen w = lag.
  Hypothesis Hbank : forall acf w ts sc, acfok acf -> zlen acf = win -> wok w -> ts = 0 \/ ts = 3 \/ ts = 4 -> zlen sc = lag ->
    exists x, filterbank E lag acf w ts sc = OK x /\ zlen x = lag /\ Zn x 0 = 0.0 /\
      (strict -> exists i, 1 <= i < lag /\ a_lt A 0.0 (Zn x i) = true) /\
      forall s y, I2 s -> zlen y = lag -> exists s' y', e_rcf E s x y = OK (s', y') /\ I2 s' /\ zlen y' = lag.
  Hypothesis Hray : wok (ztab lag (e_rayleigh E)).
  Hypothesis Hgauss : forall per, (1 <= per)%R -> wok (ztab lag (e_gauss E per)).
  Hypothesis Hnz : e_nonzero E 0.0 = false.

  (** tempoMM. *)
  Lemma tempo_step s2 sc rcf locked acf w ts : I2 s2 -> zlen sc = lag -> zlen rcf = lag -> acfok acf -> zlen acf = win -> wok w ->
    ts = 0 \/ ts = 3 \/ ts = 4 -> tempo_value lag locked ->
    exists s2' sc' rcf' locked' m per, tempoMM E lag s2 sc rcf locked acf w ts = OK (s2', sc', rcf', locked', per) /\ I2 s2' /\ zlen sc' = lag /\
      zlen rcf' = lag /\ tempo_value lag locked' /\ 0 <= m < lag /\ (IZR m <= per < IZR m + 3 / 2)%R /\ (ts = 0 \/ strict -> 1 <= m).
  Proof.
    intros H2 Ls Lr Ha La Hw Ht Hl. destruct (Hbank acf w ts sc) as (x & Ex & Lx & X0 & Hs & Hr); auto.
    destruct (Hr s2 rcf) as (s2' & rcf' & Er & H2' & Lr'); auto.
    destruct (tempoMM_ok E lag s2 sc rcf locked acf w ts x s2' rcf') as (sc' & m & per & -> & Ls' & Hm & Hp & M1 & M2); auto; try lia.
    exists s2', sc', rcf', (new_locked m locked), m, per. splits; auto; try lia; try lra.
    - apply new_locked_ok; auto.
    - intros [H|H]; auto.
  Qed.

  Lemma round_big m x : 0 <= m < lag -> (IZR m <= x < IZR m + 3 / 2)%R -> (10000 < x)%R -> 9999 <= m.
  Proof. intros Hm Hx H. assert (K : (IZR 9998 < IZR m)%R) by (change (IZR 9998) with 9998%R; lra). apply lt_IZR in K. lia. Qed.

  (** The weights in context: all 0 so far, or made for a metre. *)
  Definition metre (ts : Z) (GW : list T) : Prop := (ts = 0 /\ Zn GW 0 = 0.0) \/ ((ts = 3 \/ ts = 4) /\ wok GW).
  (** The flag counts down from 3, so that two earlier periods exist when it is 1. *)
  Definition countdown (step k : Z) : Prop := 0 <= step <= 2 /\ (step = 2 -> 1 <= k) /\ (step = 1 -> 2 <= k).
  Definition last_ok (last fsp : Z) : Prop := last = 0 \/ last < fsp.

  (** State between frames. *)
  Definition between (df : list T) (F k : Z) (st : frame_state T S) : Prop :=
    let t := fs_t st in
    (t_win t = win /\ t_lag t = lag /\ at_index (t_framer t) df win lag (k * lag) /\ fr_maxFrames (t_framer t) = F /\ I1 (t_df t) /\ I2 (t_rcf t)) /\
    (zlen (t_raw t) = win /\ zlen (t_smooth t) = win /\ zlen (t_acf t) = win /\ zlen (t_scratch t) = lag /\ zlen (t_smoothRCF t) = lag) /\
    (zlen (fs_P st) = F /\ zlen (fs_G st) = F /\ zlen (fs_GW st) = lag /\ zlen (fs_PW st) = lag) /\
    (countdown (fs_step st) k /\ fs_const st = 0) /\ fs_fsp st = k * lag /\ metre (fs_tsig st) (fs_GW st) /\ last_ok (fs_last st) (k * lag) /\
    tempo_value lag (fs_locked st) /\ blockwise lag k (fs_beats st) /\ zlen (fs_tempi st) = k /\
    forall i, 0 <= i < k -> tempo_value lag (zn 0%R (fs_tempi st) i).

  Lemma blockwise_snoc k beats run : 0 <= k -> blockwise lag k beats -> even_beats lag k run -> blockwise lag (k + 1) (beats ++ run).
  Proof.
    intros Hk (runs & Lr & -> & Hr) He. exists (runs ++ [run]). splits; [zl; lia| |].
    - rewrite concat_app. cbn. now rewrite app_nil_r.
    - intros j Hj. rewrite zn_app by (zl; lia). destruct (Z.ltb_spec j (zlen runs)); [apply Hr; lia|].
      replace (j - zlen runs) with 0 by lia. replace j with k by lia. exact He.
  Qed.

  Definition shows (df : list T) (k : Z) (x : list T) : Prop :=
    zlen x = win /\ forall i, 0 <= i < win -> Zn x i = Zn df (k * lag + i).

  Lemma frame_ok df F rw k st : (forall x, shows df k x -> adm x) -> wok rw -> 0 <= k < F -> k * lag <= zlen df -> between df F k st ->
    (exists st', track_frame E rw k st = OK st' /\ between df F (k + 1) st') \/ (~ strict /\ track_frame E rw k st = Diverge).
  Proof.
    intros Hadm Hrw Hk Hdf' ((W & G & Fr & MF & i1 & i2) & (Lraw & Lsm & Lacf & Lsc & Lrcf) & (LP & LG & LGW & LPW) & (St & Cs) & Fsp & Ts & Last & Lock & Beats & Ltm & Tm).
    unfold track_frame. cbv zeta. rewrite W, G.
    destruct (getFrame_spec 0.0 (t_framer (fs_t st)) df win lag (k * lag) (t_raw (fs_t st))) as (fr & raw & -> & Fr' & MF' & Hraw & Vraw); auto; try lia. ret.
    destruct (Hdf (t_df (fs_t st)) raw (t_smooth (fs_t st))) as (s1 & sm & -> & i1' & Lsm' & Hsm); auto; try lia.
    { apply Hadm. split; [lia|]. intros i Hi. rewrite Vraw by lia. destruct (Z.ltb_spec i win); [reflexivity|lia]. } ret.
    destruct (Hcor sm (t_acf (fs_t st))) as (acf & -> & Lacf' & Hacf); auto. ret.
    destruct (tempo_step (t_rcf (fs_t st)) (t_scratch (fs_t st)) (t_smoothRCF (fs_t st)) (fs_locked st) acf rw 0) as (s2 & sc & rcf & lk & m & per & -> & i2' & Lsc' & Lrcf' & Lock' & Hm & Hp & Hm1); auto. ret.
    assert (Hm1' : 1 <= m) by auto. clear Hm1.
    rewrite aset_OK by lia. ret.
    set (P := upd (fs_P st) (Z.to_nat k) per).
    assert (LP' : zlen P = F) by (unfold P; zl; lia).
    assert (VP : zn 0%R P k = per) by (unfold P; rewrite zn_upd by lia; now rewrite Z.eqb_refl).
    rewrite (aget_OK 0.0) by lia. ret.
    (* the period in context *)
    match goal with |- context [if e_nonzero E (Zn (fs_GW st) 0) then ?a else ?b] => set (ctx := if e_nonzero E (Zn (fs_GW st) 0) then a else b) end.
    assert (Ctx : exists s2' sc' rcf' lk' per', ctx = OK (s2', sc', rcf', lk', per') /\ I2 s2' /\ zlen sc' = lag /\ zlen rcf' = lag /\ tempo_value lag lk' /\
      (e_nonzero E (Zn (fs_GW st) 0) = true -> exists m', 0 <= m' < lag /\ (IZR m' <= per' < IZR m' + 3 / 2)%R /\ (strict -> 1 <= m'))).
    { unfold ctx. destruct (e_nonzero E (Zn (fs_GW st) 0)) eqn:NZ.
      - destruct Ts as [(_ & Ts)|(Ts & Hw)]; [congruence|]. clear St.
        destruct (tempo_step s2 sc rcf lk acf (fs_GW st) (fs_tsig st)) as (s2' & sc' & rcf' & lk' & m' & per' & -> & H1 & H2 & H3 & H4 & H5 & H6 & H7); auto; try tauto.
        exists s2', sc', rcf', lk', per'. splits; auto. intros _. exists m'. splits; auto; lia || lra.
      - exists s2, sc, rcf, lk, 0%R. splits; auto. discriminate. }
    destruct Ctx as (s2' & sc' & rcf' & lk' & per' & -> & i2'' & Lsc'' & Lrcf'' & Lock'' & Hctx). ret.
    rewrite aset_OK by lia. ret.
    set (Gs := upd (fs_G st) (Z.to_nat k) per').
    assert (LG' : zlen Gs = F) by (unfold Gs; zl; lia).
    assert (VG : zn 0%R Gs k = per') by (unfold Gs; rewrite zn_upd by lia; now rewrite Z.eqb_refl).
    (* flags *)
    assert (Hstep : exists step, step_detect P Gs k (fs_step st) = OK step /\ (step = 3 \/ countdown step k)).
    { clear - St LP' LG' Hk. unfold step_detect. rewrite !(aget_OK 0%R) by lia. ret. rewrite ?(aget_OK 0%R) by lia. ret.
      destruct (Z.eqb_spec (fs_step st) 0); cbn [negb]; (eexists; split; [reflexivity|]); auto. destruct (Rltb _ _); auto. }
    destruct Hstep as (step & -> & Hs). ret. clear St.
    match goal with |- context [if step =? 1 then ?a else ?b] => assert (Hflag : exists step' const, (if step =? 1 then a else b) = OK (step', const) /\
       countdown (if step' <? 0 then 0 else step') (k + 1)) end.
    { clear - Hs LP' Hk. destruct (Z.eqb_spec step 1).
      - destruct Hs as [Hs|(_ & _ & Hs)]; [lia|]. specialize (Hs e). unfold const_detect. rewrite !(aget_OK 0%R) by lia. ret. rewrite ?(aget_OK 0%R) by lia. ret. rewrite ?(aget_OK 0%R) by lia. ret. ret. do 2 eexists; split; [reflexivity|]. unfold countdown. cbn. lia.
      - do 2 eexists; split; [reflexivity|]. unfold countdown in *. destruct (Z.ltb_spec (step - 1) 0); lia. }
    destruct Hflag as (step' & const & -> & Hs'). ret. clear Hs.
    (* the period chosen *)
    match goal with |- context [bind (if negb (const =? 0) then ?a else ?b) _] => set (choice := if negb (const =? 0) then a else b) end.
    assert (Ch : exists s2' sc' rcf' lk' Gs' ts GW' PW' period, choice = OK (s2', sc', rcf', lk', Gs', ts, GW', PW', 0, period) /\ I2 s2' /\ zlen sc' = lag /\ zlen rcf' = lag /\
      tempo_value lag lk' /\ zlen Gs' = F /\ zlen GW' = lag /\ zlen PW' = lag /\ metre ts GW' /\
      0 <= round_away period <= lag /\ (strict -> 1 <= round_away period)).
    { unfold choice. destruct (Z.eqb_spec const 0) as [C0|C1]; cbn [negb].
      - try (rewrite (aget_OK 0.0) by lia). ret. destruct (e_nonzero E (Zn (fs_GW st) 0)) eqn:NZ.
        + destruct (Hctx eq_refl) as (m' & H1 & H2 & H3). rewrite (aget_OK 0%R) by lia. ret. rewrite VG.
          set (period := if Rltb 10000 per' then 43%R else per').
          assert (Hper : exists mp, mp <= round_away period <= mp + 1 /\ 0 <= mp < lag /\ (strict -> 1 <= mp)).
          { unfold period. destruct (Rltb_spec 10000 per').
            - exists 43. assert (9999 <= m') by (eapply round_big; eauto). split; [|lia]. apply round_period; [lia|]. lra.
            - exists m'. split; [|split; auto]. apply round_period; auto. lia. }
          destruct Hper as (mp & P1 & P2 & P3).
          destruct (phase_extractor_ok E (fs_PW st) period (fs_fsp st) (fs_last st)) as (PW & -> & LPW'); [lia|rewrite Fsp; exact Last|]. ret.
          do 9 eexists. split; [subst const; reflexivity|]. clear - i2'' Lsc'' Lrcf'' Lock'' LG' LGW LPW LPW' Ts P1 P2 P3. splits; auto; try lia. intros HS. specialize (P3 HS). lia.
        + rewrite (aget_OK 0%R) by lia. ret. rewrite VP.
          assert (Rp : m <= round_away per <= m + 1) by (apply round_period; lia || lra).
          destruct (phase_extractor_ok E (fs_PW st) per (fs_fsp st) 0) as (PW & -> & LPW'); [lia|lia|]. ret.
          do 9 eexists. split; [subst const; reflexivity|]. clear - i2'' Lsc'' Lrcf'' Lock'' LG' LGW LPW LPW' Ts Rp Hm Hm1'. splits; auto; lia.
      - rewrite (aget_OK 0%R) by lia. ret. rewrite VP.
        assert (Rp : m <= round_away per <= m + 1) by (apply round_period; lia || lra).
        destruct (find_meter_ok E acf win per) as (ts & -> & Hts); auto; try lia. { apply Hsix. lia. } ret.
        rewrite comb_ok by auto. ret.
        assert (P1 : (1 <= per)%R) by (apply IZR_le in Hm1'; lra).
        destruct (Reqb_spec per 0); [lra|].
        destruct (tempo_step s2' sc' rcf' lk' acf (ztab lag (e_gauss E per)) ts) as (s2'' & sc'' & rcf'' & lk'' & m'' & per'' & -> & H1 & H2 & H3 & H4 & H5 & H6 & H7); auto. ret.
        rewrite aset_OK by lia. ret.
        assert (Rp' : m'' <= round_away per'' <= m'' + 1) by (apply round_period; lia || lra).
        destruct (phase_extractor_ok E (fs_PW st) per'' (fs_fsp st) 0) as (PW & -> & LPW'); [lia|lia|]. ret.
        do 9 eexists. split; [reflexivity|]. clear Hctx. clear - H1 H2 H3 H4 H5 H7 Rp' LG' LPW LPW' Hts Hgauss P1 Hlag. splits; auto; try (zl; lia).
        * right. auto.
        * intros HS. specialize (H7 (or_intror HS)). lia. }
    destruct Ch as (s2c & scc & rcfc & lkc & Gsc & tsc & GWc & PWc & period & -> & C1 & C2 & C3 & C4 & C5 & C6 & C7 & C8 & C9 & C10). ret.
    clear Hctx Ts i2'' Lsc'' Lrcf'' Lock'' i2' Lsc' Lrcf' Lock' Hp Hm Hm1' VP VG LGW LPW.
    destruct (phaseMM_ok E raw PWc win period) as (al & -> & Ha1 & Ha2); try lia. ret.
    destruct (Z.eq_dec (round_away period) 0) as [R0|R1].
    - right. assert (NS : ~ strict) by (intros HS; specialize (C10 HS); lia). split; auto. clear C10.
      replace al with 0 by lia. rewrite Fsp. rewrite beat_predict_zero by (auto; lia). reflexivity.
    - left. rewrite Fsp. destruct (beat_predict_ok k lag al period (fs_beats st)) as (last & run & -> & Ev & Hlast); try lia. ret.
      eexists; split; [reflexivity|]. unfold between. cbn [fs_t fs_P fs_G fs_step fs_const fs_fsp fs_tsig fs_last fs_GW fs_PW fs_locked fs_beats fs_tempi t_win t_lag t_framer t_df t_rcf t_raw t_smooth t_acf t_scratch t_smoothRCF].
      replace ((k + 1) * lag) with (k * lag + lag) by ring.
      clear C9 C10 Ha1 Ha2 R1. splits; auto.
      + congruence.
      + lia.
      + right. lia.
      + apply blockwise_snoc; auto; lia.
      + zl. lia.
      + intros i Hi. rewrite zn_app by (zl; lia). destruct (Z.ltb_spec i (zlen (fs_tempi st))); [apply Tm; lia|].
        replace (i - zlen (fs_tempi st)) with 0 by lia. exact C4.
  Qed.

  (** A tracker that has not processed anything yet. *)
  Definition fresh (t : tracker T S) : Prop :=
    t_win t = win /\ t_lag t = lag /\ (exists src, at_index (t_framer t) src win lag 0) /\ I1 (t_df t) /\ I2 (t_rcf t) /\
    zlen (t_raw t) = win /\ zlen (t_smooth t) = win /\ zlen (t_acf t) = win /\ zlen (t_scratch t) = lag /\ zlen (t_smoothRCF t) = lag.

  Lemma new_fresh s1 s2 junk : I1 s1 -> I2 s2 -> exists t, tracker_new win lag s1 s2 junk = OK t /\ fresh t.
  Proof.
    intros H1 H2. unfold tracker_new. destruct (Z.ltb_spec win 0); [lia|]. destruct (Z.ltb_spec lag 0); [lia|]. cbn [orb].
    unfold framer_configure. destruct (Z.ltb_spec win 0); [lia|]. destruct (Z.ltb_spec lag 0); [lia|]. cbn [orb bind].
    eexists; split; [reflexivity|]. unfold fresh. cbn. splits; auto; try (zl; lia). exists []. unfold at_index; cbn. splits; auto.
  Qed.

  Theorem track_ok t df : fresh t -> (forall k x, 0 <= k -> k * lag < zlen df -> shows df k x -> adm x) -> zlen df <= INT_MAX ->
    (exists t' beats tempi frames, track E t df = OK (t', beats, tempi) /\ blocks (zlen df) lag frames /\ blockwise lag frames beats /\
       zlen tempi = frames /\ (forall i, 0 <= i < frames -> tempo_value lag (zn 0%R tempi i))) \/
    (~ strict /\ track E t df = Diverge).
  Proof.
    intros (W & G & (src & Fr) & i1 & i2 & Lraw & Lsm & Lacf & Lsc & Lrcf) Hadm Hint.
    unfold track, track_start. rewrite W, G.
    destruct (setSource_frames win lag (t_framer t) src df ltac:(lia) Fr) as (f & -> & Fr' & c & Hc & Hmax). ret.
    pose proof (zlen_nonneg df) as Hn. unfold is_ceil in Hc.
    assert (Hc' : 0 <= c <= zlen df) by nia. rewrite Z.min_l in Hmax by lia. rewrite Hmax.
    destruct (Z.ltb_spec c 0); [lia|]. rewrite comb_ok by (zl; lia). ret. destruct (Reqb_spec 0 0); [|lra]. cbn [bind]. cbn [fs_t t_framer].
    rewrite Hmax.
    match goal with |- context [for_up 0 c ?g ?s] =>
      destruct (for_up_or (between df c) (~ strict) 0 c g s) as [(st & -> & Hst)|(HD & ->)] end.
    - lia.
    - unfold between. cbn [fs_t fs_P fs_G fs_step fs_const fs_fsp fs_tsig fs_last fs_GW fs_PW fs_locked fs_beats fs_tempi t_win t_lag t_framer t_df t_rcf t_raw t_smooth t_acf t_scratch t_smoothRCF].
      splits; auto; try lia; try (zl; lia).
      + unfold countdown. lia.
      + left. split; auto. apply zn_repeat.
      + left. reflexivity.
      + left. reflexivity.
      + exists []. splits; auto. intros; lia.
    - intros k st Hk Hst. apply (frame_ok df); auto; try nia. intros x Hx. apply (Hadm k x); auto; nia.
    - left. ret. destruct Hst as (_ & _ & _ & _ & _ & _ & _ & _ & B & L & Tm). do 4 eexists; split; [reflexivity|]. splits; eauto; try lia.
    - right. auto.
  Qed.
End Proofs.

(** *** Consequences of running evenly through every block *)
Lemma even_in lag k l x : even_beats lag k l -> In x l -> k * lag <= x < (k + 1) * lag.
Proof.
  intros (p & f & n & Hp & Hf & Hn & Hl & ->) Hx. unfold ztab in Hx. apply in_map_iff in Hx. destruct Hx as (j & <- & Hj). apply in_seq in Hj. nia.
Qed.

Lemma blockwise_in lag frames l : blockwise lag frames l -> forall x, In x l -> exists k, 0 <= k < frames /\ k * lag <= x < (k + 1) * lag.
Proof.
  intros (runs & Lr & -> & Hr) x Hx. apply in_concat in Hx. destruct Hx as (run & Hrun & Hx).
  destruct (In_nth _ _ [] Hrun) as (j & Hj & Ej). exists (Z.of_nat j).
  assert (Hk : 0 <= Z.of_nat j < frames) by (unfold zlen in Lr; lia). split; auto.
  apply (even_in lag (Z.of_nat j) run); auto. specialize (Hr (Z.of_nat j) Hk). unfold zn in Hr.
  destruct (Z.ltb_spec (Z.of_nat j) 0); [lia|]. rewrite Nat2Z.id, Ej in Hr. exact Hr.
Qed.

Lemma blockwise_each lag frames l k : blockwise lag frames l -> 0 <= k < frames -> exists x, In x l /\ k * lag <= x < (k + 1) * lag.
Proof.
  intros (runs & Lr & -> & Hr) Hk. pose proof (Hr k Hk) as He. assert (He' := He). destruct He' as (p & f & n & Hp & Hf & Hn & Hl & Er).
  exists f. assert (Hx : In f (zn [] runs k)). { rewrite Er. rewrite ztab_cons by lia. left. ring. }
  split; [|apply (even_in _ _ _ _ He Hx)]. apply in_concat. exists (zn [] runs k). split; auto.
  unfold zn. destruct (Z.ltb_spec k 0); [lia|]. apply nth_In. unfold zlen in Lr. lia.
Qed.

Lemma increasing_app a b : increasing a -> increasing b -> (forall x y, In x a -> In y b -> x < y) -> increasing (a ++ b).
Proof.
  intros Ha Hb Hab i j Hij Hj. zl. rewrite !zn_app by (zl; lia).
  destruct (Z.ltb_spec i (zlen a)), (Z.ltb_spec j (zlen a)); try lia.
  - apply Ha; lia.
  - apply Hab.
    + unfold zn. destruct (Z.ltb_spec i 0); [lia|]. apply nth_In. unfold zlen in *. lia.
    + unfold zn. destruct (Z.ltb_spec (j - zlen a) 0); [lia|]. apply nth_In. unfold zlen in *. lia.
  - apply Hb; lia.
Qed.

Lemma blockwise_increasing lag frames l : 0 <= frames -> blockwise lag frames l -> increasing l.
Proof.
  intros Hf (runs & Lr & -> & Hr). revert frames Hf Lr Hr. induction runs as [|run runs IH] using rev_ind; intros frames Hf Lr Hr.
  - intros i j Hi Hj. cbn in Hj. zl. lia.
  - zl. rewrite concat_app. cbn [concat]. rewrite app_nil_r.
    assert (Hruns : forall k, 0 <= k < zlen runs -> even_beats lag k (zn [] runs k)).
    { intros k Hk. specialize (Hr k ltac:(lia)). rewrite zn_app in Hr by (zl; lia). destruct (Z.ltb_spec k (zlen runs)); [exact Hr|lia]. }
    assert (Hrun : even_beats lag (zlen runs) run).
    { specialize (Hr (zlen runs) ltac:(pose proof (zlen_nonneg runs); lia)). rewrite zn_app in Hr by (zl; pose proof (zlen_nonneg runs); lia).
      destruct (Z.ltb_spec (zlen runs) (zlen runs)); [lia|]. rewrite Z.sub_diag in Hr. exact Hr. }
    apply increasing_app.
    + apply (IH (zlen runs)); auto. apply zlen_nonneg.
    + destruct Hrun as (p & f & n & Hp & Hff & Hn & Hl & ->). intros i j Hi Hj. rewrite zlen_ztab in Hj. rewrite !zn_ztab by lia. nia.
    + intros x y Hx Hy. pose proof (even_in _ _ _ _ Hrun Hy).
      destruct (blockwise_in lag (zlen runs) (concat runs)) with (x := x) as (k & Hk & Hb); auto.
      { exists runs. auto. } nia.
Qed.
