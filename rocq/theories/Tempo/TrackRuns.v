(** Whole runs of the older tempo tracker, for any arithmetic: using an object again, and causality. *)
From Coq Require Import List ZArith Reals Lia Lra Bool.
From Verif.Base Require Import Imp RealOps Arith Loops.
From Verif.Signal Require Import FramerModel FramerSpec FramerProofs.
From Verif.Tempo Require Import BeatModel TrackModel TrackSpec TrackParts TrackProofs.
Import ListNotations.
Open Scope Z_scope.

(** *** Loops that end *)
Lemma for_up_pres {St} (P : Z -> St -> Prop) lo hi f s s' : lo <= hi -> P lo s ->
  (forall i s s', lo <= i < hi -> P i s -> f i s = OK s' -> P (i + 1) s') -> for_up lo hi f s = OK s' -> P hi s'.
Proof.
  intros Hle. revert s'. pattern hi. apply (Zlt_lower_bound_ind _ lo); [|exact Hle]. clear hi Hle. intros hi IH Hle s' H0 Hs Ef.
  destruct (Z.eq_dec lo hi) as [<- |Hn].
  - rewrite for_up_empty in Ef by lia. injection Ef as <-. exact H0.
  - replace hi with (hi - 1 + 1) in Ef by lia. rewrite for_up_last in Ef by lia. apply bind_OK in Ef. destruct Ef as (s1 & E1 & E2).
    replace hi with (hi - 1 + 1) by lia. apply (Hs (hi - 1) s1 s'); auto; try lia. apply (IH (hi - 1)); auto; try lia.
    intros i a b Hi. apply Hs. lia.
Qed.

Lemma for_up_sim {St St'} (P : Z -> St -> St' -> Prop) lo hi f g s t s' t' : lo <= hi -> P lo s t ->
  (forall i s t s' t', lo <= i < hi -> P i s t -> f i s = OK s' -> g i t = OK t' -> P (i + 1) s' t') ->
  for_up lo hi f s = OK s' -> for_up lo hi g t = OK t' -> P hi s' t'.
Proof.
  intros Hle. revert s' t'. pattern hi. apply (Zlt_lower_bound_ind _ lo); [|exact Hle]. clear hi Hle. intros hi IH Hle s' t' H0 Hs Ef Eg.
  destruct (Z.eq_dec lo hi) as [<- |Hn].
  - rewrite for_up_empty in Ef by lia. rewrite for_up_empty in Eg by lia. injection Ef as <-. injection Eg as <-. exact H0.
  - replace hi with (hi - 1 + 1) in Ef, Eg by lia. rewrite for_up_last in Ef by lia. rewrite for_up_last in Eg by lia. apply bind_OK in Ef, Eg.
    destruct Ef as (s1 & E1 & E2), Eg as (t1 & G1 & G2).
    replace hi with (hi - 1 + 1) by lia. apply (Hs (hi - 1) s1 t1 s' t'); auto; try lia. apply (IH (hi - 1)); auto; try lia.
    intros i a b a' b' Hi. apply Hs. lia.
Qed.

Lemma while_pres {St} (P : St -> Prop) fuel c f (s s' : St) : P s -> (forall a b, P a -> c a = true -> f a = OK b -> P b) -> while fuel c f s = OK s' -> P s'.
Proof.
  intros H0 Hs. revert s H0. induction fuel as [|n IH]; cbn; intros s H0.
  - destruct (c s); [discriminate|]. intros R; injection R as <-. exact H0.
  - destruct (c s) eqn:C; [|intros R; injection R as <-; exact H0]. destruct (f s) as [s1| | |] eqn:Ef; [|discriminate..]. cbn [bind]. apply IH. apply (Hs s); auto.
Qed.

Section Runs.
  Context {T S : Type} (E : env T S).
  Local Notation A := (e_arith E).
  Local Notation "0.0" := (a_of A 0).

  Lemma frame_inv rw i st st' : track_frame E rw i st = OK st' ->
    exists fr raw, framer_getFrame 0.0 (t_framer (fs_t st)) (t_raw (fs_t st)) = OK (fr, raw) /\
      t_framer (fs_t st') = fr /\ t_raw (fs_t st') = raw /\ t_lag (fs_t st') = t_lag (fs_t st) /\ t_win (fs_t st') = t_win (fs_t st).
  Proof.
    unfold track_frame. cbv zeta. destruct (framer_getFrame 0.0 (t_framer (fs_t st)) (t_raw (fs_t st))) as [(fr & raw)| | |]; [|discriminate..].
    intros H. exists fr, raw. split; [reflexivity|]. revert H. cbn [bind].
    repeat match goal with
      | |- bind ?x _ = OK _ -> _ => destruct x; cbn [bind]; [|discriminate..]
      | |- context [let '(_, _) := ?p in _] => destruct p
      | |- (match ?p with pair _ _ => _ end) = _ -> _ => destruct p
      end.
    intros H. injection H as <-. cbn. auto.
  Qed.

  (** Reading behind the end of the source. *)
  Lemma getFrame_past (f : framer T) src win lag ix d : at_index f src win lag ix -> 1 <= win -> zlen src < ix -> framer_getFrame 0.0 f d = UB.
  Proof.
    intros (Hs & Hl & Hf & Hh & Hi) Hw Hx. unfold framer_getFrame. rewrite Hl, Hf, Hi. destruct (Z.ltb_spec (ix + win) (zlen src)); [lia|].
    rewrite for_up_empty by lia. cbn [bind]. rewrite for_up_first by lia.
    unfold aset. destruct (Z.leb_spec 0 (zlen src - ix + 0)); [lia|]. reflexivity.
  Qed.

  (** An object of frame length [win] and hop [lag] whose next frame starts at [ix]. *)
  Definition at_frame (win lag ix : Z) (t : tracker T S) : Prop :=
    t_win t = win /\ t_lag t = lag /\ zlen (t_raw t) = win /\ exists src, at_index (t_framer t) src win lag ix.

  Lemma run_index win lag rw df ix F st st' : 1 <= win -> 1 <= lag -> 0 <= ix -> 0 <= F ->
    at_index (t_framer (fs_t st)) df win lag ix -> zlen (t_raw (fs_t st)) = win -> for_up 0 F (track_frame E rw) st = OK st' ->
    at_index (t_framer (fs_t st')) df win lag (ix + F * lag) /\ zlen (t_raw (fs_t st')) = win /\
    t_lag (fs_t st') = t_lag (fs_t st) /\ t_win (fs_t st') = t_win (fs_t st) /\ (1 <= F -> ix + (F - 1) * lag <= zlen df).
  Proof.
    intros Hw Hl Hx HF Hi Hr.
    apply (for_up_pres (fun k s => at_index (t_framer (fs_t s)) df win lag (ix + k * lag) /\ zlen (t_raw (fs_t s)) = win /\
      t_lag (fs_t s) = t_lag (fs_t st) /\ t_win (fs_t s) = t_win (fs_t st) /\ (1 <= k -> ix + (k - 1) * lag <= zlen df))); auto.
    - splits; auto; [|lia]. now replace (ix + 0 * lag) with ix by lia.
    - intros k s s' Hk (H1 & H2 & H3 & H4 & H5) Es. destruct (frame_inv _ _ _ _ Es) as (fr & raw & Eg & <- & <- & L1 & L2).
      destruct (Z_lt_le_dec (zlen df) (ix + k * lag)) as [C|C].
      { rewrite (getFrame_past _ df win lag (ix + k * lag)) in Eg by (auto; lia). discriminate. }
      destruct (getFrame_spec 0.0 (t_framer (fs_t s)) df win lag (ix + k * lag) (t_raw (fs_t s))) as (f' & d' & Eg' & Hf' & _ & Hd' & _); auto; try lia; try nia.
      rewrite Eg in Eg'. injection Eg' as E1 E2. subst f' d'.
      replace (ix + (k + 1) * lag) with (ix + k * lag + lag) by ring. replace (k + 1 - 1) with k by lia.
      splits; auto; try lia; congruence.
  Qed.

  (** The start of a call. *)
  Lemma new_at_frame win lag s1 s2 junk t : tracker_new win lag s1 s2 junk = OK t -> at_frame win lag 0 t.
  Proof.
    unfold tracker_new, framer_configure. destruct (Z.ltb_spec win 0); [discriminate|]. destruct (Z.ltb_spec lag 0); [discriminate|]. cbn [orb bind].
    intros Et. injection Et as <-. unfold at_frame, at_index. cbn. splits; auto; try (zl; lia). exists []. splits; auto.
  Qed.
  Lemma start_ok win lag ix t df : 1 <= lag -> at_frame win lag ix t -> zlen df <= INT_MAX ->
    exists F rw st, track_start E t df = OK (rw, st) /\ blocks (zlen df) lag F /\ 0 <= F /\ framer_getMax (t_framer (fs_t st)) = F /\
      at_index (t_framer (fs_t st)) df win lag ix /\
      rw = ztab lag (e_rayleigh E) /\
      st = mkFS (mkTracker win lag (t_framer (fs_t st)) (t_df t) (t_rcf t) (t_raw t) (t_smooth t) (t_acf t) (t_scratch t) (t_smoothRCF t))
             (repeat 0%R (Z.to_nat F)) (repeat 0%R (Z.to_nat F)) 0 0 0 0 0 (repeat 0.0 (Z.to_nat lag)) (repeat 0.0 (Z.to_nat lag)) 0%R [] [].
  Proof.
    intros Hl (W & G & Lr & src & H1 & H2 & H3 & H4 & H5) Hint. unfold track_start. rewrite W, G.
    unfold framer_setSource. rewrite H4. destruct (Z.eqb_spec lag 0); [lia|]. cbn [bind]. unfold framer_getMax. cbn [fr_maxFrames].
    pose proof (zlen_nonneg df) as Hn. rewrite Z.quot_div_nonneg by lia.
    pose proof (Z.div_mod (zlen df) lag ltac:(lia)). pose proof (Z.mod_pos_bound (zlen df) lag ltac:(lia)).
    set (c := if zlen df / lag * lag <? zlen df then zlen df / lag + 1 else zlen df / lag).
    assert (Hc : blocks (zlen df) lag c) by (unfold blocks, c; destruct (Z.ltb_spec (zlen df / lag * lag) (zlen df)); nia).
    assert (Hc' : 0 <= c <= zlen df) by (unfold blocks in Hc; nia).
    destruct (Z.ltb_spec INT_MAX c); [lia|]. destruct (Z.ltb_spec c 0); [lia|].
    rewrite comb_ok by (zl; lia). destruct (Reqb_spec 0 0); [|lra]. cbn [bind].
    exists c. do 2 eexists. split; [reflexivity|]. cbn [fs_t t_framer fr_maxFrames]. splits; auto; try lia. unfold at_index. cbn. splits; auto.
  Qed.

  (** A call that returned has advanced the framer, which is never set back. *)
  Lemma after_run win lag ix t df t' beats tempi : 1 <= win -> 1 <= lag -> 0 <= ix -> at_frame win lag ix t -> zlen df <= INT_MAX ->
    track E t df = OK (t', beats, tempi) ->
    exists F, blocks (zlen df) lag F /\ 0 <= F /\ at_frame win lag (ix + F * lag) t' /\ (1 <= F -> ix + (F - 1) * lag <= zlen df).
  Proof.
    intros Hw Hl Hx Ht Hint. unfold track. destruct (start_ok win lag ix t df Hl Ht Hint) as (F & rw & st & Es & HF & HF0 & Em & Hi & -> & Est). rewrite Es. cbn [bind]. rewrite Em.
    destruct (for_up 0 F (track_frame E (ztab lag (e_rayleigh E))) st) as [st'| | |] eqn:Ef; [|discriminate..]. cbn [bind]. intros R. injection R as <- <- <-.
    destruct Ht as (W & G & Lr & _).
    destruct (run_index win lag (ztab lag (e_rayleigh E)) df ix F st st') as (H1 & H2 & H3 & H4 & H5); auto. { rewrite Est. exact Lr. }
    exists F. splits; auto. unfold at_frame. rewrite H3, H4, Est. cbn [fs_t t_lag t_win]. splits; eauto.
  Qed.

  (** The second call starts behind the end of a source that is not longer than the first. *)
  Theorem reuse_undefined win lag t df1 df2 t' beats tempi F : 1 <= win -> 1 <= lag -> at_frame win lag 0 t ->
    zlen df1 <= INT_MAX -> zlen df2 <= INT_MAX -> track E t df1 = OK (t', beats, tempi) -> blocks (zlen df1) lag F -> 1 <= zlen df2 < F * lag ->
    track E t' df2 = UB.
  Proof.
    intros Hw Hl Ht H1 H2 Er HF Hn. destruct (after_run win lag 0 t df1 t' beats tempi Hw Hl ltac:(lia) Ht H1 Er) as (F' & HF' & P & Ht' & _).
    assert (F' = F) by (unfold blocks in *; nia). subst F'. unfold track.
    destruct (start_ok win lag (0 + F * lag) t' df2 Hl Ht' H2) as (F2 & rw & st & Es & HF2 & HF20 & Em & Hi & _). rewrite Es. cbn [bind]. rewrite Em.
    assert (1 <= F2) by (unfold blocks in HF2; nia). rewrite for_up_first by lia. unfold track_frame at 1. cbv zeta.
    rewrite (getFrame_past _ df2 win lag (0 + F * lag)) by (auto; lia). reflexivity.
  Qed.
  Theorem reuse_never_returns win lag t df1 df2 t' beats tempi : 1 <= win -> 1 <= lag -> at_frame win lag 0 t ->
    zlen df1 <= INT_MAX -> zlen df2 <= INT_MAX -> track E t df1 = OK (t', beats, tempi) -> lag < zlen df1 -> 1 <= zlen df2 ->
    forall r, track E t' df2 <> OK r.
  Proof.
    intros Hw Hl Ht H1 H2 Er Hn1 Hn2 ((t2 & b2) & te2) Er2.
    destruct (after_run win lag 0 t df1 t' beats tempi Hw Hl ltac:(lia) Ht H1 Er) as (F & HF & P & Ht' & _).
    destruct (after_run win lag (0 + F * lag) t' df2 t2 b2 te2 Hw Hl ltac:(nia) Ht' H2 Er2) as (F2 & HF2 & P2 & _ & C). unfold blocks in *. nia.
  Qed.

  (** *** Causality *)
  (** Two runs that have seen the same. *)
  Definition alike (win lag k : Z) (df1 df2 : list T) (F1 F2 : Z) (s1 s2 : frame_state T S) : Prop :=
    at_index (t_framer (fs_t s1)) df1 win lag (k * lag) /\ at_index (t_framer (fs_t s2)) df2 win lag (k * lag) /\
    zlen (t_raw (fs_t s1)) = win /\ zlen (fs_P s1) = F1 /\ zlen (fs_P s2) = F2 /\ zlen (fs_G s1) = F1 /\ zlen (fs_G s2) = F2 /\
    (forall i, 0 <= i < k -> zn 0%R (fs_P s1) i = zn 0%R (fs_P s2) i /\ zn 0%R (fs_G s1) i = zn 0%R (fs_G s2) i) /\
    exists fr P G, s2 = mkFS (mkTracker (t_win (fs_t s1)) (t_lag (fs_t s1)) fr (t_df (fs_t s1)) (t_rcf (fs_t s1)) (t_raw (fs_t s1)) (t_smooth (fs_t s1))
       (t_acf (fs_t s1)) (t_scratch (fs_t s1)) (t_smoothRCF (fs_t s1))) P G (fs_step s1) (fs_const s1) (fs_fsp s1) (fs_tsig s1) (fs_last s1) (fs_GW s1) (fs_PW s1)
       (fs_locked s1) (fs_beats s1) (fs_tempi s1).

  Lemma const_alike (P Q : list R) k : 0 <= k < zlen P -> 0 <= k < zlen Q -> (forall i, 0 <= i <= k -> zn 0%R P i = zn 0%R Q i) -> const_detect P k = const_detect Q k.
  Proof.
    intros H1 H2 H. unfold const_detect. rewrite (aget_OK 0%R P k), (aget_OK 0%R Q k) by lia. cbn [bind]. rewrite (H k) by lia.
    destruct (Z_lt_le_dec (k - 1) 0). { rewrite (aget_UB P (k - 1)), (aget_UB Q (k - 1)) by lia. reflexivity. }
    rewrite (aget_OK 0%R P (k - 1)), (aget_OK 0%R Q (k - 1)) by lia. cbn [bind]. rewrite (H (k - 1)) by lia.
    destruct (Z_lt_le_dec (k - 2) 0). { rewrite (aget_UB P (k - 2)), (aget_UB Q (k - 2)) by lia. reflexivity. }
    rewrite (aget_OK 0%R P (k - 2)), (aget_OK 0%R Q (k - 2)) by lia. cbn [bind]. rewrite (H (k - 2)) by lia. reflexivity.
  Qed.

  Lemma frame_alike win lag rw k df1 df2 F1 F2 s1 s2 s1' s2' : 1 <= win -> 1 <= lag -> 0 <= k < F1 -> k < F2 -> k * lag <= zlen df1 -> k * lag <= zlen df2 ->
    (forall i, 0 <= i < k * lag + win -> zn 0.0 df1 i = zn 0.0 df2 i) -> alike win lag k df1 df2 F1 F2 s1 s2 ->
    track_frame E rw k s1 = OK s1' -> track_frame E rw k s2 = OK s2' -> alike win lag (k + 1) df1 df2 F1 F2 s1' s2'.
  Proof.
    intros Hw Hl H1 H2 L1 L2 Hdf (I1 & I2 & Lr & LP1 & LP2 & LG1 & LG2 & Same & fr & P2 & G2 & E2).
    destruct s1 as [[w l f1 d1 d2 raw sm acf sc rcf] P1 G1 step cs fsp ts last GW PW lk bs tm].
    cbn [fs_t t_win t_lag t_framer t_df t_rcf t_raw t_smooth t_acf t_scratch t_smoothRCF fs_P fs_G fs_step fs_const fs_fsp fs_tsig fs_last fs_GW fs_PW fs_locked fs_beats fs_tempi] in *.
    subst s2. cbn [fs_t t_win t_lag t_framer t_df t_rcf t_raw t_smooth t_acf t_scratch t_smoothRCF fs_P fs_G fs_step fs_const fs_fsp fs_tsig fs_last fs_GW fs_PW fs_locked fs_beats fs_tempi] in *.
    unfold track_frame. cbv zeta.
    cbn [fs_t t_win t_lag t_framer t_df t_rcf t_raw t_smooth t_acf t_scratch t_smoothRCF fs_P fs_G fs_step fs_const fs_fsp fs_tsig fs_last fs_GW fs_PW fs_locked fs_beats fs_tempi].
    destruct (getFrame_spec 0.0 f1 df1 win lag (k * lag) raw) as (f1' & r1 & -> & Hf1 & _ & Hr1 & Vr1); auto; try lia; try nia.
    destruct (getFrame_spec 0.0 fr df2 win lag (k * lag) raw) as (f2' & r2 & -> & Hf2 & _ & Hr2 & Vr2); auto; try lia; try nia.
    assert (r2 = r1). { apply (zn_ext 0.0); [lia|]. intros i Hi. rewrite Vr1, Vr2 by lia. destruct (Z.ltb_spec i win); auto. symmetry. apply Hdf. lia. }
    subst r2. cbn [bind].
    destruct (e_df E d1 r1 sm) as [(d1' & sm')| | |]; [|discriminate..]. cbn [bind].
    destruct (e_correlate E sm' acf w) as [acf'| | |]; [|discriminate..]. cbn [bind].
    destruct (tempoMM E l d2 sc rcf lk acf' rw 0) as [((((d2' & sc') & rcf') & lk') & per)| | |]; [|discriminate..]. cbn [bind].
    rewrite !aset_OK by lia. cbn [bind].
    destruct (aget GW 0) as [g0| | |]; [|discriminate..]. cbn [bind].
    match goal with |- bind ?x _ = _ -> _ => destruct x as [((((d2c & scc) & rcfc) & lkc) & perc)| | |]; [|discriminate..] end. cbn [bind].
    rewrite !aset_OK by lia. cbn [bind].
    set (P1' := upd P1 (Z.to_nat k) per). set (P2' := upd P2 (Z.to_nat k) per). set (G1' := upd G1 (Z.to_nat k) perc). set (G2' := upd G2 (Z.to_nat k) perc).
    assert (VP : forall i, 0 <= i <= k -> zn 0%R P1' i = zn 0%R P2' i).
    { intros i Hi. unfold P1', P2'. rewrite !zn_upd by lia. destruct (Z.eqb_spec i k); auto. apply Same. lia. }
    assert (VG : forall x i, 0 <= i <= k -> zn 0%R (upd G1 (Z.to_nat k) x) i = zn 0%R (upd G2 (Z.to_nat k) x) i).
    { intros x i Hi. rewrite !zn_upd by lia. destruct (Z.eqb_spec i k); auto. apply Same. lia. }
    assert (Lp1 : zlen P1' = F1) by (unfold P1'; zl; lia). assert (Lp2 : zlen P2' = F2) by (unfold P2'; zl; lia).
    assert (Lg1 : zlen G1' = F1) by (unfold G1'; zl; lia). assert (Lg2 : zlen G2' = F2) by (unfold G2'; zl; lia).
    assert (Sd : step_detect P1' G1' k step = step_detect P2' G2' k step).
    { unfold step_detect. rewrite (aget_OK 0%R G1' k), (aget_OK 0%R G2' k) by lia. cbn [bind]. rewrite (aget_OK 0%R P1' k), (aget_OK 0%R P2' k) by lia. cbn [bind]. unfold G1', G2'. rewrite (VP k) by lia. rewrite (VG perc k) by lia. reflexivity. }
    rewrite <- Sd. rewrite <- (const_alike P1' P2' k) by (auto; lia).
    destruct (step_detect P1' G1' k step) as [step1| | |]; [|discriminate..]. cbn [bind].
    match goal with |- bind ?x _ = _ -> _ => destruct x as [(step2 & cs2)| | |]; [|discriminate..] end. cbn [bind].
    assert (A1 : aget P1' k = OK per). { rewrite (aget_OK 0%R) by lia. unfold P1'. rewrite zn_upd by lia. now rewrite Z.eqb_refl. }
    assert (A2 : aget P2' k = OK per). { rewrite (aget_OK 0%R) by lia. unfold P2'. rewrite zn_upd by lia. now rewrite Z.eqb_refl. }
    assert (A3 : aget G1' k = OK perc). { rewrite (aget_OK 0%R) by lia. unfold G1'. rewrite zn_upd by lia. now rewrite Z.eqb_refl. }
    assert (A4 : aget G2' k = OK perc). { rewrite (aget_OK 0%R) by lia. unfold G2'. rewrite zn_upd by lia. now rewrite Z.eqb_refl. }
    rewrite A1, A2, A3, A4. cbn [bind].
    assert (Done : forall d2x scx rcfx lkx Gx1 Gx2 tsx GWx PWx csx period, zlen Gx1 = F1 -> zlen Gx2 = F2 -> (forall i, 0 <= i <= k -> zn 0%R Gx1 i = zn 0%R Gx2 i) ->
      (alignment <- phaseMM E r1 PWx w period ;; '(lst, beats) <- beat_predict fsp alignment period l bs ;;
       OK (mkFS (mkTracker w l f1' d1' d2x r1 sm' acf' scx rcfx) P1' Gx1 (if step2 <? 0 then 0 else step2) csx (fsp + l) tsx lst GWx PWx lkx beats (tm ++ [lkx]))) = OK s1' ->
      (alignment <- phaseMM E r1 PWx w period ;; '(lst, beats) <- beat_predict fsp alignment period l bs ;;
       OK (mkFS (mkTracker w l f2' d1' d2x r1 sm' acf' scx rcfx) P2' Gx2 (if step2 <? 0 then 0 else step2) csx (fsp + l) tsx lst GWx PWx lkx beats (tm ++ [lkx]))) = OK s2' ->
      alike win lag (k + 1) df1 df2 F1 F2 s1' s2').
    { intros d2x scx rcfx lkx Gx1 Gx2 tsx GWx PWx csx period X1 X2 X3. destruct (phaseMM E r1 PWx w period) as [al| | |]; [|discriminate..]. cbn [bind].
      destruct (beat_predict fsp al period l bs) as [(lst & beats)| | |]; [|discriminate..]. cbn [bind]. intros R1 R2. injection R1 as <-. injection R2 as <-.
      unfold alike. cbn [fs_t t_win t_lag t_framer t_df t_rcf t_raw t_smooth t_acf t_scratch t_smoothRCF fs_P fs_G fs_step fs_const fs_fsp fs_tsig fs_last fs_GW fs_PW fs_locked fs_beats fs_tempi].
      replace ((k + 1) * lag) with (k * lag + lag) by ring. splits; auto; try lia.
      - intros i Hi. split; [apply VP|apply X3]; lia.
      - do 3 eexists. reflexivity. }
    destruct (negb (cs2 =? 0)).
    - destruct (find_meter E acf' w per) as [ts'| | |]; [|discriminate..]. cbn [bind].
      destruct (comb_filter E GW l per) as [GW'| | |]; [|discriminate..]. cbn [bind].
      destruct (tempoMM E l d2c scc rcfc lkc acf' GW' ts') as [((((d2e & sce) & rcfe) & lke) & pere)| | |]; [|discriminate..]. cbn [bind].
      rewrite !aset_OK by lia. cbn [bind].
      destruct (phase_extractor E PW pere fsp 0) as [PW'| | |]; [|discriminate..]. cbn [bind].
      apply Done; try (zl; lia). intros i Hi. rewrite !zn_upd by lia. destruct (Z.eqb_spec i k); auto. apply VG. lia.
    - destruct (e_nonzero E g0).
      + match goal with |- context [phase_extractor E PW ?p fsp last] => destruct (phase_extractor E PW p fsp last) as [PW'| | |]; [|discriminate..] end. cbn [bind].
        apply Done; auto. intros i Hi. apply VG. lia.
      + destruct (phase_extractor E PW per fsp 0) as [PW'| | |]; [|discriminate..]. cbn [bind]. apply Done; auto. intros i Hi. apply VG. lia.
  Qed.

  (** What a frame adds. *)
  Lemma phase_nonneg raw PW w period al : phaseMM E raw PW w period = OK al -> 0 <= al /\ 0 <= round_away period.
  Proof.
    unfold phaseMM. cbv zeta. destruct (Z.ltb_spec (round_away period) 0); [discriminate|].
    match goal with |- bind ?x _ = _ -> _ => destruct x as [y| | |]; [|discriminate..] end. cbn [bind].
    match goal with |- bind ?x _ = _ -> _ => destruct x as [a| | |]; [|discriminate..] end. cbn [bind].
    match goal with |- bind ?x _ = _ -> _ => destruct x as [(mx & ix)| | |] eqn:Ef; [|discriminate..] end. cbn [bind]. intros R; injection R as <-.
    split; auto. revert Ef. apply (for_up_pres (fun _ '(_, j) => 0 <= j)); try lia. intros i (m & j) (m' & j') Hi Hj.
    destruct (aget a i) as [v| | |]; [|discriminate..]. cbn [bind]. intros R; injection R as R. destruct (a_lt A m v); injection R as <- <-; lia.
  Qed.
  Lemma predict_adds fsp al period l bs lst bs' : 0 <= al -> 0 <= round_away period -> beat_predict fsp al period l bs = OK (lst, bs') ->
    exists run, bs' = bs ++ run /\ forall x, In x run -> fsp <= x.
  Proof.
    intros Ha Hp. unfold beat_predict. cbv zeta. intros Ew.
    apply (while_pres (fun '(b, x) => fsp <= b /\ exists run, x = bs ++ run /\ forall y, In y run -> fsp <= y)) in Ew; [apply Ew| |].
    - split; [lia|]. exists [fsp + al]. split; auto. intros y [<- |[]]. lia.
    - intros (b & x) (b' & x') (Hb & run & -> & Hr) _ R. injection R as <- <-. split; [lia|].
      exists (run ++ [b + round_away period]). split; [now rewrite app_assoc|]. intros y Hy. apply in_app_or in Hy. destruct Hy as [Hy|[<- |[]]]; auto. lia.
  Qed.
  Lemma frame_adds rw k st st' : track_frame E rw k st = OK st' ->
    fs_fsp st' = fs_fsp st + t_lag (fs_t st) /\ (exists x, fs_tempi st' = fs_tempi st ++ [x]) /\ exists run, fs_beats st' = fs_beats st ++ run /\ forall x, In x run -> fs_fsp st <= x.
  Proof.
    unfold track_frame. cbv zeta.
    match goal with |- bind ?x _ = _ -> _ => destruct x as [(fr & raw)| | |]; [|discriminate..] end. cbn [bind].
    match goal with |- bind ?x _ = _ -> _ => destruct x as [(d1 & sm)| | |]; [|discriminate..] end. cbn [bind].
    match goal with |- bind ?x _ = _ -> _ => destruct x as [acf| | |]; [|discriminate..] end. cbn [bind].
    match goal with |- bind ?x _ = _ -> _ => destruct x as [((((d2' & sc') & rcf') & lk') & per)| | |]; [|discriminate..] end. cbn [bind].
    match goal with |- bind ?x _ = _ -> _ => destruct x as [P| | |]; [|discriminate..] end. cbn [bind].
    match goal with |- bind ?x _ = _ -> _ => destruct x as [g0| | |]; [|discriminate..] end. cbn [bind].
    match goal with |- bind ?x _ = _ -> _ => destruct x as [((((d2c & scc) & rcfc) & lkc) & perc)| | |]; [|discriminate..] end. cbn [bind].
    match goal with |- bind ?x _ = _ -> _ => destruct x as [G| | |]; [|discriminate..] end. cbn [bind].
    match goal with |- bind ?x _ = _ -> _ => destruct x as [s| | |]; [|discriminate..] end. cbn [bind].
    match goal with |- bind ?x _ = _ -> _ => destruct x as [(s' & cs)| | |]; [|discriminate..] end. cbn [bind].
    match goal with |- bind ?x _ = _ -> _ => destruct x as [(((((((((d2e & sce) & rcfe) & lke) & Ge) & tse) & GWe) & PWe) & cse) & pere)| | |]; [|discriminate..] end. cbn [bind].
    destruct (phaseMM E raw PWe (t_win (fs_t st)) pere) as [al| | |] eqn:Ep; [|discriminate..]. cbn [bind].
    destruct (beat_predict (fs_fsp st) al pere (t_lag (fs_t st)) (fs_beats st)) as [(lst & bs)| | |] eqn:Eb; [|discriminate..]. cbn [bind].
    intros R. injection R as <-. cbn [fs_fsp fs_tempi fs_beats]. destruct (phase_nonneg _ _ _ _ _ Ep) as (H1 & H2).
    splits; [reflexivity|eexists; reflexivity|]. exact (predict_adds _ _ _ _ _ _ _ H1 H2 Eb).
  Qed.
  Lemma run_adds rw lag a b st st' : a <= b -> 0 <= lag -> t_lag (fs_t st) = lag -> for_up a b (track_frame E rw) st = OK st' ->
    fs_fsp st' = fs_fsp st + (b - a) * lag /\ (exists te, fs_tempi st' = fs_tempi st ++ te /\ zlen te = b - a) /\
    exists run, fs_beats st' = fs_beats st ++ run /\ forall x, In x run -> fs_fsp st <= x.
  Proof.
    intros Hab Hl Hlag Ef.
    assert (H : t_lag (fs_t st') = lag /\ fs_fsp st' = fs_fsp st + (b - a) * lag /\ (exists te, fs_tempi st' = fs_tempi st ++ te /\ zlen te = b - a) /\
      exists run, fs_beats st' = fs_beats st ++ run /\ forall x, In x run -> fs_fsp st <= x); [|tauto].
    revert Ef. apply (for_up_pres (fun k s => t_lag (fs_t s) = lag /\ fs_fsp s = fs_fsp st + (k - a) * lag /\ (exists te, fs_tempi s = fs_tempi st ++ te /\ zlen te = k - a) /\
      exists run, fs_beats s = fs_beats st ++ run /\ forall x, In x run -> fs_fsp st <= x)); auto.
    - splits; auto; try lia.
      + exists []. split; [now rewrite app_nil_r|zl; lia].
      + exists []. split; [now rewrite app_nil_r|]. intros x [].
    - intros k s s' Hk (H1 & H2 & (te & H3 & H4) & run & H5 & H6) Es. destruct (frame_inv _ _ _ _ Es) as (_ & _ & _ & _ & _ & L & _).
      destruct (frame_adds _ _ _ _ Es) as (K1 & (x & K2) & r & K3 & K4). splits; try congruence; try nia.
      + exists (te ++ [x]). split; [rewrite K2, H3; now rewrite app_assoc|zl; lia].
      + exists (run ++ r). split; [rewrite K3, H5; now rewrite app_assoc|]. intros y Hy. apply in_app_or in Hy. destruct Hy as [Hy|Hy]; auto.
        apply K4 in Hy. nia.
  Qed.

  Lemma filter_keep K (b run : list Z) : (forall x, In x run -> K <= x) -> filter (fun x => x <? K) (b ++ run) = filter (fun x => x <? K) b.
  Proof.
    intros H. rewrite filter_app. replace (filter (fun x => x <? K) run) with (@nil Z); [apply app_nil_r|].
    induction run as [|x run IH]; auto. cbn. destruct (Z.ltb_spec x K) as [L|]; [specialize (H x (or_introl eq_refl)); lia|]. apply IH. intros y Hy. apply H. now right.
  Qed.

  Theorem causal win lag t df1 df2 t1 t2 b1 b2 te1 te2 K : 1 <= win -> 1 <= lag -> at_frame win lag 0 t -> zlen df1 <= INT_MAX -> zlen df2 <= INT_MAX ->
    1 <= K -> (K - 1) * lag < zlen df1 -> (K - 1) * lag < zlen df2 -> (forall i, 0 <= i < (K - 1) * lag + win -> zn 0.0 df1 i = zn 0.0 df2 i) ->
    track E t df1 = OK (t1, b1, te1) -> track E t df2 = OK (t2, b2, te2) ->
    filter (fun x => x <? K * lag) b1 = filter (fun x => x <? K * lag) b2 /\ firstn (Z.to_nat K) te1 = firstn (Z.to_nat K) te2.
  Proof.
    intros Hw Hl Ht L1 L2 HK K1 K2 Same. unfold track.
    destruct (start_ok win lag 0 t df1 Hl Ht L1) as (F1 & rw1 & s1 & E1 & B1 & P1 & M1 & I1 & R1 & S1). rewrite E1. cbn [bind]. rewrite M1.
    destruct (start_ok win lag 0 t df2 Hl Ht L2) as (F2 & rw2 & s2 & E2 & B2 & P2 & M2 & I2 & R2 & S2). rewrite E2. cbn [bind]. rewrite M2. subst rw1 rw2.
    unfold blocks in *. assert (K <= F1) by nia. assert (K <= F2) by nia.
    rewrite (for_up_split 0 K F1) by lia. rewrite (for_up_split 0 K F2) by lia.
    set (rw := ztab lag (e_rayleigh E)).
    destruct (for_up 0 K (track_frame E rw) s1) as [m1| | |] eqn:A1; [|discriminate..]. cbn [bind].
    destruct (for_up 0 K (track_frame E rw) s2) as [m2| | |] eqn:A2; [|cbn [bind]; discriminate..]. cbn [bind].
    destruct (for_up K F1 (track_frame E rw) m1) as [n1| | |] eqn:C1; [|discriminate..]. cbn [bind].
    destruct (for_up K F2 (track_frame E rw) m2) as [n2| | |] eqn:C2; [|cbn [bind]; discriminate..]. cbn [bind].
    intros Q1 Q2. injection Q1 as <- <- <-. injection Q2 as <- <- <-.
    assert (Al : alike win lag K df1 df2 F1 F2 m1 m2).
    { refine (for_up_sim (fun k => alike win lag k df1 df2 F1 F2) 0 K _ _ s1 s2 m1 m2 _ _ _ A1 A2); try lia.
      - destruct Ht as (W & G & Lr & _). unfold alike. rewrite S1, S2. cbn [fs_t t_framer t_raw fs_P fs_G].
        splits; auto; try (zl; lia); try (intros; lia). do 3 eexists. reflexivity.
      - intros k a b a' b' Hk Hab Ea Eb. apply (frame_alike win lag rw k df1 df2 F1 F2 a b a' b'); auto; try lia; try nia.
        intros i Hi. apply Same. nia. }
    destruct Al as (_ & _ & _ & _ & _ & _ & _ & _ & fr & P & G & Em).
    assert (T1 : t_lag (fs_t s1) = lag) by (rewrite S1; reflexivity). assert (T2 : t_lag (fs_t s2) = lag) by (rewrite S2; reflexivity).
    assert (Z1 : fs_fsp s1 = 0 /\ fs_tempi s1 = []) by (rewrite S1; auto). assert (Z2 : fs_fsp s2 = 0) by (rewrite S2; auto).
    assert (Ix1 : t_lag (fs_t m1) = lag).
    { destruct (run_index win lag rw df1 0 K s1 m1) as (_ & _ & Hl' & _); auto; try lia; try congruence; try (rewrite S1; apply Ht). }
    assert (Ix2 : t_lag (fs_t m2) = lag) by (rewrite Em; exact Ix1).
    destruct (run_adds rw lag 0 K s1 m1) as (D1 & (te & D2 & D3) & _); auto; try lia.
    destruct (run_adds rw lag K F1 m1 n1) as (_ & (te1 & D4 & _) & r1 & D5 & D6); auto; try lia.
    destruct (run_adds rw lag K F2 m2 n2) as (_ & (te2 & D7 & _) & r2 & D8 & D9); auto; try lia.
    assert (fs_fsp m2 = fs_fsp m1 /\ fs_beats m2 = fs_beats m1 /\ fs_tempi m2 = fs_tempi m1) as (X1 & X2 & X3) by (rewrite Em; auto).
    destruct Z1 as (Z1 & Z3). split.
    - rewrite D5, D8, X2. rewrite !filter_keep; auto.
      + intros x Hx. apply D9 in Hx. nia.
      + intros x Hx. apply D6 in Hx. nia.
    - rewrite D4, D7, X3, D2, Z3. cbn [app]. rewrite !firstn_app. replace (Z.to_nat K - length te)%nat with 0%nat by (unfold zlen in D3; lia). reflexivity.
  Qed.
End Runs.
