(** The older tempo tracker on a detection function of another level. *)
From Coq Require Import List ZArith Reals Lia Lra Bool.
From Verif.Base Require Import Imp RealOps Arith Loops Xreal Images.
From Verif.Signal Require Import FramerModel FilterSpec FramerSpec FramerProofs.
From Verif.Maths Require Import RealModel RealSpec RealProofs NormModel NormSpec NormProofs.
From Verif.Onset Require Import PeakModel PeakSpec DfResults PickResults DfxModel DfxProofs.
From Verif.Tempo Require Import BeatModel TrackModel TrackSpec TrackParts TrackProofs TrackReal TrackResults TrackRuns.
Import ListNotations.
Open Scope Z_scope.

(** *** Scaling *)
Definition xscale (c : R) (x : xr) : xr := match x with Fin r => Fin (c * r) | x => x end.

Section Scale.
  Variable c : R.
  Hypothesis Hc : (0 < c)%R.
  Local Notation h := (xscale c).

  Lemma h_zero : h (Fin 0) = Fin 0.
  Proof. cbn. f_equal. ring. Qed.
  Lemma h_add x y : xadd (h x) (h y) = h (xadd x y).
  Proof. destruct x, y; cbn; auto. f_equal. ring. Qed.
  Lemma h_sign r : xsign (c * r) = xsign r.
  Proof.
    unfold xsign. pose proof (Rmult_lt_0_compat c r Hc) as P. 
    destruct (Rltb_spec 0 r), (Rltb_spec 0 (c * r)); try reflexivity; try (exfalso; lra).
    - exfalso. assert (r <= 0)%R by lra. pose proof (Rmult_le_compat_l c r 0 ltac:(lra) ltac:(lra)). lra.
    - destruct (Rltb_spec r 0), (Rltb_spec (c * r) 0); try reflexivity; exfalso.
      + pose proof (Rmult_lt_0_compat c (- r) Hc). lra.
      + assert (r = 0)%R by lra. subst. lra.
  Qed.
  Lemma h_mul x y : xmul (h x) y = h (xmul x y).
  Proof.
    destruct x as [r| | |], y as [q| | |]; cbn; auto; try (f_equal; ring).
    - rewrite h_sign. unfold xsign. destruct (Rltb 0 r), (Rltb r 0); reflexivity.
    - rewrite h_sign. unfold xsign. destruct (Rltb 0 r), (Rltb r 0); reflexivity.
    - unfold xsign. destruct (Rltb 0 q), (Rltb q 0); reflexivity.
    - unfold xsign. destruct (Rltb 0 q), (Rltb q 0); reflexivity.
  Qed.
  Lemma h_lt x y : xlt (h x) (h y) = xlt x y.
  Proof.
    destruct x as [r| | |], y as [q| | |]; cbn; auto.
    destruct (Rltb_spec r q) as [L|L], (Rltb_spec (c * r) (c * q)) as [M|M]; auto; exfalso.
    - pose proof (Rmult_lt_compat_l c r q Hc L). lra.
    - pose proof (Rmult_lt_reg_l c r q Hc M). lra.
  Qed.
  Lemma h_zeros n : repeat (Fin 0) n = map h (repeat (Fin 0) n).
  Proof. induction n as [|n IH]; cbn [repeat map]; [reflexivity|]. rewrite <- IH. now rewrite h_zero. Qed.

  Variables (win lag : Z) (octave : Z -> Z -> R) (junk1 junk2 : nat -> Z -> R).
  Let E := real_env win lag octave junk1 junk2.

  (** The alignment with the raw detection function does not depend on its level. *)
  Lemma phase_scaled df PW w per : phaseMM E (map h df) PW w per = phaseMM E df PW w per.
  Proof.
    unfold phaseMM. cbv zeta. destruct (round_away per <? 0); [reflexivity|].
    match goal with |- bind ?x _ = bind ?x _ => destruct x as [y| | |]; [|reflexivity..] end. cbn [bind].
    match goal with |- bind (for_up 0 ?p ?f' ?s') _ = bind (for_up 0 ?p ?f ?s) _ => replace (for_up 0 p f' s') with (rmap (map h) (for_up 0 p f s)) end.
    2:{ change (a_of (e_arith E) 0) with (Fin 0). rewrite (h_zeros (Z.to_nat (round_away per))) at 2. symmetry. apply for_up_rmap. intros o al Ho.
        match goal with |- bind (while ?n ?cc ?f' ?s') _ = rmap _ (bind (while ?n ?cc' ?f ?s) _) =>
          replace (while n cc f' s') with (rmap (fun p => (fst p, h (snd p))) (while n cc' f s)) end.
        2:{ transitivity (while (Z.to_nat w) (fun '(i, _) => i <? w) (fun '(i, temp) => d <- aget (map h df) i ;; v <- aget y i ;; OK (i + (round_away per + 1), a_add (e_arith E) temp (a_mul (e_arith E) d v)))
              ((fun p => (fst p, h (snd p))) (1 + (o - 1), Fin 0))); [|cbn [fst snd]; rewrite h_zero; reflexivity].
            symmetry. eapply (while_rmap (fun p => (fst p, h (snd p)))); intros (i & t); [reflexivity|]. cbn [fst snd]. rewrite aget_map. destruct (aget df i) as [d| | |]; try reflexivity. cbn [rmap bind].
            destruct (aget y i) as [v| | |]; try reflexivity. cbn [rmap bind]. f_equal. f_equal. change (a_mul (e_arith E)) with xmul. change (a_add (e_arith E)) with xadd.
            now rewrite h_mul, h_add. }
        apply bind_rmap. intros (i & t). cbn [rmap]. apply bind_same. intros v. change (a_mul (e_arith E)) with xmul. rewrite h_mul. apply aset_map. }
    match goal with |- bind (rmap _ ?x) _ = bind ?x _ => destruct x as [al| | |]; [|reflexivity..] end. cbn [rmap bind].
    match goal with |- bind (for_up 0 ?p ?f' ?s') _ = bind (for_up 0 ?p ?f ?s) _ => replace (for_up 0 p f' s') with (rmap (fun q => (h (fst q), snd q)) (for_up 0 p f s)) end.
    { match goal with |- bind (rmap _ ?x) _ = bind ?x _ => destruct x as [(m & i)| | |]; reflexivity end. }
    change (a_of (e_arith E) 0) with (Fin 0).
    match goal with |- _ = for_up ?l ?p ?f _ => transitivity (for_up l p f ((fun q => (h (fst q), snd q)) (Fin 0, 0))); [|cbn [fst snd]; rewrite h_zero; reflexivity] end.
    symmetry. apply (for_up_rmap (fun q => (h (fst q), snd q))). intros i (m & j) Hi. cbn [fst snd]. rewrite aget_map. destruct (aget al i) as [v| | |]; try reflexivity. cbn [rmap bind].
    change (a_lt (e_arith E)) with xlt. rewrite h_lt. destruct (xlt m v); reflexivity.
  Qed.

  Definition plain (s : smoother) : Prop := 1 <= dx_alpha (fst s) /\ 1 <= dx_length (fst s).

  Lemma finite_scaled x : finite_values (map h x) = option_map (map (Rmult c)) (finite_values x).
  Proof. induction x as [|[r| | |] x IH]; cbn; auto. rewrite IH. destruct (finite_values x); reflexivity. Qed.

  Lemma removex_scale n alpha src dst : 1 <= alpha -> 1 <= n -> remove_dcx n alpha (map (Rmult c) src) dst = remove_dcx n alpha src dst.
  Proof.
    intros Ha Hn. unfold remove_dcx. destruct (Z_lt_le_dec (zlen src) n) as [S|S].
    { rewrite !minmax_short by (rewrite ?zlen_map; lia). reflexivity. }
    assert (Lm : zlen (map (Rmult c) src) = zlen src) by apply zlen_map.
    destruct (minmax_spec src n) as (mn & mx & -> & Hmn & _); [lia|]. destruct (minmax_spec (map (Rmult c) src) n) as (mn' & mx' & -> & Hmn' & _); [lia|]. cbn [bind].
    destruct (alpha_norm_ok src n alpha Ha) as (N & -> & HN); [lia|]. destruct (alpha_norm_ok (map (Rmult c) src) n alpha Ha) as (N' & -> & HN'); [lia|]. cbn [bind].
    assert (mn' = (c * mn)%R) as ->.
    { eapply is_min_unique; [exact Hmn'|]. eapply is_min_ext; [|apply (is_min_scale n _ mn c Hc Hmn)]. intros. cbv beta. now rewrite zn_scale. }
    assert (N' = (c * N)%R) as ->.
    { eapply (mean_unique n alpha); [auto|lia|exact HN'|]. eapply mean_ext; [|pose proof (mean_scale n alpha _ N c HN) as M; rewrite Rabs_pos_eq in M by lra; exact M]. intros. cbv beta. now rewrite zn_scale. }
    apply for_up_ext. intros i s Hi. rewrite !(aget_OK 0%R) by lia. cbn [bind]. f_equal. rewrite zn_scale, <- Rmult_minus_distr_l. cbn [xdiv].
    destruct (Reqb_spec N 0) as [N0|N0], (Reqb_spec (c * N) 0) as [Q|Q].
    - apply h_sign.
    - exfalso. apply Q. rewrite N0. ring.
    - exfalso. apply Rmult_integral in Q. lra.
    - f_equal. field. split; [exact N0|lra].
  Qed.

  Lemma smooth_scaled n junk s x y : plain s -> smooth n junk s (map h x) y = smooth n junk s x y.
  Proof.
    intros (P1 & P2). unfold smooth. rewrite finite_scaled. destruct (finite_values x) as [xs|]; [|reflexivity]. cbn [option_map].
    unfold dfx_process. rewrite removex_scale by auto. reflexivity.
  Qed.

  Lemma dfx_keeps o sc x y o' y' : dfx_process o sc x y = OK (o', y') -> dx_alpha o' = dx_alpha o /\ dx_length o' = dx_length o.
  Proof.
    unfold dfx_process. destruct (_ =? 0). { intros R; injection R as <- _. auto. }
    match goal with |- bind ?x _ = _ -> _ => destruct x as [?| | |]; [|discriminate..] end. cbn [bind].
    match goal with |- bind ?x _ = _ -> _ => destruct x as [(? & ?)| | |]; [|discriminate..] end. cbn [bind].
    match goal with |- bind ?x _ = _ -> _ => destruct x as [?| | |]; [|discriminate..] end. cbn [bind].
    intros R; injection R as <- _. auto.
  Qed.
  Lemma smooth_plain n junk s x y s' y' : plain s -> smooth n junk s x y = OK (s', y') -> plain s'.
  Proof.
    intros Hp. unfold smooth. destruct (finite_values x) as [xs|]; [|discriminate].
    destruct (dfx_process _ _ _ _) as [(o' & ys)| | |] eqn:Q; [|discriminate..]. cbn [bind]. intros R; injection R as <- _.
    apply dfx_keeps in Q. unfold plain in *. cbn [fst] in *. lia.
  Qed.

  Definition scaled (k : Z) (df : list xr) (F : Z) (s1 s2 : frame_state xr smoother) : Prop :=
    at_index (t_framer (fs_t s1)) df win lag (k * lag) /\ at_index (t_framer (fs_t s2)) (map h df) win lag (k * lag) /\
    zlen (t_raw (fs_t s1)) = win /\ plain (t_df (fs_t s1)) /\
    exists fr raw, zlen raw = win /\ s2 = mkFS (mkTracker (t_win (fs_t s1)) (t_lag (fs_t s1)) fr (t_df (fs_t s1)) (t_rcf (fs_t s1)) raw (t_smooth (fs_t s1))
       (t_acf (fs_t s1)) (t_scratch (fs_t s1)) (t_smoothRCF (fs_t s1))) (fs_P s1) (fs_G s1) (fs_step s1) (fs_const s1) (fs_fsp s1) (fs_tsig s1) (fs_last s1) (fs_GW s1) (fs_PW s1)
       (fs_locked s1) (fs_beats s1) (fs_tempi s1).

  Lemma frame_scaled rw k df F s1 s2 s1' s2' : 1 <= win -> 1 <= lag -> 0 <= k < F -> k * lag <= zlen df ->
    scaled k df F s1 s2 -> track_frame E rw k s1 = OK s1' -> track_frame E rw k s2 = OK s2' -> scaled (k + 1) df F s1' s2'.
  Proof.
    intros Hw Hl H1 L1 (I1 & I2 & Lr & Hp & fr & raw2 & Lr2 & E2).
    destruct s1 as [[w l f1 d1 d2 raw sm acf sc rcf] P1 G1 step cs fsp ts last GW PW lk bs tm].
    cbn [fs_t t_win t_lag t_framer t_df t_rcf t_raw t_smooth t_acf t_scratch t_smoothRCF fs_P fs_G fs_step fs_const fs_fsp fs_tsig fs_last fs_GW fs_PW fs_locked fs_beats fs_tempi] in *.
    subst s2. cbn [fs_t t_win t_lag t_framer t_df t_rcf t_raw t_smooth t_acf t_scratch t_smoothRCF fs_P fs_G fs_step fs_const fs_fsp fs_tsig fs_last fs_GW fs_PW fs_locked fs_beats fs_tempi] in *.
    unfold track_frame. cbv zeta.
    cbn [fs_t t_win t_lag t_framer t_df t_rcf t_raw t_smooth t_acf t_scratch t_smoothRCF fs_P fs_G fs_step fs_const fs_fsp fs_tsig fs_last fs_GW fs_PW fs_locked fs_beats fs_tempi].
    change (a_of (e_arith E) 0) with (Fin 0).
    destruct (getFrame_spec (Fin 0) f1 df win lag (k * lag) raw) as (f1' & r1 & -> & Hf1 & _ & Hr1 & Vr1); auto; try lia; try nia.
    destruct (getFrame_spec (Fin 0) fr (map h df) win lag (k * lag) raw2) as (f2' & r2 & -> & Hf2 & _ & Hr2 & Vr2); auto; try (zl; lia); try nia.
    assert (r2 = map h r1).
    { apply (zn_ext (Fin 0)); [zl; lia|]. intros i Hi. assert (Zm : forall l j, zn (Fin 0) (map h l) j = h (zn (Fin 0) l j)).
      { intros l' j. destruct (Z_lt_le_dec j 0); [|destruct (Z_lt_le_dec j (zlen l'))]; [|apply zn_map; lia|]; rewrite !zn_out by (zl; lia); symmetry; apply h_zero. }
      rewrite Zm, Vr1, Vr2 by (zl; lia). destruct (Z.ltb_spec i win); [|lia]. apply Zm. }
    subst r2. cbn [bind].
    change (e_df E) with (smooth win junk1). rewrite smooth_scaled by exact Hp.
    destruct (smooth win junk1 d1 r1 sm) as [(d1' & sm')| | |] eqn:Es; [|discriminate..]. cbn [bind].
    apply smooth_plain in Es; [|exact Hp].
    destruct (e_correlate E sm' acf w) as [acf'| | |]; [|discriminate..]. cbn [bind].
    destruct (tempoMM E l d2 sc rcf lk acf' rw 0) as [((((d2' & sc') & rcf') & lk') & per)| | |]; [|discriminate..]. cbn [bind].
    destruct (aset P1 k per) as [P1'| | |]; [|discriminate..]. cbn [bind].
    destruct (aget GW 0) as [g0| | |]; [|discriminate..]. cbn [bind].
    match goal with |- bind ?x _ = _ -> _ => destruct x as [((((d2c & scc) & rcfc) & lkc) & perc)| | |]; [|discriminate..] end. cbn [bind].
    destruct (aset G1 k perc) as [G1'| | |]; [|discriminate..]. cbn [bind].
    destruct (step_detect P1' G1' k step) as [step1| | |]; [|discriminate..]. cbn [bind].
    match goal with |- bind ?x _ = _ -> _ => destruct x as [(step2 & cs2)| | |]; [|discriminate..] end. cbn [bind].
    match goal with |- bind ?x _ = _ -> _ => destruct x as [(((((((((d2x & scx) & rcfx) & lkx) & Gx) & tsx) & GWx) & PWx) & csx) & period)| | |]; [|discriminate..] end. cbn [bind].
    rewrite phase_scaled. destruct (phaseMM E r1 PWx w period) as [al| | |]; [|discriminate..]. cbn [bind].
    destruct (beat_predict fsp al period l bs) as [(lst & beats)| | |]; [|discriminate..]. cbn [bind]. intros R1 R2. injection R1 as <-. injection R2 as <-.
    unfold scaled. cbn [fs_t t_win t_lag t_framer t_df t_rcf t_raw t_smooth t_acf t_scratch t_smoothRCF fs_P fs_G fs_step fs_const fs_fsp fs_tsig fs_last fs_GW fs_PW fs_locked fs_beats fs_tempi].
    replace ((k + 1) * lag) with (k * lag + lag) by ring. splits; auto; try lia.
    do 2 eexists. split; [|reflexivity]. zl. lia.
  Qed.

  Theorem scaled_track t df t1 t2 b1 b2 te1 te2 : 1 <= win -> 1 <= lag -> at_frame win lag 0 t -> plain (t_df t) -> zlen df <= INT_MAX ->
    track E t df = OK (t1, b1, te1) -> track E t (map h df) = OK (t2, b2, te2) -> b2 = b1 /\ te2 = te1.
  Proof.
    intros Hw Hl Ht Hp L1. unfold track.
    destruct (start_ok E win lag 0 t df Hl Ht L1) as (F1 & rw1 & s1 & E1 & B1 & P1 & M1 & I1 & R1 & S1). rewrite E1. cbn [bind]. rewrite M1.
    destruct (start_ok E win lag 0 t (map h df) Hl Ht ltac:(zl; lia)) as (F2 & rw2 & s2 & E2 & B2 & P2 & M2 & I2 & R2 & S2). rewrite E2. cbn [bind]. rewrite M2. subst rw1 rw2.
    assert (LM : zlen (map h df) = zlen df) by (zl; lia). rewrite LM in B2.
    unfold blocks in *. assert (F2 = F1) as -> by nia. set (rw := ztab lag (e_rayleigh E)).
    destruct (for_up 0 F1 (track_frame E rw) s1) as [m1| | |] eqn:A1; [|discriminate..]. cbn [bind].
    destruct (for_up 0 F1 (track_frame E rw) s2) as [m2| | |] eqn:A2; [|cbn [bind]; discriminate..]. cbn [bind].
    intros Q1 Q2. injection Q1 as _ <- <-. injection Q2 as _ <- <-.
    assert (Al : scaled F1 df F1 m1 m2).
    { refine (for_up_sim (fun k => scaled k df F1) 0 F1 _ _ s1 s2 m1 m2 _ _ _ A1 A2); try lia.
      - destruct Ht as (W & G & Lr & _). unfold scaled. rewrite S1, S2. cbn [fs_t t_framer t_raw t_df].
        splits; auto. do 2 eexists. split; [exact Lr|]. reflexivity.
      - intros k a b a' b' Hk Hab Ea Eb. apply (frame_scaled rw k df F1 a b a' b'); auto; try lia; try nia. }
    destruct Al as (_ & _ & _ & _ & fr & raw & _ & ->). auto.
  Qed.
End Scale.

Section RealScale.
  Variables (win lag pre post alpha : Z) (a b : list R) (octave : Z -> Z -> R) (junk1 junk2 : nat -> Z -> R).
  Hypotheses (Hlag : 3 <= lag) (Hwin : 4 * lag + 3 <= win) (Hsix : forall p, 1 <= p <= lag -> win <> 6 * p + 2)
    (Hlen : zlen a = zlen b) (Hord : 2 <= zlen b) (Hpre : 0 <= pre) (Hpost : 0 <= post) (Hpp : pre + post < lag) (Halpha : 1 <= alpha).
  Let E := real_env win lag octave junk1 junk2.

  Lemma real_start junk t : real_tracker win lag a b pre post alpha junk = OK t -> at_frame win lag 0 t /\ plain (t_df t).
  Proof.
    unfold real_tracker. rewrite !new_fin.
    assert (Hab : accepted a b) by (right; split; [destruct a; [cbn in Hlen; lia|discriminate]|exact Hlen]).
    destruct (new_ready win pre post alpha true 0%R a b Hab) with (junk := junk) as (o1 & Q1 & R1); auto; try lia. rewrite Q1. cbn [rmap bind].
    destruct (new_ready lag pre post alpha true 0%R a b Hab) with (junk := junk) as (o2 & Q2 & R2); auto; try lia. rewrite Q2. cbn [rmap bind].
    destruct (new_fresh win lag ltac:(lia) Hwin (fun s => s = (lift o1, 0%nat)) (fun _ => True) (lift o1, 0%nat) (lift o2, 0%nat) (fun i => Fin (junk i))) as (t' & Et' & Ft); auto.
    intros Et. rewrite Et in Et'. injection Et' as <-. destruct Ft as (W & G & Hs & S1 & _ & Lr & _). split; [unfold at_frame; auto|].
    unfold plain. replace (fst (t_df t)) with (lift o1) by (symmetry; exact (f_equal fst S1)). destruct R1 as (Q3 & _ & _ & Q4 & _). cbn. lia.
  Qed.

  Theorem real_scaled junk df c : zlen df <= INT_MAX -> (0 < c)%R ->
    exists t t1 t2 beats tempi, real_tracker win lag a b pre post alpha junk = OK t /\
      track E t (map Fin df) = OK (t1, beats, tempi) /\ track E t (map Fin (map (Rmult c) df)) = OK (t2, beats, tempi).
  Proof.
    intros Hi Hc.
    destruct (real_track win lag pre post alpha a b octave junk1 junk2 Hlag Hwin Hsix Hlen Hord Hpre Hpost Hpp Halpha junk df Hi) as (t & t1 & b1 & te1 & _ & Et & E1 & _).
    destruct (real_track win lag pre post alpha a b octave junk1 junk2 Hlag Hwin Hsix Hlen Hord Hpre Hpost Hpp Halpha junk (map (Rmult c) df)) as (t' & t2 & b2 & te2 & _ & Et' & E2 & _); [zl; lia|].
    rewrite Et in Et'. injection Et' as <-. exists t, t1, t2, b1, te1. split; [exact Et|]. split; [exact E1|].
    replace (map Fin (map (Rmult c) df)) with (map (xscale c) (map Fin df)) in E2 |- * by (rewrite !map_map; reflexivity).
    destruct (real_start junk t Et) as (Ha & Hp).
    destruct (scaled_track c Hc win lag octave junk1 junk2 t (map Fin df) t1 t2 b1 b2 te1 te2) as (<- & <-); auto; try lia; zl; lia.
  Qed.

  Theorem real_causal junk df1 df2 K : zlen df1 <= INT_MAX -> zlen df2 <= INT_MAX -> 1 <= K -> (K - 1) * lag < zlen df1 -> (K - 1) * lag < zlen df2 ->
    (forall i, 0 <= i < (K - 1) * lag + win -> zn 0%R df1 i = zn 0%R df2 i) ->
    exists t t1 t2 b1 b2 te1 te2, real_tracker win lag a b pre post alpha junk = OK t /\
      track E t (map Fin df1) = OK (t1, b1, te1) /\ track E t (map Fin df2) = OK (t2, b2, te2) /\
      filter (fun x => x <? K * lag) b1 = filter (fun x => x <? K * lag) b2 /\ firstn (Z.to_nat K) te1 = firstn (Z.to_nat K) te2.
  Proof.
    intros L1 L2 HK K1 K2 Same.
    destruct (real_track win lag pre post alpha a b octave junk1 junk2 Hlag Hwin Hsix Hlen Hord Hpre Hpost Hpp Halpha junk df1 L1) as (t & t1 & b1 & te1 & _ & Et & E1 & _).
    destruct (real_track win lag pre post alpha a b octave junk1 junk2 Hlag Hwin Hsix Hlen Hord Hpre Hpost Hpp Halpha junk df2 L2) as (t' & t2 & b2 & te2 & _ & Et' & E2 & _).
    rewrite Et in Et'. injection Et' as <-. exists t, t1, t2, b1, b2, te1, te2. split; [exact Et|]. split; [exact E1|]. split; [exact E2|].
    destruct (real_start junk t Et) as (Ha & _).
    apply (causal E win lag t (map Fin df1) (map Fin df2) t1 t2 b1 b2 te1 te2 K); auto; try lia; try (zl; lia).
    intros i Hi. change (a_of (e_arith E) 0) with (Fin 0). rewrite !zx_map. f_equal. auto.
  Qed.

  Theorem real_reuse junk df1 df2 : zlen df1 <= INT_MAX -> zlen df2 <= INT_MAX -> lag < zlen df1 -> 1 <= zlen df2 ->
    exists t t1 b1 te1, real_tracker win lag a b pre post alpha junk = OK t /\ track E t (map Fin df1) = OK (t1, b1, te1) /\
      (forall r, track E t1 (map Fin df2) <> OK r) /\ (zlen df2 < zlen df1 -> track E t1 (map Fin df2) = UB).
  Proof.
    intros L1 L2 H1 H2.
    destruct (real_track win lag pre post alpha a b octave junk1 junk2 Hlag Hwin Hsix Hlen Hord Hpre Hpost Hpp Halpha junk df1 L1) as (t & t1 & b1 & te1 & F & Et & E1 & HF & _).
    exists t, t1, b1, te1. split; [exact Et|]. split; [exact E1|]. destruct (real_start junk t Et) as (Ha & _). split.
    - apply (reuse_never_returns E win lag t (map Fin df1) (map Fin df2) t1 b1 te1); auto; try lia; zl; lia.
    - intros H3. apply (reuse_undefined E win lag t (map Fin df1) (map Fin df2) t1 b1 te1 F); auto; try lia; try (zl; lia). 
      + unfold blocks in *. zl. lia.
      + unfold blocks in HF. zl. lia.
  Qed.
End RealScale.
