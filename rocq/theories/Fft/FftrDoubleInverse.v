(** FFTReal::inverse in IEEE doubles: error bounds. *)
From Coq Require Import ZArith Reals Lia Lra Psatz List Bool Znumtheory.
From Flocq Require Import Core.
From Flocq.IEEE754 Require Import BinarySingleNaN.
From Coquelicot Require Import Complex.
From Verif.Base Require Import Imp Sums RealOps Dbl Double Loops.
From Verif.Maths Require Import DoubleModel DoubleProofs.
From Verif.Fft Require Import Cplx FftModel FftSpec FftBfly FftWork FftProofs FftrModel FftrProofs FftReal FftGen FftGenProofs FftGenRuns FftDouble FftDoubleSpec
  FftRadix FftRound FftDoubleWork FftTwiddle FftDoubleProofs FftrDouble FftrDoubleSpec FftrTwiddle FftrDoubleRuns FftrDoubleProofs.
Import ListNotations.
Open Scope R_scope.

Lemma cmod_conj (z : cplx) : Cmod (cconj z) = Cmod z.
Proof. unfold Cmod, cconj. cbn [fst snd]. f_equal. ring. Qed.
Lemma cmod_sub (x y : cplx) : Cmod (csub x y) <= Cmod x + Cmod y.
Proof.
  replace (csub x y) with (cadd x (cmul (-1, 0) y)) by (apply cplx_eq; cbn; ring). eapply Rle_trans; [apply cmod_add|].
  rewrite cmod_mul. replace (Cmod (-1, 0)) with 1; [lra|]. unfold Cmod. cbn [fst snd]. replace ((-1) ^ 2 + 0 ^ 2) with 1 by ring. now rewrite sqrt_1.
Qed.
Lemma cmod_cre (z : cplx) : Cmod (cre (fst z)) <= Cmod z.
Proof.
  unfold cre. eapply Rle_trans; [|apply cmod_fst]. right. unfold Cmod. cbn [fst snd]. replace (fst z ^ 2 + 0 ^ 2) with (Rsqr (fst z)) by (unfold Rsqr; ring). apply sqrt_Rsqr_abs.
Qed.

Section Inverse.
  Context (dcos dsin : double -> double) (Hcos : accurate dcos cos) (Hsin : accurate dsin sin).
  Context (m : Z) (ps : list Z) (Hm : (1 <= m)%Z) (Hn : (2 * m <= 2 ^ 30)%Z) (Hps : prime_factors (2 * m) ps).
  Notation W := (weight ps).
  Context (M : R) (HM : bpow radix2 (-900) <= M <= bpow radix2 850).
  Context (c : list dc) (Hc : forall k, (0 <= k <= m)%Z -> fin2 (zn dz c k) /\ Cmod (dcv (zn dz c k)) <= M).
  Notation F := (fun k => dcv (zn dz c k)).
  Notation Hh := (herm m F).
  Notation T := (fun k => cadd (cadd (Hh k) (Hh (k + m)%Z)) (cmul (cmul (0, 1) (root (2 * m) k)) (csub (Hh k) (Hh (k + m)%Z)))).

  Lemma iM_pos : 0 < M.
  Proof. destruct HM. eapply Rlt_le_trans; [apply bpow_gt_0|eauto]. Qed.
  Lemma HM900 : M <= bpow radix2 900.
  Proof. destruct HM. eapply Rle_trans; [eauto|]. apply bpow_le. lia. Qed.
  Lemma uM_pos : 0 < u * M.
  Proof. apply Rmult_lt_0_compat; [apply uro_pos|apply iM_pos]. Qed.

  Lemma herm_cmod k : (0 <= k < 2 * m)%Z -> Cmod (Hh k) <= M.
  Proof.
    intros Hk. unfold herm. destruct (Z.eqb_spec k 0); [eapply Rle_trans; [apply cmod_cre|apply Hc; lia]|].
    destruct (Z.eqb_spec k m); [eapply Rle_trans; [apply cmod_cre|apply Hc; lia]|].
    destruct (Z.ltb_spec k m); [apply Hc; lia|]. rewrite cmod_conj. apply Hc. lia.
  Qed.
  Lemma T_cmod k : (0 <= k < m)%Z -> Cmod (T k) <= 4 * M.
  Proof.
    intros Hk. pose proof (herm_cmod k ltac:(lia)). pose proof (herm_cmod (k + m) ltac:(lia)).
    eapply Rle_trans; [apply cmod_add|]. rewrite !cmod_mul, cmod_root.
    replace (Cmod (0, 1)) with 1 by (unfold Cmod; cbn [fst snd]; replace (0 ^ 2 + 1 ^ 2) with 1 by ring; now rewrite sqrt_1).
    pose proof (cmod_add (Hh k) (Hh (k + m)%Z)). pose proof (cmod_sub (Hh k) (Hh (k + m)%Z)). lra.
  Qed.

  Lemma c_near k : (0 <= k <= m)%Z -> cnear M 1 0 (zn dz c k) (F k).
  Proof.
    intros Hk. destruct (Hc k Hk) as [F1 B1]. apply cnear_of; [exact F1| |lra].
    replace (csub (dcv (zn dz c k)) (dcv (zn dz c k))) with c0 by (apply cplx_eq; cbn; ring). rewrite cmod_c0. lra.
  Qed.

  (** What is fed to the half-size transform. *)
  Lemma packed_near i v : (0 <= i < m)%Z -> packed dcos dsin m c i v -> cwithin (95 * (u * M)) v (T i).
  Proof.
    pose proof (proj1 HM) as M1. pose proof HM900 as M2. pose proof uM_pos as UM. pose proof uro_val as UV. pose proof uro_pos as UP.
    intros Hi [[-> ->]|(k & Hk & Hkm & Hv)].
    - destruct (c_near 0 ltac:(lia)) as [A _]. destruct (c_near m ltac:(lia)) as [A' _].
      pose proof (near_add M M1 M2 _ _ _ _ _ _ _ _ A A' ltac:(lra) ltac:(lra)) as G1.
      pose proof (near_sub M M1 M2 _ _ _ _ _ _ _ _ A A' ltac:(lra) ltac:(lra)) as G2.
      rewrite (T_0 m F Hm). eapply near_cwithin; [exact G1|exact G2|apply Rmult_le_compat_r; lra|apply Rmult_le_compat_r; lra].
    - pose proof (c_near k ltac:(lia)) as A. pose proof (cnear_conj M _ _ _ _ (c_near (m - k) ltac:(lia))) as C.
      assert (S1 : cnear M 2 (204 / 100) (f1k m c k) (cadd (F k) (cconj (F (m - k)%Z)))).
      { eapply cnear_weak; [exact M1|apply (cnear_add M M1 M2 _ _ _ _ _ _ _ _ A C); lra|lra|lra]. }
      assert (S2 : cnear M 2 (204 / 100) (f2k m c k) (csub (F k) (cconj (F (m - k)%Z)))).
      { eapply cnear_weak; [exact M1|apply (cnear_sub M M1 M2 _ _ _ _ _ _ _ _ A C); lra|lra|lra]. }
      pose proof (super_near m k (Hm30 m Hm Hn) Hk true dcos dsin Hcos Hsin) as Tw.
      pose proof (cnear_tw M M1 M2 _ _ _ _ _ _ S2 Tw ltac:(lra) ltac:(lra) ltac:(lra)) as S3. fold (twk dcos dsin m true c k) in S3.
      destruct (T_mid m F Hm k (cmul (root (2 * m) (sg true * k)) (0, IZR (sg true)))) as (TL & TH); [lia|cbn [sg]; do 2 f_equal; lia|].
      cbv zeta in TL, TH. destruct Hv as [[-> ->]|[-> ->]].
      + rewrite TL. pose proof (cnear_add M M1 M2 _ _ _ _ _ _ _ _ S1 S3 ltac:(lra) ltac:(lra)) as [G1 G2].
        eapply near_cwithin; [exact G1|exact G2|apply Rmult_le_compat_r; lra|apply Rmult_le_compat_r; lra].
      + rewrite TH. pose proof (cnear_sub M M1 M2 _ _ _ _ _ _ _ _ S1 S3 ltac:(lra) ltac:(lra)) as [G1 (G2 & G3 & _)].
        destruct G1 as (G4 & G5 & _). unfold thigh. destruct (dneg_ok (snd (dcsub (f1k m c k) (twk dcos dsin m true c k))) G2) as [N1 N2].
        split; [split; [exact G4|exact N1]|]. cbn [fst snd cconj]. split.
        * eapply Rle_trans; [exact G5|]. apply Rmult_le_compat_r; lra.
        * rewrite N2. match goal with |- Rabs (- ?a - - ?b) <= _ => replace (- a - - b) with (- (a - b)) by ring end. rewrite Rabs_Ropp.
          eapply Rle_trans; [exact G3|]. apply Rmult_le_compat_r; lra.
  Qed.

  Context (st : drcfg) (Hst : drready dcos dsin m true st) (tmp z k0 : list dc).
  Context (Lt : zlen tmp = m) (Lk : zlen k0 = m) (Ht : forall i, (0 <= i < m)%Z -> packed dcos dsin m c i (zn dz tmp i)) (Hz : dkiss (dr_sub st) tmp k0 = OK z) (Lz : zlen z = m).

  Lemma cwithin_cmod e d r : cwithin e d r -> Cmod (csub (dcv d) r) <= 1415 / 1000 * e.
  Proof. intros (_ & A & B). apply cmod_bound; assumption. Qed.

  Lemma z_near j : (0 <= j < m)%Z ->
    cwithin (301 * u * W * IZR m * M) (zn dz z j) (fst (cdft true (2 * m) Hh (2 * j)), fst (cdft true (2 * m) Hh (2 * j + 1))).
  Proof.
    intros Hj. pose proof iM_pos as MP. pose proof uM_pos as UM. pose proof uro_val as UV. pose proof uro_pos as UP. destruct HM as [M1 M2].
    destruct (W_small m ps Hm Hn Hps) as [W1 W2]. pose proof (m_bounds m Hm Hn) as MB.
    assert (E : forall i, (0 <= i < m)%Z -> Cmod (csub (dcv (zn dz tmp i)) (T i)) <= 1345 / 10 * (u * M)).
    { intros i Hi. eapply Rle_trans; [apply (cwithin_cmod (95 * (u * M))), packed_near; auto|]. lra. }
    assert (TB : forall i, (0 <= i < m)%Z -> fin2 (zn dz tmp i) /\ Cmod (dcv (zn dz tmp i)) <= 401 / 100 * M).
    { intros i Hi. split; [apply (packed_near i); auto|]. replace (dcv (zn dz tmp i)) with (cadd (csub (dcv (zn dz tmp i)) (T i)) (T i)) by (apply cplx_eq; cbn; ring).
      eapply Rle_trans; [apply cmod_add|]. pose proof (T_cmod i Hi). pose proof (E i Hi).
      assert (u * M <= / 1000000 * M) by (apply Rmult_le_compat_r; lra). lra. }
    assert (HM' : bpow radix2 (-900) <= 401 / 100 * M <= bpow radix2 860).
    { split; [lra|]. change (bpow radix2 860) with (bpow radix2 (10 + 850)). rewrite bpow_plus. change (bpow radix2 10) with 1024. lra. }
    destruct (half_factors m ps Hps) as (qs & P & Q1 & Q2). destruct Hst as (A & _ & _).
    destruct (kiss_list dcos dsin m qs true (dr_sub st) tmp k0 (401 / 100 * M) Hcos Hsin (Hm30 m Hm Hn) P HM' A Lt Lk TB) as (z' & E' & _ & V).
    rewrite Hz in E'. injection E' as <-. destruct (V j Hj) as [FZ EZ].
    rewrite <- (T_pack m F Hm j). set (ex := cdft true m T j).
    assert (D : Cmod (csub (cdft true m (fun i => dcv (zn dz tmp i)) j) ex) <= IZR m * (1345 / 10 * (u * M))).
    { replace (csub (cdft true m (fun i => dcv (zn dz tmp i)) j) ex) with (cdft true m (fun i => csub (dcv (zn dz tmp i)) (T i)) j).
      - apply cdft_cmod; [apply (Hm30 m Hm Hn)|exact E].
      - unfold ex, cdft. rewrite <- csum_minus. apply csum_ext. intros i Hi. ring. }
    assert (G : Cmod (csub (dcv (zn dz z j)) ex) <= 301 * u * W * IZR m * M).
    { replace (csub (dcv (zn dz z j)) ex) with (cadd (csub (dcv (zn dz z j)) (cdft true m (fun i => dcv (zn dz tmp i)) j)) (csub (cdft true m (fun i => dcv (zn dz tmp i)) j) ex)) by (apply cplx_eq; cbn; ring).
      eapply Rle_trans; [apply cmod_add|]. eapply Rle_trans; [apply Rplus_le_compat; [exact EZ|exact D]|].
      set (g := IZR m * (u * M)). assert (0 <= g) by (apply Rmult_le_pos; lra).
      replace (41 * u * IZR m * weight qs * (401 / 100 * M)) with (16441 / 100 * (weight qs * g)) by (unfold g; lra).
      replace (IZR m * (1345 / 10 * (u * M))) with (1345 / 10 * g) by (unfold g; lra).
      replace (301 * u * W * IZR m * M) with (301 * (W * g)) by (unfold g; ring).
      assert (weight qs * g <= W * g) by (apply Rmult_le_compat_r; lra). assert (1 * g <= W * g) by (apply Rmult_le_compat_r; lra). lra. }
    split; [exact FZ|]. split; [exact (Rle_trans _ _ _ (cmod_fst _) G)|exact (Rle_trans _ _ _ (cmod_snd _) G)].
  Qed.

  Lemma out_near t : (0 <= t < 2 * m)%Z ->
    finite (dmul (zn d0 (das_real z) t) (dscale (2 * m))) /\
    Rabs (dval (dmul (zn d0 (das_real z) t) (dscale (2 * m))) - fst (cdft true (2 * m) Hh t) / IZR (2 * m)) <= 176 * u * W * M.
  Proof.
    intros Ht'. destruct (W_small m ps Hm Hn Hps) as [W1 W2]. pose proof uro_pos as UP. pose proof iM_pos as MP. pose proof (m_bounds m Hm Hn) as MB.
    assert (HM4 : bpow radix2 (-900) <= 4 * M <= bpow radix2 860).
    { destruct HM. split; [lra|]. change (bpow radix2 860) with (bpow radix2 (10 + 850)). rewrite bpow_plus. change (bpow radix2 10) with 1024. lra. }
    assert (N : (1 <= 2 * m <= 2 ^ 30)%Z) by lia.
    replace (176 * u * W * M) with (44 * u * W * (4 * M)) by ring.
    assert (D : finite (zn d0 (das_real z) t) /\ Rabs (dval (zn d0 (das_real z) t) - fst (cdft true (2 * m) Hh t)) <= 301 * u * W * IZR m * M).
    { pose proof (Z.div_mod t 2 ltac:(lia)) as D. pose proof (Z.mod_pos_bound t 2 ltac:(lia)) as B.
      set (j := (t / 2)%Z) in *. destruct (z_near j ltac:(lia)) as ([F1 F2] & E1 & E2).
      assert (t mod 2 = 0 \/ t mod 2 = 1)%Z as [Em|Em] by lia; rewrite Em in D.
      - rewrite D. replace (2 * j + 0)%Z with (2 * j)%Z by lia. rewrite das_real_even by lia. auto.
      - rewrite D. rewrite das_real_odd by lia. auto. }
    destruct D as [F1 E1].
    apply (scaled_ok (2 * m) N (4 * M) HM4); auto.
    - replace (41 * u * W) with (41 * (W * u)) by ring. lra.
    - eapply Rle_trans; [exact E1|]. rewrite mult_IZR.
      replace (301 * u * W * IZR m * M) with (301 * (u * W * IZR m * M)) by ring.
      replace (41 * u * (2 * IZR m) * W * (4 * M)) with (328 * (u * W * IZR m * M)) by ring.
      assert (0 <= u * W * IZR m * M) by (repeat apply Rmult_le_pos; lra). lra.
    - eapply Rle_trans; [apply cmod_fst|]. eapply Rle_trans; [apply (cdft_cmod (2 * m) N true Hh t M), herm_cmod|]. rewrite mult_IZR.
      assert (0 <= IZR m * M) by (apply Rmult_le_pos; lra). lra.
  Qed.
End Inverse.
