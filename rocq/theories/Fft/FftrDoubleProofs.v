(** FFTReal in IEEE doubles: error bounds. *)
From Coq Require Import ZArith Reals Lia Lra Psatz List Bool Znumtheory.
From Flocq Require Import Core.
From Flocq.IEEE754 Require Import BinarySingleNaN.
From Coquelicot Require Import Complex.
From Verif.Base Require Import Imp Sums RealOps Dbl Double Loops.
From Verif.Maths Require Import DoubleModel DoubleProofs.
From Verif.Fft Require Import Cplx FftModel FftSpec FftBfly FftWork FftProofs FftrModel FftrProofs FftReal FftGen FftGenProofs FftGenRuns FftDouble FftDoubleSpec
  FftRadix FftRound FftDoubleWork FftTwiddle FftDoubleProofs FftrDouble FftrDoubleSpec FftrTwiddle FftrDoubleRuns.
Import ListNotations.
Open Scope R_scope.

(** *** Products and conjugates *)
Section Near.
  Context (X : R) (HX : bpow radix2 (-900) <= X) (HX' : X <= bpow radix2 900).
  Lemma cnear_tw b e x w r s : cnear X b e x r -> ctnear w s -> 1 <= b <= 1000 -> 0 <= e -> (2 * e + 38 * b) * u <= b / 100 ->
    cnear X (2 * b) (2 * e + 41 * b) (dcmul x w) (cmul r s).
  Proof.
    intros [A B] [C D] Hb H0 He. pose proof uro_pos as UP. assert (0 <= e * u) by (apply Rmult_le_pos; lra). assert (0 <= b * u) by (apply Rmult_le_pos; lra).
    assert (G : forall x y v w, near X b e x v -> tnear y w -> near X b (e + 19 * b) (dmul x y) (v * w)).
    { intros x' y v w' P1 P2. apply near_tw; auto; lra. }
    split; cbn [dcmul gmul cmul fst snd].
    - eapply near_weak; [|eapply (near_sub X HX HX' b (e + 19 * b) b (e + 19 * b)); eauto; lra|lra|lra]; auto.
    - eapply near_weak; [|eapply (near_add X HX HX' b (e + 19 * b) b (e + 19 * b)); eauto; lra|lra|lra]; auto.
  Qed.
  Lemma cnear_conj b e x r : cnear X b e x r -> cnear X b e (fst x, dopp (snd x)) (cconj r).
  Proof. intros [A B]. split; [exact A|]. exact (near_opp X b e _ _ B). Qed.
  Lemma cnear_of z e r b : fin2 z -> Cmod (csub (dcv z) r) <= e * (u * X) -> Cmod r <= b * X -> cnear X b e z r.
  Proof.
    intros [F1 F2] E B. split.
    - split; [exact F1|]. split; [exact (Rle_trans _ _ _ (cmod_fst _) E)|exact (Rle_trans _ _ _ (cmod_fst _) B)].
    - split; [exact F2|]. split; [exact (Rle_trans _ _ _ (cmod_snd _) E)|exact (Rle_trans _ _ _ (cmod_snd _) B)].
  Qed.
End Near.

(** A finite value [z] within [e] of [r], part by part. *)
Definition cwithin (e : R) (z : dc) (r : cplx) : Prop :=
  fin2 z /\ Rabs (dval (fst z) - fst r) <= e /\ Rabs (dval (snd z) - snd r) <= e.
Lemma cwithin_conj e z r : cwithin e z r -> cwithin e (fst z, dopp (snd z)) (cconj r).
Proof.
  intros ([F1 F2] & A & B). unfold cwithin, fin2, finite, dopp, dval in *. cbn [fst snd cconj]. rewrite is_finite_Bopp, B2R_Bopp.
  replace (- B2R (snd z) - - snd r) with (- (B2R (snd z) - snd r)) by ring. rewrite Rabs_Ropp. auto.
Qed.
Lemma near_cwithin X b1 e1 b2 e2 e z r : near X b1 e1 (fst z) (fst r) -> near X b2 e2 (snd z) (snd r) -> e1 * (u * X) <= e -> e2 * (u * X) <= e -> cwithin e z r.
Proof. intros (F1 & A & _) (F2 & B & _) H1 H2. split; [split; assumption|]. split; eapply Rle_trans; eauto. Qed.

Lemma dzero : finite d0 /\ dval d0 = 0.
Proof. split; reflexivity. Qed.

Section Real.
  Context (dcos dsin : double -> double) (Hcos : accurate dcos cos) (Hsin : accurate dsin sin).
  Context (m : Z) (ps : list Z) (Hm : (1 <= m)%Z) (Hn : (2 * m <= 2 ^ 30)%Z) (Hps : prime_factors (2 * m) ps).
  Notation W := (weight ps).

  Lemma Hm30 : (1 <= m <= 2 ^ 30)%Z. Proof. lia. Qed.
  Lemma m_bounds : 1 <= IZR m <= 536870912.
  Proof. change (2 ^ 30)%Z with 1073741824%Z in Hn. split; apply IZR_le; lia. Qed.

  (** The factors of the half-size transform. *)
  Lemma half_factors : exists qs, prime_factors m qs /\ 1 <= weight qs <= W.
  Proof.
    destruct Hps as [P1 P2]. destruct (take_prime 2 m ps prime_2 P1 P2) as (qs & Q1 & Q2 & Q3).
    exists qs. split; [split; auto|]. unfold weight. change (fold_right Z.add 0%Z) with total. destruct (total_le_prod qs Q1) as [T _].
    split; apply IZR_le; lia.
  Qed.
  Lemma W_small : 1 <= W /\ W * u <= 1 / 1000000.
  Proof.
    destruct half_factors as (qs & _ & A). split; [lra|].
    destruct (kf_factor_ok (2 * m)) as (facs & E & C & _); [lia|]. destruct (prime_weight (2 * m) ps facs ltac:(lia) Hps E C) as [_ [W1 W2]].
    rewrite mult_IZR in W2. pose proof m_bounds. pose proof uro_pos. apply Rle_trans with (1073741825 * u); [apply Rmult_le_compat_r; lra|]. rewrite uro_val. lra.
  Qed.

  (** *** Forward *)
  Section Forward.
    Context (B : R) (HB : bpow radix2 (-900) <= B <= bpow radix2 820).
    Context (x : list double) (Hx : real_bounded (2 * m) B x).
    Notation xs := (fun j => dval (zn d0 x j)).
    Notation Zc := (cdft false m (fun j => (xs (2 * j)%Z, xs (2 * j + 1)%Z))).
    Notation X := (cdft false (2 * m) (fun j => cre (xs j))).
    Notation zin := (ztab m (fun j => (zn d0 x (2 * j), zn d0 x (2 * j + 1)))).
    Notation M1 := (1415 / 1000 * B).
    Notation Q := (IZR m * (1415 / 1000 * B)).
    Notation e174 := (174 * W * (u * Q)).

    Lemma B_pos : 0 < B.
    Proof. destruct HB. eapply Rlt_le_trans; [apply bpow_gt_0|eauto]. Qed.
    Lemma HM1 : bpow radix2 (-900) <= M1 <= bpow radix2 860.
    Proof.
      pose proof B_pos. destruct HB. split; [lra|]. change (bpow radix2 860) with (bpow radix2 (40 + 820)). rewrite bpow_plus. change (bpow radix2 40) with 1099511627776. lra.
    Qed.
    Lemma HQ : bpow radix2 (-900) <= Q /\ Q <= bpow radix2 900.
    Proof.
      pose proof B_pos as P. destruct HB as [H1 H2]. pose proof m_bounds as MB.
      assert (L : 1 * M1 <= Q) by (apply Rmult_le_compat_r; lra). assert (U : Q <= 536870912 * M1) by (apply Rmult_le_compat_r; lra).
      split; [lra|]. change (bpow radix2 900) with (bpow radix2 (80 + 820)). rewrite bpow_plus. change (bpow radix2 80) with 1208925819614629174706176. lra.
    Qed.
    Lemma uQ_pos : 0 < u * Q.
    Proof. apply Rmult_lt_0_compat; [apply uro_pos|]. eapply Rlt_le_trans; [|apply (proj1 HQ)]. apply bpow_gt_0. Qed.
    Lemma zin_ok j : (0 <= j < m)%Z -> fin2 (zn dz zin j) /\ Cmod (dcv (zn dz zin j)) <= M1.
    Proof.
      intros Hj. rewrite zn_ztab by lia. destruct Hx as [_ H]. destruct (H (2 * j)%Z ltac:(lia)) as [F1 B1]. destruct (H (2 * j + 1)%Z ltac:(lia)) as [F2 B2].
      split; [split; assumption|]. apply cmod_bound; assumption.
    Qed.

    Context (st : drcfg) (Hst : drready dcos dsin m false st) (tmp : list dc) (Ht : dkiss (dr_sub st) zin (dr_tmp st) = OK tmp).

    Lemma tmp_near k : (0 <= k < m)%Z -> cnear Q 1 (41 * W) (zn dz tmp k) (Zc k).
    Proof.
      intros Hk. destruct half_factors as (qs & P & W1 & W2). destruct Hst as (A & Lt & _).
      destruct (kiss_list dcos dsin m qs false (dr_sub st) zin (dr_tmp st) M1 Hcos Hsin Hm30 P HM1 A ltac:(zl; lia) Lt zin_ok) as (t & E & _ & V).
      rewrite Ht in E. injection E as <-. destruct (V k Hk) as [F E].
      assert (C : cdft false m (fun j => dcv (zn dz zin j)) k = Zc k) by (apply cdft_ext; intros j Hj; now rewrite zn_ztab by lia).
      rewrite C in E. apply cnear_of; [exact F| |].
      - eapply Rle_trans; [exact E|]. pose proof uQ_pos.
        replace (41 * u * IZR m * weight qs * M1) with (41 * weight qs * (u * Q)) by ring. apply Rmult_le_compat_r; lra.
      - rewrite <- C, Rmult_1_l. apply cdft_cmod; [exact Hm30|]. intros j Hj. apply zin_ok. exact Hj.
    Qed.

    Lemma bin_near i v : bin dcos dsin m tmp i v -> cwithin e174 v (X i).
    Proof.
      destruct HQ as [Q1 Q2]. destruct W_small as [W1 W2]. pose proof uro_pos as UP. pose proof uro_val as UV. pose proof uQ_pos as UQ.
      assert (WU : 41 * W * u = 41 * (W * u)) by ring.
      destruct (X_0 m xs Hm) as [X0 Xm].
      assert (LE : (41 * W + 41 * W + 102 / 100 * (1 + 1)) * (u * Q) <= e174) by (apply Rmult_le_compat_r; lra).
      destruct (tmp_near 0 ltac:(lia)) as [N1 N2].
      assert (DZ : forall e, 0 <= e -> finite d0 /\ Rabs (dval d0 - 0) <= e).
      { intros e He. destruct dzero as [F ->]. split; [exact F|]. rewrite Rminus_0_r, Rabs_R0. exact He. }
      assert (E0 : 0 <= e174) by (apply Rmult_le_pos; lra).
      intros [[-> ->]|[[-> ->]|(k & Hk & Hv)]].
      - pose proof (near_add Q Q1 Q2 _ _ _ _ _ _ _ _ N1 N2 ltac:(lra) ltac:(lra)) as (F & E & _).
        rewrite X0. split; [split; [exact F|apply (DZ e174 E0)]|]. split; [exact (Rle_trans _ _ _ E LE)|apply (DZ e174 E0)].
      - pose proof (near_sub Q Q1 Q2 _ _ _ _ _ _ _ _ N1 N2 ltac:(lra) ltac:(lra)) as (F & E & _).
        rewrite Xm. split; [split; [exact F|apply (DZ e174 E0)]|]. split; [exact (Rle_trans _ _ _ E LE)|apply (DZ e174 E0)].
      - destruct (half_bounds m Hm) as (H0 & H1 & H2).
        pose proof (tmp_near k ltac:(lia)) as A. pose proof (cnear_conj Q _ _ _ _ (tmp_near (m - k) ltac:(lia))) as C.
        assert (S1 : cnear Q 2 (82 * W + 204 / 100) (f1k m tmp k) (cadd (Zc k) (cconj (Zc (m - k)%Z)))).
        { eapply cnear_weak; [exact Q1|apply (cnear_add Q Q1 Q2 _ _ _ _ _ _ _ _ A C); lra|lra|lra]. }
        assert (S2 : cnear Q 2 (82 * W + 204 / 100) (f2k m tmp k) (csub (Zc k) (cconj (Zc (m - k)%Z)))).
        { eapply cnear_weak; [exact Q1|apply (cnear_sub Q Q1 Q2 _ _ _ _ _ _ _ _ A C); lra|lra|lra]. }
        pose proof (super_near m k Hm30 Hk false dcos dsin Hcos Hsin) as T.
        pose proof (cnear_tw Q Q1 Q2 _ _ _ _ _ _ S2 T ltac:(lra) ltac:(lra)) as S3.
        assert (SM : (2 * (82 * W + 204 / 100) + 38 * 2) * u <= 2 / 100).
        { replace ((2 * (82 * W + 204 / 100) + 38 * 2) * u) with (164 * (W * u) + 8008 / 100 * u) by lra. rewrite UV at 2. lra. }
        specialize (S3 SM). fold (twk dcos dsin m false tmp k) in S3.
        destruct (X_low m xs Hm k (cmul (root (2 * m) (sg false * k)) (0, IZR (sg false)))) as (XL & XH); [cbn [sg]; do 2 f_equal|].
        cbv zeta in XL, XH.
        set (f1 := cadd (Zc k) (cconj (Zc (m - k)%Z))) in *. set (tw := cmul _ _) in *.
        destruct S1 as [S1a S1b]. destruct S3 as [S3a S3b].
        set (e := 2 * (82 * W + 204 / 100) + 41 * 2) in *.
        assert (SU : (82 * W + 204 / 100 + e) * u <= (2 + 2 * 2) / 100 - 11 / 1000000000000000).
        { unfold e. replace ((82 * W + 204 / 100 + (2 * (82 * W + 204 / 100) + 41 * 2)) * u) with (246 * (W * u) + 8812 / 100 * u) by lra. rewrite UV at 2. lra. }
        assert (SU' : (82 * W + 204 / 100 + e + 102 / 100 * (2 + 2 * 2)) * u <= (2 + 2 * 2) / 100).
        { replace ((82 * W + 204 / 100 + e + 102 / 100 * (2 + 2 * 2)) * u) with ((82 * W + 204 / 100 + e) * u + 612 / 100 * u) by lra. rewrite UV at 2. unfold e in *. lra. }
        assert (LE2 : ((82 * W + 204 / 100 + e + 102 / 100 * (2 + 2 * 2)) / 2 + 102 / 200 * (2 + 2 * 2)) * (u * Q) <= e174).
        { apply Rmult_le_compat_r; [lra|]. unfold e. lra. }
        assert (SUc : (e + (82 * W + 204 / 100)) * u <= (2 * 2 + 2) / 100) by lra.
        destruct Hv as [[-> ->]|[-> ->]].
        + rewrite XL.
          pose proof (near_add Q Q1 Q2 _ _ _ _ _ _ _ _ S1a S3a ltac:(lra) ltac:(lra)) as G1.
          pose proof (near_add Q Q1 Q2 _ _ _ _ _ _ _ _ S1b S3b ltac:(lra) ltac:(lra)) as G2.
          eapply near_cwithin; [apply (near_half Q Q1 Q2 _ _ _ _ G1); lra|apply (near_half Q Q1 Q2 _ _ _ _ G2); lra|exact LE2|exact LE2].
        + rewrite XH.
          pose proof (near_sub Q Q1 Q2 _ _ _ _ _ _ _ _ S1a S3a ltac:(lra) ltac:(lra)) as G1.
          pose proof (near_sub Q Q1 Q2 _ _ _ _ _ _ _ _ S3b S1b ltac:(lra) ltac:(lra)) as G2.
          eapply near_cwithin; [apply (near_half Q Q1 Q2 _ _ _ _ G1); lra|apply (near_half Q Q1 Q2 _ _ _ _ G2); lra|exact LE2|].
          eapply Rle_trans; [|exact LE2]. right. unfold Rdiv. ring.
    Qed.

    Lemma obin_near k v : (0 <= k < 2 * m)%Z -> obin dcos dsin m tmp k v -> cwithin (124 * u * W * IZR (2 * m) * B) v (X k).
    Proof.
      intros Hk H. assert (G : cwithin e174 v (X k)).
      { destruct H as [[_ H]|(_ & w & H & ->)]; [now apply bin_near|].
        replace (X k) with (cconj (X (2 * m - k)%Z)); [apply cwithin_conj; now apply bin_near|]. rewrite real_conj by lia. reflexivity. }
      destruct G as (F & E1 & E2).
      assert (LE : e174 <= 124 * u * W * IZR (2 * m) * B).
      { rewrite mult_IZR. pose proof B_pos. pose proof uro_pos. pose proof m_bounds. destruct W_small.
        replace (174 * W * (u * Q)) with (174 * 1415 / 1000 * (u * W * IZR m * B)) by lra.
        replace (124 * u * W * (2 * IZR m) * B) with (248 * (u * W * IZR m * B)) by ring.
        assert (0 <= u * W * IZR m * B) by (repeat apply Rmult_le_pos; lra). lra. }
      split; [exact F|]. split; eapply Rle_trans; eauto.
    Qed.
  End Forward.
End Real.
