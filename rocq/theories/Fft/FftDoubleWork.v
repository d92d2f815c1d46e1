(** The recursion of kiss_fft in IEEE doubles: accumulated rounding error. *)
From Coq Require Import ZArith Reals Lia Lra Psatz List Bool.
From Flocq Require Import Core.
From Coquelicot Require Import Complex.
From Verif.Base Require Import Imp Sums RealOps Dbl Double Loops.
From Verif.Maths Require Import DoubleModel DoublePi DoubleProofs.
From Verif.Fft Require Import Cplx FftModel FftBfly FftWork FftGen FftGenReal FftGenProofs FftDouble FftRadix FftRound.
Import ListNotations.
Open Scope R_scope.

(** *** Moduli *)
Lemma cmod_add (x y : cplx) : Cmod (cadd x y) <= Cmod x + Cmod y.
Proof. apply (Cmod_triangle x y). Qed.
Lemma cmod_mul (x y : cplx) : Cmod (cmul x y) = Cmod x * Cmod y.
Proof. apply (Cmod_mult x y). Qed.
Lemma cmod_c0 : Cmod c0 = 0.
Proof. apply Cmod_0. Qed.
Lemma cmod_cis t : Cmod (cis t) = 1.
Proof.
  unfold Cmod, cis. cbn [fst snd]. rewrite <- sqrt_1. f_equal. pose proof (sin2_cos2 t) as H. unfold Rsqr in H. lra.
Qed.
Lemma cmod_root n k : Cmod (root n k) = 1.
Proof. apply cmod_cis. Qed.
Lemma cmod_fst (z : cplx) : Rabs (fst z) <= Cmod z.
Proof. eapply Rle_trans; [apply Rmax_l|apply Rmax_Cmod]. Qed.
Lemma cmod_snd (z : cplx) : Rabs (snd z) <= Cmod z.
Proof. eapply Rle_trans; [apply Rmax_r|apply Rmax_Cmod]. Qed.
Lemma cmod_bound (z : cplx) e : Rabs (fst z) <= e -> Rabs (snd z) <= e -> Cmod z <= 1415 / 1000 * e.
Proof.
  intros A B. assert (0 <= e) by (eapply Rle_trans; [apply Rabs_pos|exact A]).
  unfold Cmod. rewrite <- (sqrt_Rsqr (1415 / 1000 * e)) by lra. apply sqrt_le_1_alt. unfold Rsqr.
  assert (fst z * fst z <= e * e) by (apply Rabs_le_inv in A; nra).
  assert (snd z * snd z <= e * e) by (apply Rabs_le_inv in B; nra). nra.
Qed.
Lemma csum_cmod n f b : (0 <= n)%Z -> (forall i, (0 <= i < n)%Z -> Cmod (f i) <= b) -> Cmod (csum n f) <= IZR n * b.
Proof.
  intros Hn. revert Hn f. apply (Zlt_0_ind (fun n => forall f, (forall i, (0 <= i < n)%Z -> Cmod (f i) <= b) -> Cmod (csum n f) <= IZR n * b)).
  intros k IH Hk f H. destruct (Z.eq_dec k 0) as [->|Nk].
  - rewrite csum_0, cmod_c0 by lia. lra.
  - replace k with (k - 1 + 1)%Z by lia. rewrite csum_S by lia. eapply Rle_trans; [apply cmod_add|].
    specialize (IH (k - 1)%Z ltac:(lia) f ltac:(intros; apply H; lia)). specialize (H (k - 1)%Z ltac:(lia)).
    rewrite plus_IZR. lra.
Qed.

Lemma map_zn F i : zn c0 (map dcv F) i = dcv (zn dz F i).
Proof.
  destruct (Z_lt_dec i 0); [|destruct (Z_le_dec (zlen F) i)].
  - rewrite !zn_out by (rewrite ?zlen_map; lia). reflexivity.
  - rewrite !zn_out by (rewrite ?zlen_map; lia). reflexivity.
  - rewrite (zn_map dcv dz) by lia. reflexivity.
Qed.

Definition fin2 (z : double * double) : Prop := finite (fst z) /\ finite (snd z).

Section Work.
  Context (N : Z) (inv : bool) (tw : list (double * double)).
  Notation s := (sg inv).
  Context (Ntw : zlen tw = N) (Npos : (0 < N)%Z) (Nsmall : (N <= 2 ^ 30)%Z).
  Context (Htw : forall i, (0 <= i < N)%Z -> ctnear (zn dz tw i) (root N (s * i))).
  Notation u := uro.
  Notation dbfly := (g_bfly d0 dhalf dadd dsub dmul dopp N inv tw).
  Notation dwork := (g_work d0 dhalf dadd dsub dmul dopp N inv tw).

  (** The exact stage. *)
  Lemma real_stage p m fstride off L (F : list cplx) a q1 :
    (1 <= p -> 1 <= m -> 1 <= fstride -> fstride * p * m = N -> 0 <= off -> off + p * m <= L -> zlen F = L -> 0 <= a < m -> 0 <= q1 < p ->
    kern 0%R 0.5%R Rplus Rminus Rmult Ropp N inv (ztab N (fun i => root N (s * i))) p fstride m a q1 (fun q => zn c0 F (off + (a + q * m))) =
    csum p (fun q => cmul (zn c0 F (off + (a + q * m))) (root N (s * (fstride * (a + q1 * m) * q)))))%Z.
  Proof.
    intros Hp Hm Hfs HN Hoff HL LF Ha Hq.
    set (st := {| nfft := N; inverse := inv; factors := []; twiddles := ztab N (fun i => root N (s * i)) |}).
    destruct (bfly_ok st) with (p := p) (m := m) (fstride := fstride) (off := off) (L := L) (F := F) as (F' & E & _ & _ & V); auto.
    { cbn [twiddles nfft st]. zl; lia. }
    { intros i Hi. cbn [twiddles nfft inverse st] in *. now rewrite zn_ztab by lia. }
    destruct (g_bfly_ok 0%R 0.5%R Rplus Rminus Rmult Ropp N inv (ztab N (fun i => root N (s * i))))
      with (p := p) (m := m) (fstride := fstride) (off := off) (L := L) (F := F) as (F2 & E2 & _ & _ & V2); auto.
    { zl; lia. }
    rewrite (bfly_same N inv []) in E2. fold st in E2. rewrite E in E2. injection E2 as <-.
    specialize (V a q1 Ha Hq). specialize (V2 a q1 Ha Hq). unfold gval in V2. unfold stage_val in V.
    exact (eq_trans (eq_sym V2) V).
  Qed.

  (** A stage in doubles. *)
  Lemma double_stage p m fstride off L F X :
    (1 <= p)%Z -> (1 <= m)%Z -> (1 <= fstride)%Z -> (fstride * p * m = N)%Z -> (0 <= off)%Z -> (off + p * m <= L)%Z -> zlen F = L ->
    bpow radix2 (-900) <= X <= bpow radix2 900 ->
    (forall i, (off <= i < off + p * m)%Z -> fin2 (zn dz F i) /\ Cmod (dcv (zn dz F i)) <= X) ->
    exists F', dbfly p F off fstride m = OK F' /\ zlen F' = L /\
      (forall i, (0 <= i)%Z -> (i < off \/ off + p * m <= i)%Z -> zn dz F' i = zn dz F i) /\
      (forall a q1, (0 <= a < m)%Z -> (0 <= q1 < p)%Z -> fin2 (zn dz F' (off + (a + q1 * m))) /\
         Cmod (csub (dcv (zn dz F' (off + (a + q1 * m))))
           (csum p (fun q => cmul (dcv (zn dz F (off + (a + q * m)))) (root N (s * (fstride * (a + q1 * m) * q)))))) <=
           40 * (IZR p * IZR p) * (u * X)).
  Proof.
    intros Hp Hm Hfs HN Hoff HL LF [HX HX'] HF.
    destruct (g_bfly_ok d0 dhalf dadd dsub dmul dopp N inv tw Ntw Npos Nsmall p m fstride off L F) as (F' & E & L' & O & V); auto.
    exists F'. split; [exact E|]. split; [exact L'|]. split; [exact O|]. intros a q1 Ha Hq.
    specialize (V a q1 Ha Hq). unfold gval in V. change (gz d0) with dz in V. rewrite V.
    assert (K : cnear X (17 + 2 * IZR p) (28 * (IZR p * IZR p))
      (kern d0 dhalf dadd dsub dmul dopp N inv tw p fstride m a q1 (fun q => zn dz F (off + (a + q * m))))
      (kern 0 0.5 Rplus Rminus Rmult Ropp N inv (ztab N (fun i => root N (s * i))) p fstride m a q1 (fun q => dcv (zn dz F (off + (a + q * m)))))).
    { assert (Hp' : (1 <= p <= 1073741824)%Z) by (change (2 ^ 30)%Z with 1073741824%Z in Nsmall; nia).
      apply kern_near; auto.
      - intros i Hi. rewrite zn_ztab by lia. auto.
      - intros q Hq'. destruct (HF (off + (a + q * m))%Z) as [[F1 F2] B]; [nia|].
        pose proof (uX_pos X HX). split; (split; [assumption|split]); cbn [dcv fst snd];
          try (rewrite Rminus_diag_eq, Rabs_R0 by reflexivity; lra);
          rewrite Rmult_1_l; eapply Rle_trans; [|exact B| |exact B].
        + apply (cmod_fst (dcv _)).
        + apply (cmod_snd (dcv _)). }
    pose proof (real_stage p m fstride off L (map dcv F) a q1 Hp Hm Hfs HN Hoff HL ltac:(rewrite zlen_map; auto) Ha Hq) as RS.
    rewrite (kern_ext 0 0.5 Rplus Rminus Rmult Ropp N inv _ p fstride m a q1 _ (fun q => dcv (zn dz F (off + (a + q * m))))) in RS
      by (auto; intros; apply map_zn).
    rewrite RS in K. clear RS.
    assert (Ec : csum p (fun q => cmul (zn c0 (map dcv F) (off + (a + q * m))) (root N (s * (fstride * (a + q1 * m) * q)))) =
      csum p (fun q => cmul (dcv (zn dz F (off + (a + q * m)))) (root N (s * (fstride * (a + q1 * m) * q))))).
    { apply csum_ext. intros q Hq'. now rewrite map_zn. }
    rewrite Ec in K. clear Ec.
    destruct K as [(K1 & K2 & _) (K3 & K4 & _)]. split; [split; assumption|].
    eapply Rle_trans; [apply (cmod_bound _ (28 * (IZR p * IZR p) * (u * X)))|].
    - exact K2.
    - exact K4.
    - pose proof (uX_pos X HX). assert (0 <= IZR p * IZR p * (u * X)) by (apply Rmult_le_pos; [nra|lra]). lra.
  Qed.

  Context (f : list (double * double)) (M : R) (HM : bpow radix2 (-900) <= M <= bpow radix2 860).
  Notation x i := (dcv (zn dz f i)).
  Context (Hf : forall i, (0 <= i < zlen f)%Z -> fin2 (zn dz f i) /\ Cmod (x i) <= M).

  Lemma M_pos : 0 < M.
  Proof. destruct HM. eapply Rlt_le_trans; [apply bpow_gt_0|eauto]. Qed.

  Lemma work_doubles facs : forall n F off foff fstride istr L,
    chain n facs -> 41 * u * IZR (radix_sum facs) <= 1 / 100 ->
    (1 <= fstride)%Z -> (fstride * n = N)%Z -> (0 <= off)%Z -> (off + n <= L)%Z -> zlen F = L ->
    (forall j, 0 <= j < n -> 0 <= foff + j * (fstride * istr) < zlen f)%Z ->
    exists F', dwork facs F off f foff fstride istr = OK F' /\ zlen F' = L /\
      (forall i, (0 <= i)%Z -> (i < off \/ off + n <= i)%Z -> zn dz F' i = zn dz F i) /\
      (forall k, (0 <= k < n)%Z -> fin2 (zn dz F' (off + k)) /\
         Cmod (csub (dcv (zn dz F' (off + k)))
           (csum n (fun j => cmul (x (foff + j * (fstride * istr))) (root N (s * (fstride * k * j)))))) <=
           41 * u * IZR n * IZR (radix_sum facs) * M).
  Proof.
    induction facs as [|x0|p m rest IH] using list_ind2; [intros; simpl in *; tauto..|].
    intros n F off foff fstride istr L (Hp & Hm & -> & Hc) HS Hfs HN Hoff HL LF Hr.
    cbn [g_work]. set (S1 := (fstride * istr)%Z) in *. pose proof M_pos as MP. pose proof uro_pos as UP.
    set (S' := if (m =? 1)%Z then 0%Z else radix_sum rest).
    assert (ES : radix_sum (p :: m :: rest) = (p + S')%Z) by reflexivity. rewrite ES in *. rewrite plus_IZR in *.
    assert (S0 : (0 <= S')%Z).
    { unfold S'. destruct (Z.eqb_spec m 1); [lia|]. destruct Hc; [lia|]. eapply radix_sum_nonneg; eauto. }
    assert (S0' : 0 <= IZR S') by (apply IZR_le; lia). assert (P0 : 1 <= IZR p) by (apply IZR_le; lia). assert (M0 : 1 <= IZR m) by (apply IZR_le; lia).
    assert (HS' : 41 * u * IZR S' <= 1 / 100) by nra.
    assert (Q : exists F1, (if (m =? 1)%Z
              then for_up 0 p (fun q F => v <- aget f (foff + q * S1) ;; aset F (off + q) v) F
              else for_up 0 p (fun q F => dwork rest F (off + q * m) f (foff + q * S1) (fstride * p) istr) F)%Z = OK F1 /\
        zlen F1 = L /\
        (forall i, 0 <= i -> (i < off \/ off + p * m <= i) -> zn dz F1 i = zn dz F i)%Z /\
        (forall q a, (0 <= q < p)%Z -> (0 <= a < m)%Z -> fin2 (zn dz F1 (off + (a + q * m))) /\
           Cmod (csub (dcv (zn dz F1 (off + (a + q * m))))
             (csum m (fun j => cmul (x (foff + (j * p + q) * S1)) (root N (s * (fstride * p * a * j)))))) <=
             41 * u * IZR m * IZR S' * M)).
    { unfold S'. destruct (Z.eqb_spec m 1) as [->|Nm].
      - match goal with |- context [for_up 0 p ?B F] =>
          destruct (for_up_inv (fun i G => zlen G = L /\
            (forall j, 0 <= j -> (j < off \/ off + i <= j) -> zn dz G j = zn dz F j)%Z /\
            (forall q, 0 <= q < i -> zn dz G (off + q) = zn dz f (foff + q * S1))%Z) 0%Z p B F) as (F1 & E & I1 & I2 & I3); [lia| | |] end.
        + splits; auto. intros; lia.
        + intros q G Hq (I1 & I2 & I3). rewrite (aget_OK dz) by (apply Hr; lia). ret. rewrite aset_OK by lia.
          eexists; split; [reflexivity|]. zl. splits; auto.
          * intros j Hj O. rewrite zn_upd by lia. destruct (Z.eqb_spec j (off + q)); [lia|]. apply I2; lia.
          * intros q' Hq'. rewrite zn_upd by lia. destruct (Z.eqb_spec (off + q') (off + q)) as [E|E].
            -- f_equal. f_equal. f_equal. lia.
            -- apply I3; lia.
        + exists F1. split; [exact E|]. splits; auto.
          * intros i Hi O. apply I2; lia.
          * intros q a Hq Ha. assert (a = 0)%Z as -> by lia. replace (0 + q * 1)%Z with q by lia. rewrite I3 by lia.
            split; [apply Hf, Hr; lia|].
            change (csum 1) with (csum (0 + 1)). rewrite csum_S, csum_0 by lia.
            rewrite !Z.mul_0_r, root_0. 
            replace ((0 * p + q) * S1)%Z with (q * S1)%Z by lia.
            match goal with |- Cmod ?z <= _ => replace z with c0 by ring end. rewrite cmod_c0. lra.
      - destruct Hc as [Hc|Hc]; [lia|]. assert (HS2 : 41 * u * IZR (radix_sum rest) <= 1 / 100) by (revert HS'; unfold S'; destruct (Z.eqb_spec m 1); [lia|auto]).
        match goal with |- context [for_up 0 p ?B F] =>
          destruct (for_up_inv (fun i G => zlen G = L /\
            (forall j, 0 <= j -> (j < off \/ off + i * m <= j) -> zn dz G j = zn dz F j)%Z /\
            (forall q a, (0 <= q < i)%Z -> (0 <= a < m)%Z -> fin2 (zn dz G (off + (a + q * m))) /\
               Cmod (csub (dcv (zn dz G (off + (a + q * m))))
                 (csum m (fun j => cmul (x (foff + (j * p + q) * S1)) (root N (s * (fstride * p * a * j)))))) <=
                 41 * u * IZR m * IZR (radix_sum rest) * M))
            0%Z p B F) as (F1 & E & I1 & I2 & I3); [lia| | |] end.
        + splits; auto. intros; lia.
        + intros q G Hq (I1 & I2 & I3).
          destruct (IH m G (off + q * m)%Z (foff + q * S1)%Z (fstride * p)%Z istr L) as (F1 & E & J1 & J2 & J3); auto; try nia.
          { intros j Hj. replace (foff + q * S1 + j * (fstride * p * istr))%Z with (foff + (j * p + q) * S1)%Z by (unfold S1; ring).
            apply Hr. nia. }
          exists F1. split; [exact E|]. splits; auto.
          * intros j Hj O. rewrite J2 by nia. apply I2; nia.
          * intros q' a Hq' Ha. destruct (Z.eq_dec q' q) as [->|Ne].
            -- replace (off + (a + q * m))%Z with (off + q * m + a)%Z by lia. specialize (J3 a ltac:(lia)). destruct J3 as [J3 J4].
               split; [exact J3|]. eapply Rle_trans; [|exact J4]. right. f_equal. f_equal.
               apply csum_ext. intros j Hj. f_equal. f_equal. f_equal. unfold S1. ring.
            -- rewrite J2 by nia. apply I3; lia.
        + exists F1. split; [exact E|]. splits; auto. }
    destruct Q as (F1 & E1 & L1 & O1 & V1). rewrite E1. ret.
    set (X := 101 / 100 * (IZR m * M)).
    assert (XB : bpow radix2 (-900) <= X <= bpow radix2 900).
    { unfold X. destruct HM as [HM1 HM2]. split; [nra|].
      change (bpow radix2 900) with (bpow radix2 (40 + 860)). rewrite bpow_plus. change (bpow radix2 40) with 1099511627776.
      assert (IZR m <= 1073741824) by (apply IZR_le; nia).
      assert (IZR m * M <= 1073741824 * bpow radix2 860) by (apply Rmult_le_compat; lra). lra. }
    assert (EX : forall q a, (0 <= q < p)%Z -> (0 <= a < m)%Z ->
      Cmod (csum m (fun j => cmul (x (foff + (j * p + q) * S1)) (root N (s * (fstride * p * a * j))))) <= IZR m * M).
    { intros q a Hq Ha. apply csum_cmod; [lia|]. intros j Hj. rewrite cmod_mul, cmod_root, Rmult_1_r. apply Hf, Hr. nia. }
    assert (Eadd : forall y z : cplx, Cmod y <= Cmod (csub y z) + Cmod z).
    { intros y z. replace y with (cadd (csub y z) z) at 1 by ring. apply cmod_add. }
    destruct (double_stage p m fstride off L F1 X) as (F2 & E2 & L2 & O2 & V2); auto; try lia.
    { intros i Hi. set (k := (i - off)%Z).
      pose proof (Z.div_mod k m ltac:(lia)) as D. pose proof (Z.mod_pos_bound k m ltac:(lia)) as B.
      set (a := (k mod m)%Z) in *. set (q := (k / m)%Z) in *.
      assert (Hq : (0 <= q < p)%Z) by (unfold k in *; nia).
      replace i with (off + (a + q * m))%Z by (unfold k in *; lia). destruct (V1 q a Hq B) as [G1 G2]. split; [exact G1|].
      eapply Rle_trans; [apply Eadd|]. eapply Rle_trans; [apply Rplus_le_compat; [exact G2|apply (EX q a Hq B)]|].
      unfold X. replace (41 * u * IZR m * IZR S' * M) with (41 * u * IZR S' * (IZR m * M)) by ring.
      assert (0 <= IZR m * M) by (apply Rmult_le_pos; lra). nra. }
    exists F2. split; [exact E2|]. splits; auto.
    { intros i Hi O. rewrite O2, O1 by auto. reflexivity. }
    intros k Hk.
    pose proof (Z.div_mod k m ltac:(lia)) as D. pose proof (Z.mod_pos_bound k m ltac:(lia)) as B.
    set (a := (k mod m)%Z) in *. set (q1 := (k / m)%Z) in *.
    assert (Hq1 : (0 <= q1 < p)%Z) by nia.
    replace (off + k)%Z with (off + (a + q1 * m))%Z by lia. destruct (V2 a q1 B Hq1) as [G1 G2]. split; [exact G1|].
    match type of G2 with Cmod (csub _ ?C) <= _ => set (mid := C) in * end.
    match goal with |- Cmod (csub ?A ?C) <= _ => set (y := A) in *; set (fin := C) in * end.
    replace (csub y fin) with (cadd (csub y mid) (csub mid fin)) by ring. eapply Rle_trans; [apply cmod_add|].
    assert (G3 : Cmod (csub mid fin) <= IZR p * (41 * u * IZR m * IZR S' * M)).
    { assert (Ef : fin = csum p (fun q => cmul (csum m (fun j => cmul (x (foff + (j * p + q) * S1)) (root N (s * (fstride * p * a * j)))))
                      (root N (s * (fstride * (a + q1 * m) * q))))).
      { unfold fin. rewrite csum_decim by lia. apply csum_ext. intros q Hq.
        rewrite <- csum_scal_r. apply csum_ext. intros j Hj.
        replace (s * (fstride * k * (j * p + q)))%Z with
          (s * (fstride * p * a * j) + s * (fstride * (a + q1 * m) * q) + N * (s * q1 * j))%Z by (rewrite <- HN, D; ring).
        rewrite root_period, root_add by lia. ring. }
      rewrite Ef. unfold mid. rewrite <- csum_minus. apply csum_cmod; [lia|]. intros q Hq.
      match goal with |- Cmod (csub (cmul ?A ?W) (cmul ?B ?W)) <= _ => replace (csub (cmul A W) (cmul B W)) with (cmul (csub A B) W) by ring end.
      rewrite cmod_mul, cmod_root, Rmult_1_r. apply (V1 q a Hq B). }
    rewrite mult_IZR. unfold X in G2.
    assert (0 <= IZR p * IZR p * (u * (IZR m * M))) by (apply Rmult_le_pos; [nra|apply Rmult_le_pos; [lra|nra]]). 
    assert (40 * (IZR p * IZR p) * (u * (101 / 100 * (IZR m * M))) <= 41 * (IZR p * IZR p * (u * (IZR m * M)))) by lra.
    replace (41 * u * (IZR p * IZR m) * (IZR p + IZR S') * M) with
      (41 * (IZR p * IZR p * (u * (IZR m * M))) + IZR p * (41 * u * IZR m * IZR S' * M)) by ring.
    lra.
  Qed.
End Work.
