(** The whole phase vocoder in IEEE doubles: proofs. *)
From Coq Require Import ZArith Reals Lia Lra Psatz List Bool.
From Flocq Require Import Core.
From Coquelicot Require Import Complex.
From Verif.Base Require Import Imp Sums RealOps Dbl Double Loops.
From Verif.Maths Require Import DoubleModel DoubleProofs.
From Verif.Fft Require Import Cplx FftModel FftSpec FftBfly FftProofs FftReal FftResults FftDouble FftDoubleSpec FftRadix FftRound FftDoubleWork FftTwiddle FftrDouble FftrTwiddle FftrDoubleSpec FftrDoubleProofs FftrDoubleInverse FftrDoubleRuns FftrDoubleResults FftrDoubleTheorems.
From Verif.Vocoder Require Import PvSpec PvProofs PvDouble PvDoubleSpec PvDoubleProofs PvWholeDouble PvWholeSpec.
Import ListNotations.
Open Scope R_scope.

Lemma shift_runs m t : (1 <= m)%Z -> zlen t = (2 * m)%Z ->
  exists t', dvoc_shift (2 * m) t = OK t' /\ zlen t' = (2 * m)%Z /\
    forall j, (0 <= j < 2 * m)%Z -> zn d0 t' j = if (j <? m)%Z then zn d0 t (j + m) else zn d0 t (j - m).
Proof.
  intros Hm L. unfold dvoc_shift. rewrite half2. cbv zeta. Open Scope Z_scope.
  set (rot := fun j => if j <? m then zn d0 t (j + m) else zn d0 t (j - m)).
  match goal with |- context [for_up 0 m ?B ?S] =>
    destruct (for_up_inv (fun i s => zlen s = 2 * m /\ forall j, 0 <= j < 2 * m ->
      zn d0 s j = if (j mod m <? i) then rot j else zn d0 t j) 0 m B S) as (s & E & I1 & I2); [lia| | |] end.
  - split; [auto|]. intros j Hj. pose proof (Z.mod_pos_bound j m ltac:(lia)). destruct (Z.ltb_spec (j mod m) 0); [lia|auto].
  - intros i s Hi (I1 & I2).
    assert (Mi : i mod m = i) by (apply Z.mod_small; lia).
    assert (Mim : (i + m) mod m = i) by (replace (i + m) with (i + 1 * m) by lia; rewrite Z.mod_add by lia; auto).
    rewrite !(aget_OK d0) by lia. ret. ret. rewrite aset_OK by lia. ret. rewrite aset_OK by (zl; lia).
    eexists; split; [reflexivity|]. rewrite !zlen_upd. split; [auto|]. intros j Hj. rewrite !zn_upd by (zl; lia).
    rewrite !I2 by lia. rewrite Mi, Mim. rewrite Z.ltb_irrefl.
    destruct (Z.eqb_spec j (i + m)) as [->|N1].
    + rewrite Mim. destruct (Z.ltb_spec i (i + 1)); [|lia]. unfold rot. destruct (Z.ltb_spec (i + m) m); [lia|]. f_equal. lia.
    + destruct (Z.eqb_spec j i) as [->|N2].
      * rewrite Mi. destruct (Z.ltb_spec i (i + 1)); [|lia]. unfold rot. destruct (Z.ltb_spec i m); [|lia]. reflexivity.
      * assert (j mod m <> i).
        { intros F. destruct (Z.lt_ge_cases j m) as [A|A]; [rewrite Z.mod_small in F by lia; lia|].
          replace j with (j - m + 1 * m) in F by lia. rewrite Z.mod_add, Z.mod_small in F by lia. lia. }
        destruct (Z.ltb_spec (j mod m) i), (Z.ltb_spec (j mod m) (i + 1)); auto; lia.
  - exists s. split; [exact E|]. split; [auto|]. intros j Hj. rewrite I2 by lia.
    pose proof (Z.mod_pos_bound j m ltac:(lia)). destruct (Z.ltb_spec (j mod m) m); [reflexivity|lia].
Qed.
Open Scope R_scope.

Lemma tracks_ext n hop k : forall fs gs t prev os, map fst fs = map fst gs ->
  tracks n hop k t prev fs os -> tracks n hop k t prev gs os.
Proof.
  induction fs as [|[a b] fs IH]; intros [|[c d] gs] t prev [|o os] E; try discriminate; cbn; auto.
  cbn in E. injection E as -> E. intros (H1 & H2 & H3). split; [auto|]. split; [auto|]. now apply IH.
Qed.

Section Whole.
  Context (dcos dsin : double -> double) (Hcos : accurate dcos cos) (Hsin : accurate dsin sin).
  Context (datan2 : double -> double -> double) (Hat : accurate_angle datan2).
  Context (n hop : Z) (ps : list Z) (Hn : (2 <= n <= 2 ^ 30)%Z) (H2 : (n mod 2 = 0)%Z) (Hps : prime_factors n ps) (Hh : (1 <= hop <= 1048576)%Z).
  Notation W := (weight ps).
  Notation m := (n / 2)%Z.

  Lemma nm : n = (2 * m)%Z /\ (1 <= m)%Z /\ (2 * m <= 2 ^ 30)%Z.
  Proof. pose proof (Z.div_mod n 2 ltac:(lia)). lia. Qed.

  Lemma cdft_rot x k : cdft false n (fun j => cre (rotated m x j)) k = cmul (cre (alternate k)) (cdft false n (fun j => cre (x j)) k).
  Proof. destruct nm as (En & M1 & _). pose proof (cdft_rotated m x k M1) as E. rewrite <- En in E. exact E. Qed.

  Definition vok (o : dvoc) : Prop :=
    dv_n o = n /\ dv_hop o = hop /\ real_in_use dcos dsin n (dv_fft o) /\ zlen (dv_time o) = n /\ zlen (dv_real o) = n /\ zlen (dv_imag o) = n /\
    zlen (dv_phase o) = (m + 1)%Z /\ zlen (dv_unwrapped o) = (m + 1)%Z.

  (** Bins held in m_real and m_imag, up to e. *)
  Definition loads (B e : R) (s : dsource) (re im : list double) : Prop :=
    forall k, (0 <= k <= m)%Z -> finite (zn d0 re k) /\ finite (zn d0 im k) /\
      Rabs (dval (zn d0 re k)) <= 101 / 100 * (IZR n * B) /\ Rabs (dval (zn d0 im k)) <= 101 / 100 * (IZR n * B) /\
      Rabs (dval (zn d0 re k) - source_re n s k) <= e /\ Rabs (dval (zn d0 im k) - source_im n s k) <= e.
  Definition load_error (s : dsource) (B : R) : R := match s with Samples _ => 124 * (u * W * (IZR n * B)) | Bins _ _ => 0 end.

  Lemma load_runs o s : vok o -> source_room n s ->
    exists f tm re im, dvoc_load o s = OK (f, tm, re, im) /\ real_in_use dcos dsin n f /\ zlen tm = n /\ zlen re = n /\ zlen im = n /\
      forall B, bpow radix2 (-400) <= B <= bpow radix2 450 -> source_bounded n B s -> loads B (load_error s B) s re im.
  Proof.
    intros (N1 & N2 & RU & L1 & L2 & L3 & _) Rm. destruct nm as (En & M1 & M2).
    destruct s as [src|reals imags]; cbn [dvoc_load source_room] in *; rewrite N1.
    - rewrite (for_up_set n (aget src) (zn d0 src)) by (try lia; intros; apply aget_OK; lia).
      ret. rewrite skipn_zlen, app_nil_r by lia.
      destruct (shift_runs m (ztab n (zn d0 src))) as (t & E & Lt & Ht); [lia|zl; lia|]. rewrite <- En in E, Lt, Ht. rewrite E. ret.
      pose proof RU as RU'. rewrite En in RU'.
      pose proof (real_in_use_ready dcos dsin m ltac:(lia) _ RU') as Rd.
      destruct (dforward_runs dcos dsin m ltac:(lia) (dv_fft o) t (dv_real o) (dv_imag o) Rd) as (tmp & f & re & im & _ & _ & Ef & _ & Lr & Li & _); try lia.
      rewrite Ef. ret. exists f, t, re, im. split; [reflexivity|]. split; [eapply (real_forward _ _ n (dv_fft o) f t (dv_real o) (dv_imag o)); eauto; lia|].
      split; [lia|]. split; [lia|]. split; [lia|]. intros B HB SB. cbn [source_bounded] in SB.
      assert (TB : real_bounded n B t).
      { destruct SB as [_ SB]. split; [lia|]. intros j Hj. rewrite Ht by lia. destruct (Z.ltb_spec j m); rewrite zn_ztab by lia; apply SB; lia. }
      assert (HB' : bpow radix2 (-900) <= B <= bpow radix2 820) by (destruct HB; split; eapply Rle_trans; [|eassumption|eassumption|]; apply bpow_le; lia).
      assert (BP : 0 < B) by (destruct HB; eapply Rlt_le_trans; [apply bpow_gt_0|eassumption]).
      destruct (forward_bins dcos dsin Hcos Hsin n ps Hn H2 Hps B (dv_fft o) t (dv_real o) (dv_imag o) HB' RU TB) as (f2 & re2 & im2 & E2 & _ & _ & _ & Ho); [lia|lia|].
      rewrite Ef in E2. injection E2 as <- <- <-.
      destruct (nW n ps Hn H2 Hps) as (W1 & W2 & NB). pose proof uro_pos as UP. pose proof uro_val as UV.
      set (S := IZR n * B) in *. assert (SP : 0 < S) by (apply Rmult_lt_0_compat; lra).
      assert (WS : u * W * S <= 1 / 1000000 * S) by (apply Rmult_le_compat_r; lra).
      intros k Hk. destruct (Ho k ltac:(lia)) as ([F1 F2] & A1 & A2). cbn [fst snd] in F1, F2, A1, A2.
      replace (124 * u * W * IZR n * B) with (124 * (u * W * S)) in A1, A2 by (unfold S; ring).
      pose proof (X_cmod n Hn B t k TB) as XC. fold S in XC.
      pose proof (Rle_trans _ _ _ (cmod_fst _) XC) as X1. pose proof (Rle_trans _ _ _ (cmod_snd _) XC) as X2.
      fold S. split; [exact F1|]. split; [exact F2|].
      split; [eapply Rle_trans; [eapply near'; [exact A1|exact X1]|lra]|].
      split; [eapply Rle_trans; [eapply near'; [exact A2|exact X2]|lra]|].
      cbn [load_error source_re source_im]. fold S.
      rewrite (cdft_ext _ _ _ (fun j => cre (rotated m (fun j => dval (zn d0 src j)) j))) in A1, A2 by
       (intros j Hj; rewrite Ht by lia; unfold rotated; destruct (Z.ltb_spec j m); rewrite zn_ztab by lia; reflexivity).
      rewrite cdft_rot, cdft_forward in A1, A2 by lia. unfold cmul, cre, fst, snd in A1, A2.
      set (R0 := dft_re n (fun j => dval (zn d0 src j)) (fun _ => 0) k) in *. set (I0 := dft_im n (fun j => dval (zn d0 src j)) (fun _ => 0) k) in *.
      split; [replace (alternate k * R0) with (alternate k * R0 - 0 * I0) by ring; exact A1|
              replace (alternate k * I0) with (alternate k * I0 + 0 * R0) by ring; exact A2].
    - destruct Rm as [Rm1 Rm2].
      match goal with |- context [for_up 0 (m + 1) ?B0 ?S0] =>
        destruct (for_up_inv (fun i (x : list double * list double) => let '(re, im) := x in zlen re = n /\ zlen im = n /\
          forall k, (0 <= k < i)%Z -> zn d0 re k = zn d0 reals k /\ zn d0 im k = zn d0 imags k) 0 (m + 1) B0 S0)
          as ((re & im) & E & I1 & I2 & I3); [lia| | |] end.
      + split; [lia|]. split; [lia|]. intros; lia.
      + intros i (re & im) Hi (I1 & I2 & I3). rewrite (aget_OK d0) by lia. ret. rewrite aset_OK by lia. ret. rewrite (aget_OK d0) by lia. ret.
        rewrite aset_OK by lia. ret. eexists; split; [reflexivity|]. cbv beta iota. rewrite !zlen_upd. split; [auto|]. split; [auto|].
        intros k Hk. rewrite !zn_upd by lia. destruct (Z.eqb_spec k i) as [->|]; [auto|apply I3; lia].
      + rewrite E. ret. exists (dv_fft o), (dv_time o), re, im. split; [reflexivity|]. split; [exact RU|]. do 3 (split; [lia|]).
        intros B HB SB k Hk. destruct (SB k Hk) as (F1 & F2 & B1 & B2). destruct (I3 k ltac:(lia)) as [-> ->]. cbn [load_error source_re source_im].
        assert (0 <= IZR n * B) by (eapply Rle_trans; [apply Rabs_pos|exact B1]).
        split; [auto|]. split; [auto|]. split; [lra|]. split; [lra|]. unfold Rminus. rewrite !Rplus_opp_r, Rabs_R0. lra.
  Qed.

  (** Magnitude and phase of one bin. *)
  Lemma bin_polar S e a b X Y : bpow radix2 (-400) <= S <= bpow radix2 490 -> finite a -> finite b ->
    Rabs (dval a) <= 101 / 100 * S -> Rabs (dval b) <= 101 / 100 * S -> Rabs (dval a - X) <= e -> Rabs (dval b - Y) <= e ->
    let mag := dsqrt (dadd (dmul a a) (dmul b b)) in let th := datan2 b a in
    finite mag /\ finite th /\ Rabs (dval th) <= 4 /\ polar_within (5 * u * S + 1415 / 1000 * e) (165 / 10 * u * S + e) X Y (dval mag) (dval th).
  Proof.
    intros HS Fa Fb Ba Bb Ea Eb mag th. pose proof uro_pos as UP.
    assert (SP : 0 < S) by (destruct HS; eapply Rlt_le_trans; [apply bpow_gt_0|eassumption]).
    destruct (hypot_ok a b S Fa Fb HS Ba Bb) as [Fm Vm]. fold mag in Fm, Vm.
    destruct (Hat b a Fb Fa) as (Ft & Bt & C & D). fold th in Ft, Bt, C, D. cbv zeta in C, D.
    split; [exact Fm|]. split; [exact Ft|]. split; [exact Bt|].
    set (r := sqrt (dval a * dval a + dval b * dval b)) in *.
    assert (e0 : 0 <= e) by (eapply Rle_trans; [apply Rabs_pos|exact Ea]).
    assert (Rr : 0 <= r <= 143 / 100 * S).
    { split; [apply sqrt_pos|]. unfold r. rewrite <- (sqrt_square (143 / 100 * S)) by lra. apply sqrt_le_1_alt.
      apply Rabs_le_inv in Ba, Bb. nra. }
    assert (UR : 8 * u * r <= 1144 / 100 * (u * S)) by nra.
    assert (Cs : forall c x v, Rabs c <= 1 -> Rabs (r * c - x) <= 8 * u * r -> Rabs (x - v) <= e -> Rabs (dval mag * c - v) <= 165 / 10 * u * S + e).
    { intros c x v Hc Hx Hv. replace (dval mag * c - v) with ((dval mag - r) * c + (r * c - x) + (x - v)) by ring.
      eapply Rle_trans; [apply Rabs_triang|]. apply Rplus_le_compat; [|exact Hv].
      eapply Rle_trans; [apply Rabs_triang|]. rewrite Rabs_mult.
      assert (Rabs (dval mag - r) * Rabs c <= 5 * u * S * 1) by (apply Rmult_le_compat; auto using Rabs_pos). nra. }
    split; [|split].
    - set (z := (dval a, dval b) : cplx). set (w := (X, Y) : cplx).
      assert (Ez : r = Cmod z) by (unfold r, Cmod, z; cbn [fst snd]; f_equal; ring).
      assert (Ew : sqrt (X * X + Y * Y) = Cmod w) by (unfold Cmod, w; cbn [fst snd]; f_equal; ring).
      assert (G : Cmod (csub z w) <= 1415 / 1000 * e).
      { eapply Rle_trans; [apply (cmod_bound _ e); [exact Ea|exact Eb]|]. lra. }
      rewrite Ew. replace (dval mag - Cmod w) with ((dval mag - r) + (r - Cmod w)) by ring.
      eapply Rle_trans; [apply Rabs_triang|]. apply Rplus_le_compat; [exact Vm|]. rewrite Ez. apply Rabs_le. split.
      + assert (T : Cmod w <= Cmod (csub z w) + Cmod z).
        { replace w with (csub z (csub z w)) at 1 by (apply cplx_eq; cbn; ring). eapply Rle_trans; [apply cmod_sub|]. lra. }
        lra.
      + assert (T : Cmod z <= Cmod (csub z w) + Cmod w).
        { replace z with (cadd (csub z w) w) at 1 by (apply cplx_eq; cbn; ring). apply cmod_add. }
        lra.
    - apply (Cs _ (dval a)); auto. pose proof (COS_bound (dval th)). apply Rabs_le. lra.
    - apply (Cs _ (dval b)); auto. pose proof (SIN_bound (dval th)). apply Rabs_le. lra.
  Qed.

  (** One call: what it writes to mag and theta does not depend on the phases kept. *)
  Lemma call_runs o f : vok o -> frame_room n f ->
    exists t tm re im mag theta, real_in_use dcos dsin n t /\ zlen tm = n /\ zlen re = n /\ zlen im = n /\
      zlen theta = zlen (fr_theta f) /\
      (forall out, writes (m + 1) (fr_out f) out -> describes n W f {| rs_mag := mag; rs_theta := theta; rs_out := out |}) /\
      forall ph un, dvoc_process datan2 {| dv_n := n; dv_hop := hop; dv_fft := dv_fft o; dv_time := dv_time o; dv_real := dv_real o; dv_imag := dv_imag o;
          dv_phase := ph; dv_unwrapped := un |} f =
        ('(ph, un, out) <- dpv_unwrap n hop theta ph un (fr_out f) ;;
         OK ({| dv_n := n; dv_hop := hop; dv_fft := t; dv_time := tm; dv_real := re; dv_imag := im; dv_phase := ph; dv_unwrapped := un |},
             {| rs_mag := mag; rs_theta := theta; rs_out := out |})).
  Proof.
    intros V (R1 & R2 & R3 & R4). destruct nm as (En & M1 & M2).
    destruct (load_runs o (fr_src f) V R1) as (t & tm & re & im & E & RU & L1 & L2 & L3 & HL).
    exists t, tm, re, im. exists (ztab (m + 1) (fun k => dsqrt (dadd (dmul (zn d0 re k) (zn d0 re k)) (dmul (zn d0 im k) (zn d0 im k)))) ++ skipn (Z.to_nat (m + 1)) (fr_mag f)).
    exists (ztab (m + 1) (fun k => datan2 (zn d0 im k) (zn d0 re k)) ++ skipn (Z.to_nat (m + 1)) (fr_theta f)).
    split; [exact RU|]. do 3 (split; [lia|]). split; [zl; lia|]. split.
    - intros out Wo. unfold describes. cbn [rs_mag rs_theta rs_out].
      assert (Wt : forall g l, (m + 1 <= zlen l)%Z -> writes (m + 1) l (ztab (m + 1) g ++ skipn (Z.to_nat (m + 1)) l)).
      { intros g l Hl. split; [zl; lia|]. intros k Hk. rewrite zn_app, zlen_ztab, Z.max_r by lia. destruct (Z.ltb_spec k (m + 1)); [lia|].
        rewrite zn_skipn by lia. f_equal. lia. }
      split; [apply Wt; exact R2|]. split; [apply Wt; exact R3|]. split; [exact Wo|].
      intros B HB SB k Hk. specialize (HL B HB SB k Hk). destruct HL as (F1 & F2 & B1 & B2 & E1 & E2).
      rewrite !zn_app, !zlen_ztab, !Z.max_r by lia. destruct (Z.ltb_spec k (m + 1)); [|lia]. rewrite !zn_ztab by lia.
      destruct (nW n ps Hn H2 Hps) as (W1 & W2 & NB). pose proof uro_pos as UP. pose proof uro_val as UV.
      assert (BP : 0 < B) by (destruct HB; eapply Rlt_le_trans; [apply bpow_gt_0|eassumption]).
      set (S := IZR n * B) in *. assert (SP : 0 < S) by (apply Rmult_lt_0_compat; lra).
      assert (HS : bpow radix2 (-400) <= S <= bpow radix2 490).
      { unfold S. destruct HB as [HB1 HB2]. assert (2 * B <= IZR n * B) by (apply Rmult_le_compat_r; lra). split; [lra|].
        assert (IZR n * B <= 1073741824 * B) by (apply Rmult_le_compat_r; lra).
        change (bpow radix2 490) with (bpow radix2 (40 + 450)). rewrite bpow_plus. change (bpow radix2 40) with 1099511627776. lra. }
      destruct (bin_polar S _ _ _ _ _ HS F1 F2 B1 B2 E1 E2) as (Fm & Ft & Bt & P1 & P2 & P3).
      split; [exact Fm|]. split; [exact Ft|]. split; [exact Bt|].
      assert (US : 0 < u * S) by (apply Rmult_lt_0_compat; lra).
      assert (1 * (u * S) <= W * (u * S)) by (apply Rmult_le_compat_r; lra).
      assert (Q1 : 5 * u * S + 1415 / 1000 * load_error (fr_src f) B <= mag_factor W (fr_src f) * u * IZR n * B).
      { destruct (fr_src f); cbn [load_error mag_factor]; fold S.
        - replace (181 * W * u * IZR n * B) with (181 * (W * (u * S))) by (unfold S; ring). replace (u * W * S) with (W * (u * S)) by ring. lra.
        - unfold S. lra. }
      assert (Q2 : 165 / 10 * u * S + load_error (fr_src f) B <= bin_factor W (fr_src f) * u * IZR n * B).
      { destruct (fr_src f); cbn [load_error bin_factor]; fold S.
        - replace (141 * W * u * IZR n * B) with (141 * (W * (u * S))) by (unfold S; ring). replace (u * W * S) with (W * (u * S)) by ring. lra.
        - replace (17 * u * IZR n * B) with (17 * (u * S)) by (unfold S; ring). lra. }
      split; [|split]; eapply Rle_trans; eauto.
    - intros ph un. destruct V as (N1 & N2 & _). unfold dvoc_process. cbn [dv_n dv_hop dv_phase dv_unwrapped].
      replace (dvoc_load _ (fr_src f)) with (dvoc_load o (fr_src f)) by (unfold dvoc_load; rewrite N1; reflexivity).
      rewrite E. ret. unfold dvoc_magnitudes, dvoc_phases.
      rewrite (for_up_tab (m + 1) _ (fun k => dsqrt (dadd (dmul (zn d0 re k) (zn d0 re k)) (dmul (zn d0 im k) (zn d0 im k))))) by
        (try lia; intros i s Hi Ls _ _; rewrite !(aget_OK d0) by lia; ret; ret; reflexivity).
      ret.
      rewrite (for_up_tab (m + 1) _ (fun k => datan2 (zn d0 im k) (zn d0 re k))) by
        (try lia; intros i s Hi Ls _ _; rewrite !(aget_OK d0) by lia; ret; ret; reflexivity).
      ret. reflexivity.
  Qed.

  (** A call with room returns, whatever the data. *)
  Lemma process_runs o f : vok o -> frame_room n f -> exists o' r, dvoc_process datan2 o f = OK (o', r) /\ vok o' /\ describes n W f r.
  Proof.
    intros V R. destruct (call_runs o f V R) as (t & tm & re & im & mag & theta & RU & L1 & L2 & L3 & Lt & D & E).
    destruct V as (N1 & N2 & _ & _ & _ & _ & L4 & L5). destruct nm as (En & M1 & M2). destruct R as (_ & _ & R3 & R4).
    destruct (unwrap_runs n hop theta (dv_phase o) (dv_unwrapped o) (fr_out f)) as (ph & un & out & E' & L6 & L7 & _ & L8 & K); try lia.
    specialize (E (dv_phase o) (dv_unwrapped o)). rewrite E' in E.
    replace {| dv_n := n; dv_hop := hop; dv_fft := dv_fft o; dv_time := dv_time o; dv_real := dv_real o; dv_imag := dv_imag o;
               dv_phase := dv_phase o; dv_unwrapped := dv_unwrapped o |} with o in E by (destruct o; cbn in *; subst; reflexivity).
    do 2 eexists. split; [exact E|]. split.
    - unfold vok. cbn [dv_n dv_hop dv_fft dv_time dv_real dv_imag dv_phase dv_unwrapped]. splits; auto.
    - apply D. split; [exact L8|]. intros k Hk. apply K. lia.
  Qed.

  Lemma reset_ok o : vok o -> exists o', dvoc_reset o = OK o' /\ vok o'.
  Proof.
    intros (N1 & N2 & RU & L1 & L2 & L3 & L4 & L5). destruct nm as (En & M1 & M2). unfold dvoc_reset. rewrite N1, N2.
    destruct (reset_runs n hop (dv_phase o) (dv_unwrapped o)) as (ph & un & E & L6 & L7 & _); try lia. rewrite E. ret.
    eexists; split; [reflexivity|]. unfold vok. cbn [dv_n dv_hop dv_fft dv_time dv_real dv_imag dv_phase dv_unwrapped]. splits; auto.
  Qed.

  Definition blank f jt jr ji : dvoc :=
    {| dv_n := n; dv_hop := hop; dv_fft := f; dv_time := jt; dv_real := jr; dv_imag := ji;
       dv_phase := repeat d0 (Z.to_nat (m + 1)); dv_unwrapped := repeat d0 (Z.to_nat (m + 1)) |}.
  Lemma new_resets j1 j2 jc jt jr ji : zlen j1 = m -> zlen j2 = m -> zlen jc = n -> zlen jt = n -> zlen jr = n -> zlen ji = n ->
    exists f, vok (blank f jt jr ji) /\ dvoc_new dcos dsin n hop j1 j2 jc jt jr ji = dvoc_reset (blank f jt jr ji).
  Proof.
    intros L1 L2 L3 L4 L5 L6. destruct nm as (En & M1 & M2). unfold dvoc_new.
    destruct (dnew_ready dcos dsin m ltac:(lia) j1 j2 jc L1 L2 ltac:(lia)) as (f & E & _). rewrite <- En in E. exists f. rewrite E. ret. split; [|reflexivity].
    unfold vok, blank. cbn [dv_n dv_hop dv_fft dv_time dv_real dv_imag dv_phase dv_unwrapped].
    assert (L : zlen (repeat d0 (Z.to_nat (m + 1))) = (m + 1)%Z) by (unfold zlen; rewrite repeat_length; lia).
    splits; auto. eapply real_new; [exact L1|exact L2|exact L3|exact E].
  Qed.

  Lemma in_use_ok o : voc_in_use dcos dsin datan2 n hop o -> vok o.
  Proof.
    induction 1 as [j1 j2 jc jt jr ji o L1 L2 L3 L4 L5 L6 E|o f o' r _ IH R E|o o' _ IH E].
    - destruct (new_resets j1 j2 jc jt jr ji) as (f & V & E'); auto. rewrite E in E'. destruct (reset_ok _ V) as (o2 & E2 & V2).
      rewrite E2 in E'. injection E' as ->. exact V2.
    - destruct (process_runs o f IH R) as (o2 & r2 & E2 & V2 & _). rewrite E in E2. injection E2 as -> _. exact V2.
    - destruct (reset_ok o IH) as (o2 & E2 & V2). rewrite E in E2. injection E2 as ->. exact V2.
  Qed.

  Lemma fresh_resets o : voc_fresh dcos dsin datan2 n hop o -> exists o0, vok o0 /\ dvoc_reset o0 = OK o.
  Proof.
    intros [(j1 & j2 & jc & jt & jr & ji & L1 & L2 & L3 & L4 & L5 & L6 & E)|(o0 & U & E)].
    - destruct (new_resets j1 j2 jc jt jr ji) as (f & V & E'); auto. rewrite E in E'. exists (blank f jt jr ji). auto.
    - exists o0. split; [now apply in_use_ok|exact E].
  Qed.

  (** The unwrapping of a run of frames is that of the phases it measures. *)
  Lemma run_split : forall frames o, vok o -> Forall (frame_room n) frames ->
    exists thetas, length thetas = length frames /\
      Forall2 (fun f th => zlen th = zlen (fr_theta f) /\ exists mag, forall out, writes (m + 1) (fr_out f) out ->
        describes n W f {| rs_mag := mag; rs_theta := th; rs_out := out |}) frames thetas /\
      forall ph un os, zlen ph = (m + 1)%Z -> zlen un = (m + 1)%Z -> dpv_frames n hop ph un (combine thetas (map fr_out frames)) = OK os ->
        exists o' rs, dvoc_run datan2 {| dv_n := n; dv_hop := hop; dv_fft := dv_fft o; dv_time := dv_time o; dv_real := dv_real o; dv_imag := dv_imag o;
          dv_phase := ph; dv_unwrapped := un |} frames = OK (o', rs) /\ map rs_theta rs = thetas /\ map rs_out rs = os /\
          Forall2 (describes n W) frames rs.
  Proof.
    induction frames as [|f frames IH]; intros o V FR.
    - exists []. split; [reflexivity|]. split; [constructor|]. intros ph un os Lp Lu E. cbn in E. injection E as <-.
      cbn [dvoc_run]. do 2 eexists. split; [reflexivity|]. repeat split; constructor.
    - apply Forall_cons_iff in FR. destruct FR as [R FR]. destruct nm as (En & M1 & M2).
      destruct (call_runs o f V R) as (t & tm & re & im & mag & theta & RU & L1 & L2 & L3 & Lt & D & E).
      pose proof R as (_ & _ & R3 & R4).
      set (o1 := {| dv_n := n; dv_hop := hop; dv_fft := t; dv_time := tm; dv_real := re; dv_imag := im; dv_phase := dv_phase o; dv_unwrapped := dv_unwrapped o |}).
      assert (V1 : vok o1) by (destruct V as (_ & _ & _ & _ & _ & _ & L4 & L5); unfold vok, o1; cbn; splits; auto).
      destruct (IH o1 V1 FR) as (thetas & LT & FT & Run). exists (theta :: thetas). split; [cbn; congruence|].
      split; [constructor; [split; [exact Lt|exists mag; exact D]|exact FT]|].
      intros ph un os Lp Lu EF. cbn [map combine dpv_frames] in EF.
      destruct (unwrap_runs n hop theta ph un (fr_out f)) as (ph1 & un1 & out & E' & L6 & L7 & _ & L8 & K); try lia.
      rewrite E' in EF. cbn [bind] in EF. destruct (dpv_frames n hop ph1 un1 _) as [os1| | |] eqn:EF1; try discriminate. cbn [bind] in EF. injection EF as <-.
      destruct (Run ph1 un1 os1 L6 L7 EF1) as (o' & rs & ER & H1 & H3 & H4). cbn [dv_fft dv_time dv_real dv_imag o1] in ER.
      cbn [dvoc_run]. rewrite E, E'. cbn [bind]. rewrite ER. cbn [bind]. do 2 eexists. split; [reflexivity|].
      cbn [map rs_theta rs_out]. split; [congruence|]. split; [congruence|]. constructor; [|exact H4].
      apply D. split; [exact L8|]. intros k Hk. apply K. lia.
  Qed.

  Theorem voc_frames o frames : voc_fresh dcos dsin datan2 n hop o ->
    ((2 * Z.of_nat (length frames) + 1) * (4 * hop) <= 281474976710656)%Z ->
    Forall (frame_bounded n) frames ->
    exists o' rs, dvoc_run datan2 o frames = OK (o', rs) /\ Forall2 (describes n W) frames rs /\
      forall k, (0 <= k <= m)%Z -> tracks n hop k 0 (- advance n hop k) (map (fun r => (rs_theta r, rs_out r)) rs) (map rs_out rs).
  Proof.
    intros Fr Hb FB. destruct (fresh_resets o Fr) as (o0 & V & E0). destruct nm as (En & M1 & M2).
    assert (FR : Forall (frame_room n) frames) by (eapply Forall_impl; [|exact FB]; intros f [H _]; exact H).
    destruct (run_split frames o0 V FR) as (thetas & LT & FT & Run).
    pose proof V as (N1 & N2 & _ & _ & _ & _ & L4 & L5).
    assert (PF : phase_frames (m + 1) (combine thetas (map fr_out frames))).
    { clear Run LT Hb. induction FT as [|f th fs ths (Lt & mag & D) FT IH]; [constructor|]. inversion FB as [|? ? [R (B & HB & SB)] FB']; subst. inversion FR; subst.
      cbn [map combine]. constructor; [|now apply IH]. cbn [fst snd]. destruct R as (_ & _ & R3 & R4). split; [lia|]. split; [lia|].
      intros k Hk. destruct (D (fr_out f)) as (_ & _ & _ & D'); [split; auto|]. destruct (D' B HB SB k ltac:(lia)) as (_ & F & Bt & _). auto. }
    destruct (reset_tracks n hop ltac:(lia) Hh (combine thetas (map fr_out frames)) (dv_phase o0) (dv_unwrapped o0)) as (ph & un & os & ER & EF & T); auto.
    { rewrite combine_length, map_length, LT, Nat.min_id. exact Hb. }
    destruct (reset_runs n hop (dv_phase o0) (dv_unwrapped o0)) as (ph2 & un2 & ER2 & L6 & L7 & _); try lia. rewrite ER in ER2. injection ER2 as <- <-.
    destruct (Run ph un os L6 L7 EF) as (o' & rs & EV & H1 & H3 & H4).
    unfold dvoc_reset in E0. rewrite N1, N2, ER in E0. cbn [bind] in E0. injection E0 as <-.
    exists o', rs. split; [exact EV|]. split; [exact H4|]. intros k Hk. rewrite H3. apply (tracks_ext n hop k (combine thetas (map fr_out frames))); [|now apply T].
    rewrite map_map. cbn [fst]. change (fun x => rs_theta x) with rs_theta. rewrite H1.
    clear - LT. revert frames LT. induction thetas; intros [|f fs] E; try discriminate; [reflexivity|]. cbn in *. f_equal. apply IHthetas. congruence.
  Qed.

  Theorem voc_call_runs o f : voc_in_use dcos dsin datan2 n hop o -> frame_room n f ->
    exists o' r, dvoc_process datan2 o f = OK (o', r) /\ describes n W f r.
  Proof. intros U R. destruct (process_runs o f (in_use_ok o U) R) as (o' & r & E & _ & D). eauto. Qed.
  Theorem voc_reset_runs o : voc_in_use dcos dsin datan2 n hop o -> exists o', dvoc_reset o = OK o'.
  Proof. intros U. destruct (reset_ok o (in_use_ok o U)) as (o' & E & _). eauto. Qed.
  Theorem voc_new_runs j1 j2 jc jt jr ji : zlen j1 = m -> zlen j2 = m -> zlen jc = n -> zlen jt = n -> zlen jr = n -> zlen ji = n ->
    exists o, dvoc_new dcos dsin n hop j1 j2 jc jt jr ji = OK o.
  Proof.
    intros L1 L2 L3 L4 L5 L6. destruct (new_resets j1 j2 jc jt jr ji) as (f & V & ->); auto. destruct (reset_ok _ V) as (o & E & _). eauto.
  Qed.
End Whole.
