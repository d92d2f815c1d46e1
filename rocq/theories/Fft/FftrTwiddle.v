(** FFTReal in IEEE doubles: the super twiddles, the half-size transform, the square root. *)
From Coq Require Import ZArith Reals Lia Lra Psatz List Bool.
From Flocq Require Import Core.
From Flocq.IEEE754 Require Import BinarySingleNaN.
From Coquelicot Require Import Complex.
From Verif.Base Require Import Imp Sums RealOps Dbl Double Loops.
From Verif.Maths Require Import DoubleModel DoublePi DoubleProofs.
From Verif.Fft Require Import Cplx FftModel FftSpec FftBfly FftWork FftProofs FftGen FftGenProofs FftGenRuns FftDouble FftDoubleSpec
  FftRadix FftRound FftDoubleWork FftTwiddle FftDoubleProofs FftrDouble.
Import ListNotations.
Open Scope R_scope.

(** Multiplying by -1 is exact. *)
Lemma dneg_ok x : finite x -> finite (dmul x dneg1) /\ dval (dmul x dneg1) = - dval x.
Proof.
  intros F. destruct (dint_ok (-1)) as [Fm Vm]; [reflexivity|]. fold dneg1 in Fm, Vm.
  pose proof (Bmult_correct 53 1024 eq_refl eq_refl mode_NE x dneg1) as C.
  assert (R : Generic_fmt.round radix2 (SpecFloat.fexp 53 1024) (round_mode mode_NE) (B2R x * B2R dneg1) = - B2R x).
  { unfold dval in Vm. rewrite Vm. replace (B2R x * IZR (-1)) with (- B2R x) by ring.
    apply round_generic; [apply valid_rnd_round_mode|]. apply generic_format_opp. apply (generic_format_B2R 53 1024). }
  rewrite R in C. rewrite Rabs_Ropp in C.
  rewrite Rlt_bool_true in C by (apply (abs_B2R_lt_emax 53 1024)).
  destruct C as (C1 & C2 & _). unfold finite, dval, dmul. unfold finite in F, Fm. rewrite F, Fm in C2. split; [exact C2|exact C1].
Qed.

Section Super.
  Context (m k : Z) (Hm : (1 <= m <= 2 ^ 30)%Z) (Hk : (1 <= k <= m / 2)%Z).
  Definition sphase0 : double := dmul (dopp dpi) (dadd (ddiv (dint k) (dint m)) dhalf).
  Notation x := (- PI * (IZR k / IZR m + / 2)).

  Lemma sphase0_ok : finite sphase0 /\ Rabs (dval sphase0 - x) <= 15 * u /\ Rabs (dval sphase0) <= 7.
  Proof.
    change (2 ^ 30)%Z with 1073741824%Z in Hm.
    assert (2 * (m / 2) <= m)%Z by (apply Z.mul_div_le; lia).
    assert (N1 : 1 <= IZR m <= 1073741824) by (split; apply IZR_le; lia).
    assert (K0 : 1 <= IZR k) by (apply IZR_le; lia). assert (K1 : IZR k <= IZR m / 2).
    { assert (2 * IZR k <= IZR m) by (rewrite <- mult_IZR; apply IZR_le; lia). lra. }
    pose proof pi_bounds as PB. pose proof dpi_error as PE. pose proof uro_val as UV. pose proof uro_pos as UP.
    destruct (dint_ok k) as [Fk Vk]; [unfold two53; lia|]. destruct (dint_ok m) as [Fm Vm]; [unfold two53; lia|].
    assert (Q : 0 <= IZR k / IZR m <= 1 / 2).
    { split; [apply Rle_mult_inv_pos; lra|]. apply (Rmult_le_reg_r (IZR m)); [lra|]. unfold Rdiv. rewrite Rmult_assoc, Rinv_l; lra. }
    set (q := IZR k / IZR m) in *.
    destruct (ddiv_ok (dint k) (dint m) Fk) as [F1 V1]; [rewrite Vm; lra| |].
    { rewrite Vk, Vm. fold q. apply (small_huge _ 0); [|lia]. change (bpow radix2 0) with 1. apply Rabs_le. lra. }
    rewrite Vk, Vm in V1. fold q in V1. set (a := ddiv (dint k) (dint m)) in *.
    pose proof (rnd_le_bound q 1 ltac:(lra) ltac:(apply Rabs_le; lra)) as E1. rewrite <- V1 in E1. apply Rabs_le_inv in E1.
    destruct dhalf_ok as [Fh Vh].
    assert (B2 : Rabs (dval a + dval dhalf) <= 101 / 100) by (rewrite Vh; apply Rabs_le; rewrite UV in E1; lra).
    destruct (dadd_ok a dhalf F1 Fh) as [F2 V2]; [apply (small_huge _ 3); [|lia]; change (bpow radix2 3) with 8; lra|].
    pose proof (rnd_le_bound _ (101 / 100) ltac:(lra) B2) as E2. rewrite <- V2, Vh in E2. apply Rabs_le_inv in E2.
    set (b := dadd a dhalf) in *.
    assert (Fp : finite (dopp dpi)) by (unfold finite, dopp; rewrite is_finite_Bopp; apply dpi_finite).
    assert (Vp : dval (dopp dpi) = - dval dpi) by (unfold dval, dopp; apply B2R_Bopp).
    assert (B3 : Rabs (dval (dopp dpi) * dval b) <= 32 / 10).
    { rewrite Vp, Rabs_mult, Rabs_Ropp.
      assert (Rabs (dval dpi) <= 31416 / 10000) by (apply Rabs_le; lra).
      assert (Rabs (dval b) <= 10001 / 10000) by (rewrite UV in *; apply Rabs_le; lra).
      eapply Rle_trans; [apply Rmult_le_compat; try eassumption; apply Rabs_pos|]. lra. }
    destruct (dmul_ok (dopp dpi) b Fp F2) as [F3 V3]; [apply (small_huge _ 3); [|lia]; change (bpow radix2 3) with 8; lra|].
    pose proof (rnd_le_bound _ (32 / 10) ltac:(lra) B3) as E3. rewrite <- V3, Vp in E3. fold sphase0 in E3, F3, V3.
    split; [exact F3|].
    assert (D : Rabs (- dval dpi * dval b - x) <= 8 * u).
    { change (IZR k / IZR m) with q. replace (- dval dpi * dval b - - PI * (q + / 2)) with ((PI - dval dpi) * dval b + - PI * (dval b - (q + / 2))) by ring.
      assert (A2 : Rabs (- PI * (dval b - (q + / 2))) <= 3142 / 1000 * (2013 / 1000 * u)).
      { rewrite Rabs_mult. apply Rmult_le_compat; try apply Rabs_pos; apply Rabs_le; lra. }
      assert (X1 : Rabs ((PI - dval dpi) * dval b) <= 13 / 100000000000000000 * (101 / 100)).
      { rewrite Rabs_mult. apply Rmult_le_compat; try apply Rabs_pos; rewrite UV in *; apply Rabs_le; lra. }
      assert (13 / 100000000000000000 * (101 / 100) <= 12 / 10 * u) by (rewrite UV; lra).
      eapply Rle_trans; [apply Rabs_triang|]. eapply Rle_trans; [apply Rplus_le_compat; [exact X1|exact A2]|]. lra. }
    split.
    - change (dmul (dopp dpi) b) with sphase0 in E3. change (IZR k / IZR m) with q in D. change (IZR k / IZR m) with q.
      replace (dval sphase0 - - PI * (q + / 2)) with ((dval sphase0 - - dval dpi * dval b) + (- dval dpi * dval b - - PI * (q + / 2))) by ring.
      eapply Rle_trans; [apply Rabs_triang|]. eapply Rle_trans; [apply Rplus_le_compat; [exact E3|exact D]|]. lra.
    - rewrite Vp in B3. pose proof (near' _ _ _ _ E3 B3) as R. eapply Rle_trans; [exact R|]. rewrite UV. lra.
  Qed.

  Context (inv : bool).
  Definition sphase : double := if inv then dmul sphase0 dneg1 else sphase0.
  Notation y := (2 * PI * IZR (sg inv * k) / IZR (2 * m) + IZR (sg inv) * (PI / 2)).
  Lemma sphase_ok : finite sphase /\ Rabs (dval sphase - y) <= 15 * u /\ Rabs (dval sphase) <= 7.
  Proof.
    assert (N0 : IZR m <> 0) by (apply not_0_IZR; lia).
    destruct sphase0_ok as (F & E & B). unfold sphase. rewrite !mult_IZR. destruct inv; cbn [sg].
    - destruct (dneg_ok sphase0 F) as [F' V']. split; [exact F'|]. rewrite V', Rabs_Ropp. split; [|exact B].
      replace (- dval sphase0 - _) with (- (dval sphase0 - - PI * (IZR k / IZR m + / 2))) by (field; auto). now rewrite Rabs_Ropp.
    - split; [exact F|]. split; [|exact B]. replace (2 * PI * (-1 * IZR k) / (2 * IZR m) + -1 * (PI / 2)) with (- PI * (IZR k / IZR m + / 2)) by (field; auto). exact E.
  Qed.

  Lemma super_near dcos dsin : accurate dcos cos -> accurate dsin sin ->
    ctnear (dsuper dcos dsin inv m (k - 1)) (cmul (root (2 * m) (sg inv * k)) (0, IZR (sg inv))).
  Proof.
    intros Hc Hs. destruct sphase_ok as (F & E & B).
    replace (dsuper dcos dsin inv m (k - 1)) with (dcos sphase, dsin sphase) by (unfold dsuper, sphase, sphase0; now replace (k - 1 + 1)%Z with k by lia).
    destruct (Hc sphase F B) as [C1 C2]. destruct (Hs sphase F B) as [S1 S2].
    assert (R : cmul (root (2 * m) (sg inv * k)) (0, IZR (sg inv)) = cis y).
    { rewrite cis_add. unfold root. f_equal. destruct inv; cbn [sg].
      - replace (1 * (PI / 2)) with (PI / 2) by ring. unfold cis. now rewrite cos_PI2, sin_PI2.
      - replace (-1 * (PI / 2)) with (- (PI / 2)) by ring. rewrite cis_opp. unfold cis, cconj. cbn [fst snd]. rewrite cos_PI2, sin_PI2. f_equal. }
    rewrite R. unfold cis, ctnear, tnear. cbn [fst snd].
    pose proof (cos_lip (dval sphase) y) as L1. pose proof (sin_lip (dval sphase) y) as L2.
    pose proof (COS_bound y) as B1. pose proof (SIN_bound y) as B2.
    split; (split; [assumption|]); (split; [|apply Rabs_le; lra]).
    - replace (dval (dcos sphase) - cos y) with ((dval (dcos sphase) - cos (dval sphase)) + (cos (dval sphase) - cos y)) by ring.
      eapply Rle_trans; [apply Rabs_triang|]. lra.
    - replace (dval (dsin sphase) - sin y) with ((dval (dsin sphase) - sin (dval sphase)) + (sin (dval sphase) - sin y)) by ring.
      eapply Rle_trans; [apply Rabs_triang|]. lra.
  Qed.
End Super.

(** *** The half-size transform of any buffer *)
Lemma kiss_list dcos dsin m ps inv p f k0 M : accurate dcos cos -> accurate dsin sin -> (1 <= m <= 2 ^ 30)%Z -> prime_factors m ps ->
  bpow radix2 (-900) <= M <= bpow radix2 860 ->
  g_alloc (dtwiddle dcos dsin) m inv = OK p -> zlen f = m -> zlen k0 = m ->
  (forall j, (0 <= j < m)%Z -> fin2 (zn dz f j) /\ Cmod (dcv (zn dz f j)) <= M) ->
  exists kout, dkiss p f k0 = OK kout /\ zlen kout = m /\
    forall k, (0 <= k < m)%Z -> fin2 (zn dz kout k) /\
      Cmod (csub (dcv (zn dz kout k)) (cdft inv m (fun j => dcv (zn dz f j)) k)) <= 41 * u * IZR m * weight ps * M.
Proof.
  intros Hc Hs Hm Hps HM A Lf Lk Hf.
  destruct (g_alloc_ok (dtwiddle dcos dsin) m inv ltac:(lia)) as (facs & Ef & Ch & A'). rewrite A in A'. injection A' as ->.
  destruct (prime_weight m ps facs ltac:(lia) Hps Ef Ch) as [W1 W2].
  pose proof (n_bounds m Hm) as NB. pose proof uro_pos as UP. pose proof (M_pos M HM) as MP. pose proof (small_weight m Hm) as SW.
  destruct (work_doubles m inv (ztab m (dtwiddle dcos dsin inv m))) with (f := f) (M := M)
    (facs := facs) (n := m) (F := k0) (off := 0%Z) (foff := 0%Z) (fstride := 1%Z) (istr := 1%Z) (L := m) as (F' & E & LF & _ & V); auto; try lia.
  - zl; lia.
  - intros i Hi. rewrite zn_ztab by lia. now apply twiddle_near.
  - intros i Hi. apply Hf. lia.
  - eapply Rle_trans; [|exact SW]. apply Rmult_le_compat_l; [lra|]. lra.
  - exists F'. unfold dkiss, g_kiss_fft. cbn [p_n p_inv p_tw p_fac]. split; [exact E|]. split; [exact LF|].
    intros k Hk. specialize (V k Hk). change (0 + k)%Z with k in V. destruct V as [V1 V2]. split; [exact V1|].
    match type of V2 with Cmod (csub ?A ?B) <= _ => replace B with (cdft inv m (fun j => dcv (zn dz f j)) k) in V2 end.
    + eapply Rle_trans; [exact V2|]. apply Rmult_le_compat_r; [lra|]. apply Rmult_le_compat_l; [|lra]. apply Rmult_le_pos; lra.
    + unfold cdft. apply csum_ext. intros j Hj. f_equal; [f_equal; f_equal; lia|f_equal; lia].
Qed.

(** *** The square root *)
Lemma dsqrt_ok x : finite x -> 0 <= dval x -> finite (dsqrt x) /\ dval (dsqrt x) = rnd (sqrt (dval x)).
Proof.
  intros F P. pose proof (Bsqrt_correct 53 1024 eq_refl eq_refl mode_NE x) as (V & S & _).
  split; [|exact V]. unfold finite, dsqrt in *. etransitivity; [exact S|].
  destruct x as [s|s| |s mm e H]; cbn in F |- *; try discriminate; auto. destruct s; auto.
  exfalso. unfold dval in P. cbn in P. pose proof (F2R_lt_0 radix2 (Float radix2 (Z.neg mm) e) ltac:(reflexivity)). unfold F2R in *. cbn in *. lra.
Qed.
