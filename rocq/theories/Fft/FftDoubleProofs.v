(** Class FFT in IEEE doubles: error bounds. *)
From Coq Require Import ZArith Reals Lia Lra Psatz List Bool Znumtheory.
From Flocq Require Import Core.
From Coquelicot Require Import Complex.
From Verif.Base Require Import Imp Sums RealOps Dbl Double Loops.
From Verif.Maths Require Import DoubleModel DoublePi DoubleProofs.
From Verif.Fft Require Import Cplx FftModel FftSpec FftBfly FftWork FftProofs FftGen FftGenProofs FftGenRuns FftDouble FftDoubleSpec
  FftRadix FftRound FftDoubleWork FftTwiddle.
Import ListNotations.
Open Scope R_scope.

Definition cin (ri : list double) (ii : option (list double)) (j : Z) : cplx := (dval (re_in ri j), dval (im_in ii j)).

Lemma prime_weight n ps facs : (1 <= n)%Z -> prime_factors n ps -> kf_factor n = OK facs -> chain n facs ->
  IZR (radix_sum facs) <= weight ps /\ 1 <= weight ps <= 1 + IZR n.
Proof.
  intros Hn [Hp Hq] E C. change (fold_right Z.mul 1%Z ps) with (prod ps) in Hq. unfold weight. change (fold_right Z.add 0%Z ps) with (total ps).
  destruct (total_le_prod ps Hp) as [T _]. rewrite Hq in T. split.
  - apply IZR_le. destruct (Z.eq_dec n 1) as [->|N1].
    + cbv in E. injection E as <-. change (radix_sum [1; 1]%Z) with 1%Z. lia.
    + rewrite (radix_sum_total facs n ps); auto; [lia|]. eapply kf_factor_radices; [|exact E]. lia.
  - rewrite plus_IZR. split; [|apply Rplus_le_compat_l, IZR_le; lia]. assert (0 <= IZR (total ps)) by (apply IZR_le; lia). lra.
Qed.

Section Fft.
  Context (dcos dsin : double -> double) (Hcos : accurate dcos cos) (Hsin : accurate dsin sin).
  Context (n : Z) (ps : list Z) (Hn : (1 <= n <= 2 ^ 30)%Z) (Hps : prime_factors n ps).
  Notation ready := (gready (dtwiddle dcos dsin) n).
  Notation W := (weight ps).

  Lemma in_use_ready o : in_use dcos dsin n o -> ready o.
  Proof.
    induction 1 as [ji jo o L1 L2 E|o o' inv ri ii ro io ro' io' _ IH Lr Li Lo1 Lo2 E].
    - destruct (g_new_ready (dtwiddle dcos dsin) n ji jo) as (o' & E' & R); auto; [lia|].
      unfold dfft_new in E. rewrite E in E'. injection E' as <-. exact R.
    - destruct (g_process_runs d0 dhalf dadd dsub dmul dopp (dtwiddle dcos dsin) dscale n o inv ri ii ro io) as (o2 & facs & kout & _ & _ & _ & _ & E' & R); auto.
      unfold dfft_process in E. rewrite E in E'. injection E' as -> _ _. exact R.
  Qed.

  Context (M : R) (HM : bpow radix2 (-900) <= M <= bpow radix2 860).

  Lemma n_bounds : 1 <= IZR n <= 1073741824.
  Proof. change (2 ^ 30)%Z with 1073741824%Z in Hn. split; apply IZR_le; lia. Qed.

  Lemma small_weight : 41 * u * (1 + IZR n) <= 1 / 100.
  Proof. pose proof n_bounds. rewrite uro_val. lra. Qed.

  Lemma bounded_cmod ri ii : bounded n M ri ii -> forall j, (0 <= j < n)%Z ->
    fin2 (ginput d0 ri ii j) /\ Cmod (cin ri ii j) <= M.
  Proof.
    intros (_ & _ & H) j Hj. destruct (H j Hj) as (F1 & F2 & B). split; [split; assumption|].
    unfold Cmod. cbn [cin fst snd]. pose proof (M_pos M HM). rewrite <- (sqrt_Rsqr M) by lra. apply sqrt_le_1_alt. unfold Rsqr.
    replace (dval (re_in ri j) ^ 2 + dval (im_in ii j) ^ 2) with (dval (re_in ri j) * dval (re_in ri j) + dval (im_in ii j) * dval (im_in ii j)) by ring. exact B.
  Qed.
  Lemma cin_ginput ri ii j : dcv (ginput d0 ri ii j) = cin ri ii j.
  Proof. reflexivity. Qed.

  Lemma cdft_cmod inv x k B : (forall j, (0 <= j < n)%Z -> Cmod (x j) <= B) -> Cmod (cdft inv n x k) <= IZR n * B.
  Proof.
    intros H. apply csum_cmod; [lia|]. intros j Hj. rewrite cmod_mul, cmod_root, Rmult_1_r. auto.
  Qed.

  (** The transform proper. *)
  Lemma kiss_doubles inv ri ii facs k0 kout : bounded n M ri ii -> kf_factor n = OK facs -> chain n facs -> zlen k0 = n ->
    g_work d0 dhalf dadd dsub dmul dopp n inv (ztab n (dtwiddle dcos dsin inv n)) facs k0 0 (ztab n (ginput d0 ri ii)) 0 1 1 = OK kout ->
    forall k, (0 <= k < n)%Z -> fin2 (zn dz kout k) /\ Cmod (csub (dcv (zn dz kout k)) (cdft inv n (cin ri ii) k)) <= 41 * u * IZR n * W * M.
  Proof.
    intros Hb Ef Ch Lk Ew k Hk. destruct (prime_weight n ps facs ltac:(lia) Hps Ef Ch) as [W1 W2].
    pose proof n_bounds as NB. pose proof uro_pos as UP. pose proof (M_pos M HM) as MP. pose proof small_weight as SW.
    pose proof (bounded_cmod ri ii Hb) as BC.
    destruct (work_doubles n inv (ztab n (dtwiddle dcos dsin inv n))) with (f := ztab n (ginput d0 ri ii)) (M := M)
      (facs := facs) (n := n) (F := k0) (off := 0%Z) (foff := 0%Z) (fstride := 1%Z) (istr := 1%Z) (L := n) as (F' & E & _ & _ & V); auto; try lia.
    - zl; lia.
    - intros i Hi. rewrite zn_ztab by lia. now apply twiddle_near.
    - intros i Hi. rewrite zlen_ztab in Hi. rewrite zn_ztab by lia. rewrite cin_ginput. apply BC. lia.
    - eapply Rle_trans; [|exact SW]. apply Rmult_le_compat_l; [lra|]. lra.
    - intros j Hj. zl; lia.
    - rewrite Ew in E. injection E as <-. specialize (V k Hk). change (0 + k)%Z with k in V. destruct V as [V1 V2]. split; [exact V1|].
      match type of V2 with Cmod (csub ?A ?B) <= _ => replace B with (cdft inv n (cin ri ii) k) in V2 end.
      + eapply Rle_trans; [exact V2|]. apply Rmult_le_compat_r; [lra|]. apply Rmult_le_compat_l; [|lra].
        apply Rmult_le_pos; lra.
      + unfold cdft. apply csum_ext. intros j Hj. rewrite zn_ztab by lia. rewrite cin_ginput. f_equal; [f_equal; lia|f_equal; lia].
  Qed.

  Lemma scale_ok : finite (dscale n) /\ Rabs (dval (dscale n) - / IZR n) <= 101 / 100 * u * / IZR n /\ Rabs (dval (dscale n)) <= 101 / 100 * / IZR n.
  Proof.
    pose proof n_bounds as NB. pose proof uro_pos as UP. pose proof uro_val as UV.
    assert (N' : (1 <= n <= 1073741824)%Z) by (change 1073741824%Z with (2 ^ 30)%Z; lia).
    destruct (dint_ok 1) as [F1 V1]; [reflexivity|]. destruct (dint_ok n) as [Fn Vn]; [unfold two53; lia|].
    assert (IP : 0 < / IZR n) by (apply Rinv_0_lt_compat; lra).
    assert (I1 : / IZR n <= 1) by (rewrite <- Rinv_1; apply Rinv_le; lra).
    destruct (ddiv_ok (dint 1) (dint n) F1) as [F V]; [rewrite Vn; lra| |].
    { rewrite V1, Vn. unfold Rdiv. rewrite Rmult_1_l. apply (small_huge _ 0); [|lia]. change (bpow radix2 0) with 1. rewrite Rabs_pos_eq; lra. }
    rewrite V1, Vn in V. replace (1 / IZR n) with (/ IZR n) in V by (unfold Rdiv; ring). fold (dscale n) in F, V.
    assert (K : bpow radix2 (-900) <= / IZR n).
    { apply Rle_trans with (bpow radix2 (-30)); [apply bpow_le; lia|]. change (bpow radix2 (-30)) with (/ 1073741824). apply Rinv_le; lra. }
    pose proof (rnd_unit (/ IZR n) 1 (/ IZR n) K) as R. rewrite <- V in R.
    assert (E : Rabs (dval (dscale n) - / IZR n) <= 101 / 100 * u * / IZR n).
    { eapply Rle_trans; [apply R; rewrite Rabs_pos_eq; lra|]. apply Rmult_le_compat_r; [lra|]. lra. }
    split; [exact F|]. split; [exact E|].
    eapply Rle_trans; [eapply near'; [exact E|rewrite Rabs_pos_eq; [apply Rle_refl|lra]]|].
    assert (101 / 100 * u * / IZR n <= 1 / 100 * / IZR n) by (apply Rmult_le_compat_r; [lra|]; rewrite UV; lra). lra.
  Qed.

  (** Scaling one component of the inverse transform. *)
  Lemma scaled_ok d e w : 1 <= w -> 41 * u * w <= 1 / 100 -> finite d -> Rabs (dval d - e) <= 41 * u * IZR n * w * M -> Rabs e <= IZR n * M ->
    finite (dmul d (dscale n)) /\ Rabs (dval (dmul d (dscale n)) - e / IZR n) <= 44 * u * w * M.
  Proof.
    intros Hw Hs Fd Ed Ee. pose proof n_bounds as NB. pose proof uro_pos as UP. pose proof uro_val as UV. pose proof (M_pos M HM) as MP.
    destruct scale_ok as (Fs & Es & Bs). assert (IP : 0 < / IZR n) by (apply Rinv_0_lt_compat; lra).
    assert (NI : IZR n * / IZR n = 1) by (field; lra).
    set (sc := dval (dscale n)) in *.
    assert (A : Rabs (dval d * sc - e / IZR n) <= (41 * w * (101 / 100) + 101 / 100) * (u * M)).
    { replace (dval d * sc - e / IZR n) with ((dval d - e) * sc + e * (sc - / IZR n)) by (field; lra).
      eapply Rle_trans; [apply Rabs_triang|]. rewrite !Rabs_mult.
      assert (Rabs (dval d - e) * Rabs sc <= 41 * u * IZR n * w * M * (101 / 100 * / IZR n)) by (apply Rmult_le_compat; auto using Rabs_pos).
      assert (Rabs e * Rabs (sc - / IZR n) <= IZR n * M * (101 / 100 * u * / IZR n)) by (apply Rmult_le_compat; auto using Rabs_pos).
      replace (41 * u * IZR n * w * M * (101 / 100 * / IZR n)) with (41 * w * (101 / 100) * (u * M) * (IZR n * / IZR n)) in H by ring.
      replace (IZR n * M * (101 / 100 * u * / IZR n)) with (101 / 100 * (u * M) * (IZR n * / IZR n)) in H0 by ring.
      rewrite NI in *. lra. }
    assert (UM : 0 < u * M) by (apply Rmult_lt_0_compat; lra).
    assert (E2 : Rabs (e / IZR n) <= M).
    { unfold Rdiv. rewrite Rabs_mult, (Rabs_pos_eq (/ IZR n)) by lra.
      replace M with (IZR n * M * / IZR n) by (field; lra). apply Rmult_le_compat_r; lra. }
    assert (B : Rabs (dval d * sc) <= 103 / 100 * M).
    { eapply Rle_trans; [eapply near'; [exact A|exact E2]|].
      assert ((41 * w * (101 / 100) + 101 / 100) * u <= 2 / 100) by (assert (101 / 100 * u <= 5 / 1000) by (rewrite UV; lra); lra).
      assert ((41 * w * (101 / 100) + 101 / 100) * (u * M) <= 2 / 100 * M) by (rewrite <- Rmult_assoc; apply Rmult_le_compat_r; lra). lra. }
    destruct (dmul_ok d (dscale n) Fd Fs) as [F V].
    { fold sc. apply (small_huge _ 861); [|lia]. eapply Rle_trans; [exact B|]. change (bpow radix2 861) with (bpow radix2 (1 + 860)). rewrite bpow_plus. change (bpow radix2 1) with 2. lra. }
    split; [exact F|]. fold sc in V. pose proof (rnd_unit _ _ M (proj1 HM) B) as R. rewrite <- V in R.
    replace (dval (dmul d (dscale n)) - e / IZR n) with ((dval (dmul d (dscale n)) - dval d * sc) + (dval d * sc - e / IZR n)) by ring.
    eapply Rle_trans; [apply Rabs_triang|].
    replace (u * (103 / 100 + / 1000) * M) with ((103 / 100 + / 1000) * (u * M)) in R by ring.
    replace (44 * u * w * M) with (44 * w * (u * M)) by ring.
    assert (0 <= w * (u * M)) by (apply Rmult_le_pos; lra).
    assert ((103 / 100 + / 1000) * (u * M) + 101 / 100 * (u * M) <= 2041 / 1000 * (w * (u * M))).
    { assert (u * M <= w * (u * M)) by (replace (u * M) with (1 * (u * M)) at 1 by ring; apply Rmult_le_compat_r; lra). lra. }
    lra.
  Qed.

  Lemma within_tab e exact old g : (n <= zlen old)%Z -> (forall k, (0 <= k < n)%Z -> finite (g k) /\ Rabs (dval (g k) - exact k) <= e) ->
    within n e exact old (ztab n g ++ skipn (Z.to_nat n) old).
  Proof.
    intros L H. unfold within. splits.
    - zl; lia.
    - intros k Hk. rewrite zn_app. zl. rewrite Z.max_r by lia. destruct (Z.ltb_spec k n); [|lia]. rewrite zn_ztab by lia. auto.
    - intros k Hk. rewrite zn_app. zl. rewrite Z.max_r by lia. destruct (Z.ltb_spec k n); [lia|]. rewrite zn_skipn by lia. f_equal. lia.
  Qed.

  Theorem forward_doubles o ri ii ro io : in_use dcos dsin n o -> bounded n M ri ii -> (n <= zlen ro)%Z -> (n <= zlen io)%Z ->
    exists o' ro' io', dfft_process o false ri ii ro io = OK (o', ro', io') /\
      within n (44 * u * W * IZR n * M) (dft_re n (fun j => dval (re_in ri j)) (fun j => dval (im_in ii j))) ro ro' /\
      within n (44 * u * W * IZR n * M) (dft_im n (fun j => dval (re_in ri j)) (fun j => dval (im_in ii j))) io io'.
  Proof.
    intros Hu Hb L1 L2. apply in_use_ready in Hu. pose proof Hb as (B1 & B2 & _).
    destruct (g_process_runs d0 dhalf dadd dsub dmul dopp (dtwiddle dcos dsin) dscale n o false ri ii ro io) as (o' & facs & kout & Ef & Ch & Ew & Lk & E & R); auto.
    pose proof Hu as (_ & _ & _ & _ & Lo). pose proof (kiss_doubles false ri ii facs (g_kout o) kout Hb Ef Ch Lo Ew) as K.
    pose proof n_bounds as NB. pose proof uro_pos as UP. pose proof (M_pos M HM) as MP. destruct (prime_weight n ps facs ltac:(lia) Hps Ef Ch) as [_ W2].
    assert (C : 41 * u * IZR n * W * M <= 44 * u * W * IZR n * M).
    { replace (41 * u * IZR n * W * M) with (41 * (u * IZR n * W * M)) by ring. replace (44 * u * W * IZR n * M) with (44 * (u * IZR n * W * M)) by ring.
      assert (0 <= u * IZR n * W * M) by (repeat apply Rmult_le_pos; lra). lra. }
    exists o'. eexists _, _. split; [exact E|]. split; apply within_tab; auto; intros k Hk; cbn [gscaled];
      destruct (K k Hk) as [[F1 F2] V]; rewrite cdft_forward in V by lia; (split; [assumption|]); (eapply Rle_trans; [|exact C]).
    - exact (Rle_trans _ _ _ (cmod_fst _) V).
    - exact (Rle_trans _ _ _ (cmod_snd _) V).
  Qed.

  Theorem inverse_doubles o ri ii ro io : in_use dcos dsin n o -> bounded n M ri ii -> (n <= zlen ro)%Z -> (n <= zlen io)%Z ->
    exists o' ro' io', dfft_process o true ri ii ro io = OK (o', ro', io') /\
      within n (44 * u * W * M) (idft_re n (fun j => dval (re_in ri j)) (fun j => dval (im_in ii j))) ro ro' /\
      within n (44 * u * W * M) (idft_im n (fun j => dval (re_in ri j)) (fun j => dval (im_in ii j))) io io'.
  Proof.
    intros Hu Hb L1 L2. apply in_use_ready in Hu. pose proof Hb as (B1 & B2 & _).
    destruct (g_process_runs d0 dhalf dadd dsub dmul dopp (dtwiddle dcos dsin) dscale n o true ri ii ro io) as (o' & facs & kout & Ef & Ch & Ew & Lk & E & R); auto.
    pose proof Hu as (_ & _ & _ & _ & Lo). pose proof (kiss_doubles true ri ii facs (g_kout o) kout Hb Ef Ch Lo Ew) as K.
    pose proof n_bounds as NB. pose proof uro_pos as UP. pose proof (M_pos M HM) as MP. destruct (prime_weight n ps facs ltac:(lia) Hps Ef Ch) as [_ W2].
    assert (SW : 41 * u * W <= 1 / 100) by (pose proof small_weight; assert (41 * u * W <= 41 * u * (1 + IZR n)) by (apply Rmult_le_compat_l; lra); lra).
    exists o'. eexists _, _. split; [exact E|]. split; apply within_tab; auto; intros k Hk; cbn [gscaled];
      destruct (K k Hk) as [[F1 F2] V]; destruct (cdft_inverse n (cin ri ii) k) as [I1 I2]; try lia;
      pose proof (cdft_cmod true (cin ri ii) k M ltac:(intros; apply bounded_cmod; auto)) as CB.
    - replace (idft_re n (fun j => dval (re_in ri j)) (fun j => dval (im_in ii j)) k) with (fst (cdft true n (cin ri ii) k) / IZR n) by (rewrite I1; cbn [cin fst snd]; field; lra).
      apply scaled_ok; auto; [lra| |].
      + exact (Rle_trans _ _ _ (cmod_fst _) V).
      + eapply Rle_trans; [apply cmod_fst|exact CB].
    - replace (idft_im n (fun j => dval (re_in ri j)) (fun j => dval (im_in ii j)) k) with (snd (cdft true n (cin ri ii) k) / IZR n) by (rewrite I2; cbn [cin fst snd]; field; lra).
      apply scaled_ok; auto; [lra| |].
      + exact (Rle_trans _ _ _ (cmod_snd _) V).
      + eapply Rle_trans; [apply cmod_snd|exact CB].
  Qed.
End Fft.

Section Roundtrip.
  Context (dcos dsin : double -> double) (Hcos : accurate dcos cos) (Hsin : accurate dsin sin).
  Context (n : Z) (ps : list Z) (Hn : (1 <= n <= 2 ^ 30)%Z) (Hps : prime_factors n ps).
  Notation W := (weight ps).
  Context (M : R) (HM : bpow radix2 (-900) <= M <= bpow radix2 820).

  Lemma HM' : bpow radix2 (-900) <= M <= bpow radix2 860.
  Proof. destruct HM. split; auto. eapply Rle_trans; [eauto|]. apply bpow_le. lia. Qed.

  Lemma W_bounds : 1 <= W /\ 41 * u * W <= 1 / 100.
  Proof.
    destruct (kf_factor_ok n) as (facs & E & C & _); [lia|]. destruct (prime_weight n ps facs ltac:(lia) Hps E C) as [_ [W1 W2]].
    split; auto. pose proof (small_weight n Hn). pose proof uro_pos.
    assert (41 * u * W <= 41 * u * (1 + IZR n)) by (apply Rmult_le_compat_l; lra). lra.
  Qed.

  Theorem roundtrip_doubles o ri ii ro io : in_use dcos dsin n o -> bounded n M ri ii -> (n <= zlen ro)%Z -> (n <= zlen io)%Z ->
    exists o1 fr fi, dfft_process o false ri ii ro io = OK (o1, fr, fi) /\
      forall ro2 io2, (n <= zlen ro2)%Z -> (n <= zlen io2)%Z ->
      exists o2 xr xi, dfft_process o1 true fr (Some fi) ro2 io2 = OK (o2, xr, xi) /\
        within n (108 * u * W * IZR n * M) (fun j => dval (re_in ri j)) ro2 xr /\
        within n (108 * u * W * IZR n * M) (fun j => dval (im_in ii j)) io2 xi.
  Proof.
    intros Hu Hb L1 L2. pose proof (n_bounds n Hn) as NB. pose proof uro_pos as UP. pose proof (M_pos M HM') as MP.
    destruct W_bounds as [W1 W2].
    destruct (forward_doubles dcos dsin Hcos Hsin n ps Hn Hps M HM' o ri ii ro io Hu Hb L1 L2) as (o1 & fr & fi & E1 & (A1 & A2 & A3) & (B1 & B2 & B3)).
    exists o1, fr, fi. split; [exact E1|]. intros ro2 io2 L3 L4.
    set (xs := cin ri ii). set (ys := cin fr (Some fi)).
    assert (EB : forall k, (0 <= k < n)%Z -> Cmod (csub (ys k) (cdft false n xs k)) <= 623 / 10 * (u * W * IZR n * M)).
    { intros k Hk. rewrite cdft_forward by lia. destruct (A2 k Hk) as [_ A]. destruct (B2 k Hk) as [_ B].
      assert (0 <= u * W * IZR n * M) by (repeat apply Rmult_le_pos; lra).
      eapply Rle_trans; [apply (cmod_bound _ (44 * u * W * IZR n * M)); [exact A|exact B]|]. lra. }
    set (M2 := 102 / 100 * (IZR n * M)).
    assert (NM : 0 < IZR n * M) by (apply Rmult_lt_0_compat; lra).
    assert (CB : forall k, (0 <= k < n)%Z -> Cmod (ys k) <= M2).
    { intros k Hk. replace (ys k) with (cadd (csub (ys k) (cdft false n xs k)) (cdft false n xs k)) by ring.
      eapply Rle_trans; [apply cmod_add|].
      pose proof (cdft_cmod n Hn false xs k M ltac:(intros; apply (bounded_cmod n M HM' ri ii Hb); auto)) as C. specialize (EB k Hk).
      unfold M2. replace (u * W * IZR n * M) with (u * W * (IZR n * M)) in EB by ring.
      assert (u * W * (IZR n * M) <= 1 / 4100 * (IZR n * M)) by (apply Rmult_le_compat_r; lra). lra. }
    assert (HM2 : bpow radix2 (-900) <= M2 <= bpow radix2 860).
    { unfold M2. destruct HM as [H1 H2]. split; [nra|].
      change (bpow radix2 860) with (bpow radix2 (40 + 820)). rewrite bpow_plus. change (bpow radix2 40) with 1099511627776.
      assert (IZR n * M <= 1073741824 * bpow radix2 820) by (apply Rmult_le_compat; lra). lra. }
    assert (Hb2 : bounded n M2 fr (Some fi)).
    { unfold bounded. splits; [lia|intros l [= <-]; lia|]. intros j Hj. destruct (A2 j Hj) as [F1 _]. destruct (B2 j Hj) as [F2 _].
      splits; auto. specialize (CB j Hj). unfold Cmod in CB. cbn [ys cin fst snd] in CB.
      replace (dval (re_in fr j) ^ 2 + dval (im_in (Some fi) j) ^ 2) with (dval (re_in fr j) * dval (re_in fr j) + dval (im_in (Some fi) j) * dval (im_in (Some fi) j)) in CB by ring.
      set (q := dval (re_in fr j) * dval (re_in fr j) + dval (im_in (Some fi) j) * dval (im_in (Some fi) j)) in *.
      assert (Q0 : 0 <= q) by (unfold q; nra). rewrite <- (sqrt_sqrt q Q0). pose proof (sqrt_pos q). apply Rmult_le_compat; auto. }
    assert (Hu1 : in_use dcos dsin n o1).
    { destruct Hb as (b1 & b2 & _). eapply in_use_call; [exact Hu|exact b1|exact b2|exact L1|exact L2|exact E1]. }
    destruct (inverse_doubles dcos dsin Hcos Hsin n ps Hn Hps M2 HM2 o1 fr (Some fi) ro2 io2 Hu1 Hb2 L3 L4) as (o2 & xr & xi & E2 & (C1 & C2 & C3) & (D1 & D2 & D3)).
    exists o2, xr, xi. split; [exact E2|].
    assert (RT : forall t, (0 <= t < n)%Z -> Cmod (csub (cdft true n ys t) (cmul (cre (IZR n)) (xs t))) <= IZR n * (623 / 10 * (u * W * IZR n * M))).
    { intros t Ht. rewrite <- (cdft_roundtrip false n xs t) by lia. cbn [negb]. unfold cdft at 1 2. rewrite <- csum_minus.
      apply csum_cmod; [lia|]. intros k Hk.
      match goal with |- Cmod (csub (cmul ?A ?C) (cmul ?B ?C)) <= _ => replace (csub (cmul A C) (cmul B C)) with (cmul (csub A B) C) by ring end.
      rewrite cmod_mul, cmod_root, Rmult_1_r. auto. }
    assert (IP : 0 < / IZR n) by (apply Rinv_0_lt_compat; lra).
    assert (DIV : forall v r, Rabs (v * IZR n - IZR n * r) <= IZR n * (623 / 10 * (u * W * IZR n * M)) -> Rabs (v - r) <= 623 / 10 * (u * W * IZR n * M)).
    { intros v r H. replace (v * IZR n - IZR n * r) with (IZR n * (v - r)) in H by ring. rewrite Rabs_mult, (Rabs_pos_eq (IZR n)) in H by lra.
      apply Rmult_le_reg_l in H; auto; lra. }
    assert (SUM : forall a b c, Rabs (a - b) <= 44 * u * W * M2 -> Rabs (b - c) <= 623 / 10 * (u * W * IZR n * M) -> Rabs (a - c) <= 108 * u * W * IZR n * M).
    { intros a b c H1 H2. replace (a - c) with ((a - b) + (b - c)) by ring. eapply Rle_trans; [apply Rabs_triang|]. unfold M2 in H1.
      replace (44 * u * W * (102 / 100 * (IZR n * M))) with (4488 / 100 * (u * W * IZR n * M)) in H1 by field.
      replace (108 * u * W * IZR n * M) with (108 * (u * W * IZR n * M)) by ring.
      assert (0 <= u * W * IZR n * M) by (repeat apply Rmult_le_pos; lra). lra. }
    split; (split; [assumption|split; [|assumption]]); intros t Ht; destruct (cdft_inverse n ys t ltac:(lia)) as [I1 I2]; specialize (RT t Ht).
    - destruct (C2 t Ht) as [F V]. split; [exact F|]. eapply SUM; [exact V|]. apply DIV.
      pose proof (Rle_trans _ _ _ (cmod_fst _) RT) as RT'. cbn [csub cmul cre fst snd] in RT'. rewrite I1, Rmult_0_l, Rminus_0_r in RT'. exact RT'.
    - destruct (D2 t Ht) as [F V]. split; [exact F|]. eapply SUM; [exact V|]. apply DIV.
      pose proof (Rle_trans _ _ _ (cmod_snd _) RT) as RT'. cbn [csub cmul cre fst snd] in RT'. rewrite I2, Rmult_0_l, Rplus_0_r in RT'. exact RT'.
  Qed.
End Roundtrip.
