(** Class FFTReal in IEEE doubles: the theorems. *)
From Coq Require Import ZArith Reals Lia Lra Psatz List Bool Znumtheory.
From Flocq Require Import Core.
From Flocq.IEEE754 Require Import BinarySingleNaN.
From Coquelicot Require Import Complex.
From Verif.Base Require Import Imp Sums RealOps Dbl Double Loops.
From Verif.Maths Require Import DoubleModel DoubleProofs.
From Verif.Fft Require Import Cplx FftModel FftSpec FftBfly FftWork FftProofs FftrModel FftrProofs FftReal FftResults FftGen FftGenProofs FftGenRuns FftDouble FftDoubleSpec
  FftRadix FftRound FftDoubleWork FftTwiddle FftDoubleProofs FftrDouble FftrDoubleSpec FftrTwiddle FftrDoubleRuns FftrDoubleProofs FftrDoubleInverse FftrDoubleResults.
Import ListNotations.
Open Scope R_scope.

Lemma cmod_dft n x k : (1 <= n)%Z -> Cmod (cdft false n (fun j => cre (x j)) k) = dft_mod n x k.
Proof. intros Hn. rewrite cdft_forward by exact Hn. unfold Cmod, dft_mod. cbn [fst snd cre]. change (fun j : Z => x j) with x. f_equal. ring. Qed.

Section Theorems.
  Context (dcos dsin : double -> double) (Hcos : accurate dcos cos) (Hsin : accurate dsin sin).
  Context (n : Z) (ps : list Z) (Hn : (2 <= n <= 2 ^ 30)%Z) (H2 : (n mod 2 = 0)%Z) (Hps : prime_factors n ps).
  Notation W := (weight ps).
  Notation xs x := (fun j => dval (zn d0 x j)).
  Notation X x := (cdft false n (fun j => cre (dval (zn d0 x j)))).

  Lemma halve : exists m, n = (2 * m)%Z /\ (1 <= m)%Z /\ (2 * m <= 2 ^ 30)%Z /\ prime_factors (2 * m) ps.
  Proof. pose proof (even_half n H2) as E. exists (n / 2)%Z. split; [exact E|]. split; [lia|]. split; [lia|]. rewrite <- E. exact Hps. Qed.
  Lemma nW : 1 <= W /\ W * u <= 1 / 1000000 /\ 2 <= IZR n <= 1073741824.
  Proof.
    destruct halve as (m & E & M1 & M2 & P). destruct (W_small m ps M1 M2 P). split; [assumption|]. split; [assumption|].
    change (2 ^ 30)%Z with 1073741824%Z in Hn. split; apply IZR_le; lia.
  Qed.

  (** Both parts of every bin. *)
  Lemma forward_bins B o x ro io : bpow radix2 (-900) <= B <= bpow radix2 820 -> real_in_use dcos dsin n o -> real_bounded n B x ->
    (n <= zlen ro)%Z -> (n <= zlen io)%Z ->
    exists o' ro' io', dfftreal_forward o x ro io = OK (o', ro', io') /\ zlen ro' = zlen ro /\ zlen io' = zlen io /\
      (forall k, (n <= k)%Z -> zn d0 ro' k = zn d0 ro k /\ zn d0 io' k = zn d0 io k) /\
      (forall k, (0 <= k < n)%Z -> cwithin (124 * u * W * IZR n * B) (zn d0 ro' k, zn d0 io' k) (X x k)).
  Proof.
    intros HB U Hx L1 L2. destruct halve as (m & E & M1 & M2 & P). clear Hps H2. subst n.
    pose proof (real_in_use_ready dcos dsin m (Hm30 m M1 M2) o U) as R. pose proof Hx as [Lx _].
    destruct (dforward_runs dcos dsin m (Hm30 m M1 M2) o x ro io R Lx L1 L2) as (tmp & o' & ro' & io' & K & _ & E & _ & Lr & Li & Hi & Ho).
    exists o', ro', io'. splits; auto. intros k Hk. apply (obin_near dcos dsin Hcos Hsin m ps M1 M2 P B HB x Hx (dr_planf o) (proj1 (proj2 R)) tmp K); auto.
  Qed.

  Theorem real_forward_doubles B o ri ro io : bpow radix2 (-900) <= B <= bpow radix2 820 -> real_in_use dcos dsin n o -> real_bounded n B ri ->
    (n <= zlen ro)%Z -> (n <= zlen io)%Z ->
    exists o' ro' io', dfftreal_forward o ri ro io = OK (o', ro', io') /\
      within n (124 * u * W * IZR n * B) (dft_re n (xs ri) (fun _ => 0)) ro ro' /\
      within n (124 * u * W * IZR n * B) (dft_im n (xs ri) (fun _ => 0)) io io'.
  Proof.
    intros HB U Hx L1 L2. destruct (forward_bins B o ri ro io HB U Hx L1 L2) as (o' & ro' & io' & E & Lr & Li & Hi & Ho).
    exists o', ro', io'. split; [exact E|]. split; (split; [assumption|]); (split; [|intros k Hk; apply Hi; lia]); intros k Hk;
      destruct (Ho k Hk) as ([F1 F2] & E1 & E2); rewrite cdft_forward in E1, E2 by lia; split; auto.
  Qed.

  Lemma X_cmod B x k : real_bounded n B x -> Cmod (X x k) <= IZR n * B.
  Proof.
    intros [_ H]. apply cdft_cmod; [lia|]. intros j Hj. destruct (H j Hj) as [_ Hb]. eapply Rle_trans; [|exact Hb]. right.
    unfold Cmod, cre. cbn [fst snd]. replace (dval (zn d0 x j) ^ 2 + 0 ^ 2) with (Rsqr (dval (zn d0 x j))) by (unfold Rsqr; ring). apply sqrt_Rsqr_abs.
  Qed.

  Theorem real_magnitude_doubles B o ri mo jio : bpow radix2 (-400) <= B <= bpow radix2 450 -> real_in_use dcos dsin n o -> real_bounded n B ri ->
    (n <= zlen mo)%Z -> zlen jio = n ->
    exists o' mo', dfftreal_magnitude o ri mo jio = OK (o', mo') /\ within n (181 * u * W * IZR n * B) (dft_mod n (xs ri)) mo mo'.
  Proof.
    intros HB U Hx L1 L2. destruct nW as (W1 & W2 & NB). pose proof uro_pos as UP. pose proof uro_val as UV.
    assert (HB' : bpow radix2 (-900) <= B <= bpow radix2 820) by (destruct HB; split; eapply Rle_trans; [|eassumption|eassumption|]; apply bpow_le; lia).
    assert (BP : 0 < B) by (destruct HB; eapply Rlt_le_trans; [apply bpow_gt_0|eassumption]).
    destruct (forward_bins B o ri mo jio HB' U Hx L1 ltac:(lia)) as (o' & ro & io & E & Lr & Li & Hi & Ho).
    destruct halve as (m & Em & M1 & M2 & P).
    assert (U' : real_in_use dcos dsin (2 * m) o) by (rewrite <- Em; exact U). pose proof (real_in_use_ready dcos dsin m (Hm30 m M1 M2) o U') as R.
    destruct Hx as [Lx Hx'].
    destruct (dmagnitude_runs dcos dsin m (Hm30 m M1 M2) o ri mo jio R) as (o2 & r2 & i2 & E2 & _ & _ & E3); try lia.
    rewrite E in E2. injection E2 as <- <- <-. exists o'. eexists. split; [exact E3|]. rewrite <- Em.
    set (S := IZR n * B). assert (SP : 0 < S) by (apply Rmult_lt_0_compat; lra).
    assert (HS : bpow radix2 (-400) <= S <= bpow radix2 490).
    { unfold S. destruct HB as [B1 B2]. assert (2 * B <= IZR n * B) by (apply Rmult_le_compat_r; lra). split; [lra|].
      assert (IZR n * B <= 1073741824 * B) by (apply Rmult_le_compat_r; lra).
      change (bpow radix2 490) with (bpow radix2 (40 + 450)). rewrite bpow_plus. change (bpow radix2 40) with 1099511627776. lra. }
    assert (WS : u * W * S <= 1 / 1000000 * S) by (apply Rmult_le_compat_r; lra).
    assert (W0 : 0 <= u * W * S) by (repeat apply Rmult_le_pos; lra).
    unfold within. split; [rewrite zlen_app, zlen_ztab, zlen_skipn; lia|]. split; intros k Hk; rewrite zn_app, zlen_ztab, Z.max_r by lia.
    - destruct (Z.ltb_spec k n); [|lia]. rewrite zn_ztab by lia. destruct (Ho k Hk) as ([F1 F2] & A1 & A2). cbn [fst snd] in F1, F2, A1, A2.
      replace (124 * u * W * IZR n * B) with (124 * (u * W * S)) in A1, A2 by (unfold S; ring).
      pose proof (X_cmod B ri k (conj Lx Hx')) as XC. fold S in XC.
      pose proof (Rle_trans _ _ _ (cmod_fst _) XC) as X1. pose proof (Rle_trans _ _ _ (cmod_snd _) XC) as X2.
      destruct (hypot_ok (zn d0 ro k) (zn d0 io k) S F1 F2 HS) as [F V].
      + eapply Rle_trans; [eapply near'; [exact A1|exact X1]|]. lra.
      + eapply Rle_trans; [eapply near'; [exact A2|exact X2]|]. lra.
      + split; [exact F|]. rewrite <- cmod_dft by lia.
        assert (D : Rabs (sqrt (dval (zn d0 ro k) * dval (zn d0 ro k) + dval (zn d0 io k) * dval (zn d0 io k)) - Cmod (X ri k)) <= 1755 / 10 * (u * W * S)).
        { set (z := (dval (zn d0 ro k), dval (zn d0 io k)) : cplx).
          replace (sqrt _) with (Cmod z) by (unfold Cmod, z; cbn [fst snd]; f_equal; ring).
          assert (G : Cmod (csub z (X ri k)) <= 1755 / 10 * (u * W * S)).
          { eapply Rle_trans; [apply (cmod_bound _ (124 * (u * W * S))); [exact A1|exact A2]|]. lra. }
          apply Rabs_le. split.
          - assert (T : Cmod (X ri k) <= Cmod (csub z (X ri k)) + Cmod z).
            { replace (X ri k) with (csub z (csub z (X ri k))) at 1 by (apply cplx_eq; cbn; ring). eapply Rle_trans; [apply cmod_sub|]. lra. }
            lra.
          - assert (T : Cmod z <= Cmod (csub z (X ri k)) + Cmod (X ri k)).
            { replace z with (cadd (csub z (X ri k)) (X ri k)) at 1 by (apply cplx_eq; cbn; ring). apply cmod_add. }
            lra. }
        match goal with |- Rabs (?a - ?c) <= _ => replace (a - c) with ((a - sqrt (dval (zn d0 ro k) * dval (zn d0 ro k) + dval (zn d0 io k) * dval (zn d0 io k))) + (sqrt (dval (zn d0 ro k) * dval (zn d0 ro k) + dval (zn d0 io k) * dval (zn d0 io k)) - c)) by ring end.
        eapply Rle_trans; [apply Rabs_triang|]. eapply Rle_trans; [apply Rplus_le_compat; [exact V|exact D]|].
        replace (181 * u * W * IZR n * B) with (181 * (u * W * S)) by (unfold S; ring).
        assert (1 * (u * S) <= W * (u * S)) by (apply Rmult_le_compat_r; [apply Rmult_le_pos; lra|lra]).
        replace (W * (u * S)) with (u * W * S) in H0 by ring. lra.
    - destruct (Z.ltb_spec k n); [lia|]. rewrite zn_skipn by lia. replace (k - n + Z.of_nat (Z.to_nat n))%Z with k by lia. apply Hi. lia.
  Qed.

  Lemma herm_spec m ri ii k : n = (2 * m)%Z -> (0 <= k < n)%Z ->
    herm m (fun k => (dval (zn d0 ri k), dval (zn d0 ii k))) k = (herm_re n (xs ri) k, herm_im n (xs ii) k).
  Proof.
    intros Hm Hk. assert (Em : (n / 2)%Z = m) by (rewrite Hm; apply half2). unfold herm, herm_re, herm_im. rewrite Em.
    destruct (Z.eqb_spec k 0) as [->|]; cbn [orb].
    - destruct (Z.leb_spec 0 m); [reflexivity|lia].
    - destruct (Z.eqb_spec k m) as [->|].
      + destruct (Z.leb_spec m m); [reflexivity|lia].
      + destruct (Z.ltb_spec k m), (Z.leb_spec k m); try lia; auto. rewrite <- Hm. reflexivity.
  Qed.

  Lemma inverse_bins M o ri ii ro : bpow radix2 (-900) <= M <= bpow radix2 850 -> real_in_use dcos dsin n o -> half_bounded n M ri ii -> (n <= zlen ro)%Z ->
    exists o' ro', dfftreal_inverse o ri ii ro = OK (o', ro') /\
      within n (176 * u * W * M) (fun t => fst (cdft true n (herm (n / 2) (fun k => (dval (zn d0 ri k), dval (zn d0 ii k)))) t) / IZR n) ro ro'.
  Proof.
    intros HM U (L1 & L2 & Hb) L3. destruct halve as (m & E & M1 & M2 & P). clear Hps H2.
    assert (Em : (n / 2)%Z = m) by (rewrite E; apply half2). rewrite Em in *.
    assert (U' : real_in_use dcos dsin (2 * m) o) by (rewrite <- E; exact U). pose proof (real_in_use_ready dcos dsin m (Hm30 m M1 M2) o U') as R.
    destruct (dinverse_runs dcos dsin m (Hm30 m M1 M2) o ri ii ro R L1 L2 ltac:(lia)) as (c & tmp & z & o' & Vc & Lt & Pk & K & Lz & Ei & _).
    assert (MP : 0 < M) by (destruct HM; eapply Rlt_le_trans; [apply bpow_gt_0|eassumption]).
    assert (Hc : forall k, (0 <= k <= m)%Z -> fin2 (zn dz c k) /\ Cmod (dcv (zn dz c k)) <= M).
    { intros k Hk. rewrite Vc by exact Hk. destruct (Hb k Hk) as (F1 & F2 & Q). split; [split; assumption|].
      unfold Cmod, dcv. cbn [fst snd]. rewrite <- (sqrt_Rsqr M) by lra. apply sqrt_le_1_alt. unfold Rsqr.
      eapply Rle_trans; [|exact Q]. right. ring. }
    exists o'. eexists. split; [exact Ei|]. rewrite <- E. apply within_tab; [lia|exact L3|]. intros t Ht.
    pose proof (out_near dcos dsin Hcos Hsin m ps M1 M2 P M HM c Hc (dr_plani o) (proj1 (proj2 (proj2 R))) tmp z
      (ztab m (fun j => (zn d0 ro (2 * j), zn d0 ro (2 * j + 1)))) Lt ltac:(rewrite zlen_ztab; lia) Pk K Lz t ltac:(lia)) as G.
    rewrite <- E in G.
    replace (cdft true n (herm m (fun k => (dval (zn d0 ri k), dval (zn d0 ii k)))) t) with (cdft true n (herm m (fun k => dcv (zn dz c k))) t); [exact G|].
    apply cdft_ext. intros k Hk. unfold herm. rewrite !Vc by lia.
    destruct (Z.eqb_spec k 0); [reflexivity|]. destruct (Z.eqb_spec k m); [reflexivity|]. destruct (Z.ltb_spec k m); rewrite Vc by lia; reflexivity.
  Qed.

  Theorem real_inverse_doubles M o ri ii ro : bpow radix2 (-900) <= M <= bpow radix2 850 -> real_in_use dcos dsin n o -> half_bounded n M ri ii -> (n <= zlen ro)%Z ->
    exists o' ro', dfftreal_inverse o ri ii ro = OK (o', ro') /\
      within n (176 * u * W * M) (idft_re n (herm_re n (xs ri)) (herm_im n (xs ii))) ro ro'.
  Proof.
    intros HM U Hb L. destruct (inverse_bins M o ri ii ro HM U Hb L) as (o' & ro' & E & A & B & C). exists o', ro'. split; [exact E|].
    split; [exact A|]. split; [|exact C]. intros t Ht. destruct (B t Ht) as [F V]. split; [exact F|].
    pose proof (even_half n H2) as En. destruct nW as (_ & _ & NB).
    rewrite (cdft_ext true n _ (fun k => (herm_re n (xs ri) k, herm_im n (xs ii) k))) in V by (intros k Hk; apply herm_spec; auto).
    destruct (cdft_inverse n (fun k => (herm_re n (xs ri) k, herm_im n (xs ii) k)) t) as (I1 & _); [lia|]. rewrite I1 in V. cbn [fst snd] in V.
    match type of V with Rabs (_ - ?e * ?d / ?d) <= _ => replace (e * d / d) with e in V by (field; lra) end. exact V.
  Qed.

  Theorem real_roundtrip_doubles B o ri ro io : bpow radix2 (-900) <= B <= bpow radix2 800 -> real_in_use dcos dsin n o -> real_bounded n B ri ->
    (n <= zlen ro)%Z -> (n <= zlen io)%Z ->
    exists o1 fr fi, dfftreal_forward o ri ro io = OK (o1, fr, fi) /\
      forall ro2, (n <= zlen ro2)%Z -> exists o2 xr, dfftreal_inverse o1 fr fi ro2 = OK (o2, xr) /\ within n (352 * u * W * IZR n * B) (xs ri) ro2 xr.
  Proof.
    intros HB U Hx L1 L2. destruct nW as (W1 & W2 & NB). pose proof uro_pos as UP. pose proof uro_val as UV.
    assert (HB' : bpow radix2 (-900) <= B <= bpow radix2 820) by (destruct HB; split; [assumption|eapply Rle_trans; [eassumption|apply bpow_le; lia]]).
    assert (BP : 0 < B) by (destruct HB; eapply Rlt_le_trans; [apply bpow_gt_0|eassumption]).
    destruct (forward_bins B o ri ro io HB' U Hx L1 L2) as (o1 & fr & fi & E1 & Lr & Li & _ & Ho).
    exists o1, fr, fi. split; [exact E1|]. intros ro2 L3. pose proof (even_half n H2) as En. set (m := (n / 2)%Z) in *.
    set (S := IZR n * B). assert (SP : 0 < S) by (apply Rmult_lt_0_compat; lra). set (w := u * W * S).
    assert (WS : w <= 1 / 1000000 * S) by (apply Rmult_le_compat_r; lra). assert (W0 : 0 <= w) by (repeat apply Rmult_le_pos; lra).
    set (F := fun k => (dval (zn d0 fr k), dval (zn d0 fi k)) : cplx).
    assert (D : forall k, (0 <= k < n)%Z -> Cmod (csub (F k) (X ri k)) <= 1755 / 10 * w).
    { intros k Hk. destruct (Ho k Hk) as (_ & A1 & A2). replace (124 * u * W * IZR n * B) with (124 * w) in A1, A2 by (unfold w, S; ring).
      eapply Rle_trans; [apply (cmod_bound _ (124 * w)); [exact A1|exact A2]|]. lra. }
    assert (U1 : real_in_use dcos dsin n o1) by (eapply real_forward; [exact U|apply Hx|exact L1|exact L2|exact E1]).
    set (M := 1001 / 1000 * S).
    assert (HM : bpow radix2 (-900) <= M <= bpow radix2 850).
    { unfold M, S. destruct HB as [B1 B2]. assert (2 * B <= IZR n * B) by (apply Rmult_le_compat_r; lra). split; [lra|].
      assert (IZR n * B <= 1073741824 * B) by (apply Rmult_le_compat_r; lra).
      change (bpow radix2 850) with (bpow radix2 (50 + 800)). rewrite bpow_plus. change (bpow radix2 50) with 1125899906842624. lra. }
    assert (HH : half_bounded n M fr fi).
    { unfold half_bounded. fold m. split; [lia|]. split; [lia|]. intros k Hk. destruct (Ho k ltac:(lia)) as ([F1 F2] & _). split; [exact F1|]. split; [exact F2|].
      assert (C : Cmod (F k) <= M).
      { replace (F k) with (cadd (csub (F k) (X ri k)) (X ri k)) by (apply cplx_eq; cbn; ring). eapply Rle_trans; [apply cmod_add|].
        pose proof (D k ltac:(lia)). pose proof (X_cmod B ri k Hx) as XC. fold S in XC. unfold M. lra. }
      assert (Q : Rsqr (Cmod (F k)) <= Rsqr M) by (apply Rsqr_incr_1; [exact C|apply Cmod_ge_0|unfold M; lra]).
      unfold Cmod in Q. rewrite Rsqr_sqrt in Q by (apply Rplus_le_le_0_compat; apply pow2_ge_0). cbn [F fst snd] in Q. unfold Rsqr in Q. eapply Rle_trans; [|exact Q]. right. cbn. ring. }
    destruct (inverse_bins M o1 fr fi ro2 HM U1 HH L3) as (o2 & xr & E2 & A & C & G). exists o2, xr. split; [exact E2|].
    split; [exact A|]. split; [|exact G]. intros t Ht. destruct (C t Ht) as [Fx V]. split; [exact Fx|]. fold m F in V. clear C G.
    assert (RT : Cmod (csub (cdft true n (herm m F) t) (cmul (cre (IZR n)) (cre (dval (zn d0 ri t))))) <= IZR n * (1755 / 10 * w)).
    { rewrite <- (cdft_roundtrip false n (fun j => cre (dval (zn d0 ri j))) t) by lia. cbn [negb].
      rewrite (cdft_ext true n (X ri) (herm m (X ri))).
      2:{ intros k Hk. pose proof (herm_of_real m (fun j => dval (zn d0 ri j)) (X ri) k ltac:(lia) ltac:(lia)) as Q. rewrite <- En in Q. symmetry. apply Q. reflexivity. }
      unfold cdft at 1 2. rewrite <- csum_minus. apply csum_cmod; [lia|]. intros k Hk.
      match goal with |- Cmod (csub (cmul ?A ?C) (cmul ?B ?C)) <= _ => replace (csub (cmul A C) (cmul B C)) with (cmul (csub A B) C) by ring end.
      rewrite cmod_mul, cmod_root, Rmult_1_r.
      assert (CR : forall a b : cplx, csub (cre (fst a)) (cre (fst b)) = cre (fst (csub a b))) by (intros; apply cplx_eq; cbn; ring).
      assert (CC : forall a b : cplx, csub (cconj a) (cconj b) = cconj (csub a b)) by (intros; apply cplx_eq; cbn; ring).
      unfold herm. destruct (Z.eqb_spec k 0); [rewrite CR; eapply Rle_trans; [apply cmod_cre|apply D; lia]|].
      destruct (Z.eqb_spec k m); [rewrite CR; eapply Rle_trans; [apply cmod_cre|apply D; lia]|].
      destruct (Z.ltb_spec k m); [apply D; lia|]. rewrite CC, cmod_conj. apply D. lia. }
    pose proof (Rle_trans _ _ _ (cmod_fst _) RT) as RT'. cbn [csub cmul cre fst snd] in RT'. rewrite Rmult_0_l, Rminus_0_r in RT'.
    set (y := fst (cdft true n (herm m F) t)) in *. set (x := dval (zn d0 ri t)) in *.
    assert (D2 : Rabs (y / IZR n - x) <= 1755 / 10 * w).
    { replace (y - IZR n * x) with (IZR n * (y / IZR n - x)) in RT' by (field; lra). rewrite Rabs_mult, (Rabs_pos_eq (IZR n)) in RT' by lra.
      apply Rmult_le_reg_l in RT'; auto; lra. }
    replace (dval (zn d0 xr t) - x) with ((dval (zn d0 xr t) - y / IZR n) + (y / IZR n - x)) by ring.
    eapply Rle_trans; [apply Rabs_triang|]. eapply Rle_trans; [apply Rplus_le_compat; [exact V|exact D2]|].
    replace (176 * u * W * M) with (176 * 1001 / 1000 * w) by (unfold M, w; field). replace (352 * u * W * IZR n * B) with (352 * w) by (unfold w, S; ring). lra.
  Qed.
End Theorems.
