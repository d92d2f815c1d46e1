(** FFTReal: forward agrees with the complex transform, inverse with the inverse transform of
    the conjugate-symmetric extension. *)
From Coq Require Import Reals ZArith Lia Lra List Bool Ring.
From Verif.Base Require Import Imp Sums RealOps Loops.
From Verif.Fft Require Import Cplx FftModel FftSpec FftBfly FftWork FftProofs FftrModel.
Import ListNotations.
Open Scope Z_scope.

(** *** Views of a double array as complex *)
Lemma as_cplx_ok m x : 0 <= m -> 2 * m <= zlen x ->
  as_cplx m x = OK (ztab m (fun j => (zn 0%R x (2 * j), zn 0%R x (2 * j + 1)))).
Proof. intros Hm L. unfold as_cplx. destruct (Z.leb_spec (2 * m) (zlen x)); [reflexivity|lia]. Qed.

Lemma as_real_len z : zlen (as_real z) = 2 * zlen z.
Proof. unfold as_real. pose proof (zlen_nonneg z). zl. lia. Qed.
Lemma as_real_even z j : 0 <= j < zlen z -> zn 0%R (as_real z) (2 * j) = fst (zn c0 z j).
Proof.
  intros Hj. unfold as_real. rewrite zn_ztab by lia.
  rewrite Z.mul_comm, Z.mod_mul, Z.div_mul by lia. reflexivity.
Qed.
Lemma as_real_odd z j : 0 <= j < zlen z -> zn 0%R (as_real z) (2 * j + 1) = snd (zn c0 z j).
Proof.
  intros Hj. unfold as_real. rewrite zn_ztab by lia.
  replace (2 * j + 1) with (1 + j * 2) by lia. rewrite Z.mod_add, Z.div_add by lia. reflexivity.
Qed.

(** *** Splitting a transform of even size into the even and the odd samples *)
Lemma root_double m k : m <> 0 -> root (2 * m) (2 * k) = root m k.
Proof. intros. replace (2 * m) with (m * 2) by lia. replace (2 * k) with (k * 2) by lia. apply root_scale; lia. Qed.

Lemma csum_even_odd m f : 0 <= m -> csum (2 * m) f = cadd (csum m (fun j => f (2 * j))) (csum m (fun j => f (2 * j + 1))).
Proof.
  intros Hm. rewrite (csum_decim 2 m) by lia. rewrite csum_2.
  f_equal; apply csum_ext; intros; f_equal; lia.
Qed.

Lemma real_conj M (y : Z -> R) k : 1 <= M ->
  cconj (cdft false M (fun j => cre (y j)) (M - k)) = cdft false M (fun j => cre (y j)) k.
Proof.
  intros HM. unfold cdft. rewrite <- csum_conj. apply csum_ext. intros j Hj.
  rewrite cconj_mul. f_equal; [apply cplx_eq; cbn; ring|].
  rewrite <- root_opp. apply (root_cong M _ _ j); [lia|]. cbn [sg]. ring.
Qed.

Section Real.
  Variables (m : Z) (x : Z -> R).
  Hypothesis Hm : 1 <= m.
  Let n := 2 * m.
  Let X := cdft false n (fun j => cre (x j)).
  Let Ev := cdft false m (fun j => cre (x (2 * j))).
  Let Od := cdft false m (fun j => cre (x (2 * j + 1))).
  Let Zc := cdft false m (fun j => (x (2 * j), x (2 * j + 1))).

  Lemma X_split k : X k = cadd (Ev k) (cmul (root n (- k)) (Od k)).
  Proof.
    unfold X, cdft. unfold n at 1. rewrite csum_even_odd by lia. unfold Ev, Od, cdft.
    rewrite <- csum_scal. f_equal; apply csum_ext; intros j Hj.
    - f_equal. unfold n. rewrite <- (root_double m) by lia. f_equal. ring.
    - replace (sg false * (k * (2 * j + 1))) with (- k + 2 * (sg false * (k * j))) by (cbn [sg]; ring).
      rewrite root_add. unfold n. rewrite root_double by lia. ring.
  Qed.

  Lemma Z_split k : Zc k = cadd (Ev k) (cmul (0, 1)%R (Od k)).
  Proof.
    unfold Zc, Ev, Od, cdft. rewrite <- csum_scal, <- csum_plus. apply csum_ext. intros j Hj.
    apply cplx_eq; cbn; ring.
  Qed.

  Lemma Z_conj k : cconj (Zc (m - k)) = csub (Ev k) (cmul (0, 1)%R (Od k)).
  Proof.
    rewrite Z_split, cconj_add, cconj_mul. unfold Ev, Od. rewrite !real_conj by lia.
    apply cplx_eq; cbn; ring.
  Qed.

  Lemma X_low k w : w = cmul (root n (- k)) (0, -1)%R ->
    let f1 := cadd (Zc k) (cconj (Zc (m - k))) in
    let f2 := csub (Zc k) (cconj (Zc (m - k))) in
    let tw := cmul f2 w in
    X k = (half (fst f1 + fst tw), half (snd f1 + snd tw)) /\
    X (m - k) = (half (fst f1 - fst tw), half (snd tw - snd f1)).
  Proof.
    intros -> f1 f2 tw.
    assert (E1 : f1 = cmul (cre 2) (Ev k)).
    { unfold f1. rewrite Z_split, Z_conj. apply cplx_eq; cbn; ring. }
    assert (E2 : tw = cmul (cre 2) (cmul (root n (- k)) (Od k))).
    { unfold tw, f2. rewrite Z_split, Z_conj. apply cplx_eq; cbn; ring. }
    rewrite E1, E2. unfold half. split.
    - rewrite X_split. apply cplx_eq; cbn; lra.
    - rewrite X_split.
      assert (E3 : Ev (m - k) = cconj (Ev k)) by (unfold Ev; rewrite <- (real_conj m _ k) by lia; now rewrite cconj_invol).
      assert (E4 : Od (m - k) = cconj (Od k)) by (unfold Od; rewrite <- (real_conj m _ k) by lia; now rewrite cconj_invol).
      rewrite E3, E4. replace (- (m - k)) with (k + - m) by lia. rewrite root_add, (root_opp n m), (root_half n m) by (unfold n; lia).
      rewrite root_opp. apply cplx_eq; cbn; lra.
  Qed.

  Lemma X_0 : X 0 = (fst (Zc 0) + snd (Zc 0), 0)%R /\ X m = (fst (Zc 0) - snd (Zc 0), 0)%R.
  Proof.
    assert (P : forall (y : Z -> R) M, 1 <= M -> snd (cdft false M (fun j => cre (y j)) 0) = 0%R).
    { intros y M HM. unfold cdft. cbn [snd csum].
      rewrite (rsum_ext M _ (fun _ => 0%R)); [apply rsum_zero; auto|]. intros j Hj.
      replace (sg false * (0 * j)) with 0 by (cbn [sg]; lia). rewrite root_0. cbn. ring. }
    assert (PE : snd (Ev 0) = 0%R) by exact (P (fun j => x (2 * j)) m Hm).
    assert (PO : snd (Od 0) = 0%R) by exact (P (fun j => x (2 * j + 1)) m Hm).
    assert (Em : Ev m = Ev 0). { unfold Ev, cdft. apply csum_ext. intros j Hj. f_equal.
      apply (root_cong m _ _ (-j)); [lia|]. cbn [sg]. ring. }
    assert (Om : Od m = Od 0). { unfold Od, cdft. apply csum_ext. intros j Hj. f_equal.
      apply (root_cong m _ _ (-j)); [lia|]. cbn [sg]. ring. }
    rewrite (X_split 0), (X_split m), (Z_split 0), Em, Om. change (- 0) with 0. rewrite root_0, (root_opp n m), (root_half n m) by (unfold n; lia).
    revert PE PO. generalize (Ev 0) (Od 0). intros [a b] [c d]; cbn [fst snd]; intros -> ->.
    split; apply cplx_eq; cbn; ring.
  Qed.
End Real.

(** *** kiss_fftr *)
Definition rready (m : Z) (inv : bool) (st : rcfg) : Prop :=
  kiss_fft_alloc m inv = OK (substate st) /\ zlen (tmpbuf st) = m /\ zlen (super_twiddles st) = m / 2 /\
  (forall k, 1 <= k <= m / 2 -> zn c0 (super_twiddles st) (k - 1) = cmul (root (2 * m) (sg inv * k)) (0, IZR (sg inv))%R).

Lemma kiss_fftr_alloc_ok n m inv junk : n = 2 * m -> 1 <= m < 2 ^ 31 -> zlen junk = m ->
  exists st, kiss_fftr_alloc n inv junk = OK st /\ rready m inv st.
Proof.
  intros -> Hm L. unfold kiss_fftr_alloc. replace (2 * m / 2) with m by (rewrite Z.mul_comm, Z.div_mul; lia).
  destruct (kiss_fft_alloc_ok m inv Hm) as (sub & E & _). rewrite E. ret.
  eexists; split; [reflexivity|]. unfold rready; cbn [substate tmpbuf super_twiddles].
  assert (0 <= m / 2) by (apply Z.div_pos; lia). splits; auto.
  - zl; lia.
  - intros k Hk. rewrite zn_ztab by lia. replace (k - 1 + 1) with k by lia. cbv zeta.
    assert (P : (if inv then - PI * (IZR k / IZR m + 0.5) * -1 else - PI * (IZR k / IZR m + 0.5))%R
      = (2 * PI * IZR (sg inv * k) / IZR (2 * m) + IZR (sg inv) * (PI / 2))%R).
    { rewrite !mult_IZR. assert (IZR m <> 0)%R by (apply not_0_IZR; lia). replace 0.5%R with (/ 2)%R by lra. destruct inv; cbn [sg]; field; auto. }
    rewrite P. change (cos ?t, sin ?t) with (cis t). rewrite cis_add. unfold root. f_equal.
    destruct inv; cbn [sg].
    + replace (1 * (PI / 2))%R with (PI / 2)%R by ring. unfold cis. now rewrite cos_PI2, sin_PI2.
    + replace (-1 * (PI / 2))%R with (- (PI / 2))%R by ring. rewrite cis_opp. unfold cis, cconj. cbn [fst snd]. rewrite cos_PI2, sin_PI2. f_equal.
Qed.

Lemma alloc_fields m inv st : 1 <= m < 2 ^ 31 -> kiss_fft_alloc m inv = OK st -> nfft st = m /\ inverse st = inv.
Proof.
  intros Hm E. destruct (kiss_fft_alloc_ok m inv Hm) as (st' & E' & H1 & H2 & _). rewrite E in E'. injection E' as ->. auto.
Qed.

Lemma kiss_fftr_ok m st x freq :
  1 <= m <= 2 ^ 30 -> rready m false st -> 2 * m <= zlen x -> m + 1 <= zlen freq ->
  exists st' freq', kiss_fftr st x freq = OK (st', freq') /\ rready m false st' /\ zlen freq' = zlen freq /\
    (forall k, 0 <= k <= m -> zn c0 freq' k = cdft false (2 * m) (fun j => cre (zn 0%R x j)) k).
Proof.
  intros Hm (A & Lt & Ls & Hs) Lx Lf. unfold kiss_fftr.
  destruct (alloc_fields m false _ ltac:(lia) A) as (F1 & F2). rewrite F1, F2.
  rewrite as_cplx_ok by lia. ret. rewrite (kiss_fft_ok m false); auto; try (zl; lia). ret.
  set (Zc := cdft false m (fun j => (zn 0%R x (2 * j), zn 0%R x (2 * j + 1)))).
  rewrite (ztab_ext m _ Zc).
  2:{ intros k Hk. apply cdft_ext. intros j Hj. now rewrite zn_ztab by lia. }
  set (X := cdft false (2 * m) (fun j => cre (zn 0%R x j))).
  assert (Hd : 0 <= m / 2) by (apply Z.div_pos; lia).
  assert (Hd' : 2 * (m / 2) <= m) by (apply Z.mul_div_le; lia).
  rewrite (aget_OK c0) by (zl; lia). ret. rewrite zn_ztab by lia.
  rewrite aset_OK by lia. ret. rewrite aset_OK by (zl; lia). ret.
  destruct (X_0 m (fun j => zn 0%R x j) ltac:(lia)) as (X0 & Xm). fold Zc X in X0, Xm.
  match goal with |- context [for_up 1 ?h ?B ?F] =>
    destruct (for_up_inv (fun k f => zlen f = zlen freq /\
      (forall i, 0 <= i <= m -> (i < k \/ m - k < i) -> zn c0 f i = X i)) 1 h B F) as (f & E & I1 & I2); [lia| | |] end.
  - zl. split; [lia|]. intros i Hi [Hi'|Hi'].
    + assert (i = 0) as -> by lia. rewrite !zn_upd by (zl; lia).
      destruct (Z.eqb_spec 0 m); [lia|]. rewrite Z.eqb_refl. now rewrite X0.
    + assert (i = m) as -> by lia. rewrite !zn_upd by (zl; lia). rewrite Z.eqb_refl. now rewrite Xm.
  - intros k f Hk (I1 & I2).
    assert (B1 : 0 <= k < zlen f) by (clear -Hk Hd' I1 Lf Hm; lia).
    assert (B2 : 0 <= m - k < zlen f) by (clear -Hk Hd' I1 Lf Hm; lia).
    rewrite !(aget_OK c0) by (zl; lia). ret. ret. ret. cbv zeta. rewrite !zn_ztab by lia. rewrite Hs by lia.
    change (fst (Zc (m - k)), Ropp (snd (Zc (m - k)))) with (cconj (Zc (m - k))).
    destruct (X_low m (fun j => zn 0%R x j) ltac:(lia) k (cmul (root (2 * m) (sg false * k)) (0, IZR (sg false))%R)) as (XL & XH).
    { cbn [sg]. do 2 f_equal. }
    fold Zc X in XL, XH. cbv zeta in XL, XH.
    rewrite <- XL, <- XH.
    rewrite aset_OK by exact B1. ret. rewrite aset_OK by (rewrite zlen_upd; exact B2).
    eexists; split; [reflexivity|]. rewrite !zlen_upd. split; [exact I1|].
    intros i Hi Hor. rewrite !zn_upd by (rewrite ?zlen_upd; lia).
    destruct (Z.eqb_spec i (m - k)) as [->|]; [reflexivity|].
    destruct (Z.eqb_spec i k) as [->|]; [reflexivity|]. apply I2; lia.
  - match goal with |- context [for_up 1 ?h ?B ?F] => replace (for_up 1 h B F) with (OK f) by (symmetry; exact E) end.
    ret. eexists; eexists; split; [reflexivity|]. split; [unfold rready; cbn; splits; auto; zl; lia|].
    split; [auto|]. intros k Hk. apply I2; [auto|].
    assert (m <= 2 * (m / 2) + 1) by (pose proof (Z.div_mod m 2 ltac:(lia)); pose proof (Z.mod_pos_bound m 2 ltac:(lia)); lia). lia.
Qed.
