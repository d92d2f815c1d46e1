(** DCT: the four methods compute the cosine transforms of FftSpec, from any reachable state of the object. *)
From Coq Require Import Reals ZArith Lia Lra List Bool Ring.
From Verif.Base Require Import Imp Sums RealOps Loops.
From Verif.Fft Require Import Cplx FftModel FftSpec FftBfly FftWork FftProofs FftrModel FftrProofs FftReal DctMath.
Import ListNotations.
Open Scope Z_scope.

(** A DCT object of size n: the even samples of the odd-extended time buffer are zero. *)
Definition d_ready (n : Z) (d : dct) : Prop :=
  d_n d = n /\ d_scale d = (IZR n * sqrt (2 / IZR n))%R /\ zlen (d_scaled d) = n /\ zlen (d_time2 d) = 4 * n /\
  zlen (d_freq2r d) = 4 * n /\ zlen (d_freq2i d) = 4 * n /\ r_ready (2 * n) (d_fft d) /\
  (forall j, 0 <= j < 2 * n -> zn 0%R (d_time2 d) (2 * j) = 0%R).

Lemma dct_new_ready n j1 j2 jc : 1 <= n < 2 ^ 29 -> zlen j1 = 2 * n -> zlen j2 = 2 * n -> zlen jc = 4 * n ->
  exists d, dct_new n j1 j2 jc = OK d /\ d_ready n d.
Proof.
  intros Hn L1 L2 L3. unfold dct_new.
  destruct (fftreal_new_ready (n * 4) (2 * n) j1 j2 jc) as (f & E & Rf); try lia.
  rewrite E. ret. eexists; split; [reflexivity|]. unfold d_ready; cbn [d_n d_scale d_scaled d_time2 d_freq2r d_freq2i d_fft].
  splits; auto; try (zl; lia).
  intros j Hj. rewrite zn_repeat_in by lia. reflexivity.
Qed.

(** The value of the forward transform on the mirrored buffer. *)
Lemma fwd_value n (t x : Z -> R) k : 1 <= n ->
  (forall j, 0 <= j < 2 * n -> t (2 * j)%Z = 0%R) ->
  (forall j, 0 <= j < n -> t (2 * j + 1)%Z = x j) -> (forall j, 0 <= j < n -> t (4 * n - 2 * j - 1)%Z = x j) ->
  fst (cdft false (2 * (2 * n)) (fun j => cre (t j)) k) = dct2 n x k.
Proof.
  intros Hn H0 H1 H2. unfold cdft. rewrite csum_even_odd by lia.
  rewrite (csum_ext (2 * n) _ (fun _ => c0)).
  2:{ intros j Hj. rewrite H0 by lia. apply cplx_eq; cbn; ring. }
  rewrite csum_zero.
  assert (T : forall j, fst (cmul (cre (t (2 * j + 1)%Z)) (root (2 * (2 * n))%Z (sg false * (k * (2 * j + 1))))) = (t (2 * j + 1)%Z * ck n k j)%R).
  { intros j. rewrite ck_root by auto. replace (sg false * (k * (2 * j + 1))) with (- (k * (2 * j + 1))) by (cbn [sg]; lia).
    rewrite root_opp. replace (2 * (2 * n)) with (4 * n) by lia. cbn. ring. }
  cbn [fst cadd c0]. unfold csum. cbn [fst]. rewrite Rplus_0_l.
  rewrite (rsum_ext _ _ _ (fun j _ => T j)).
  replace (2 * n) with (n + n) by lia. rewrite rsum_split by lia.
  rewrite (rsum_ext n (fun i => t (2 * (n + i) + 1)%Z * ck n k (n + i)%Z)%R (fun i => x (n - 1 - i)%Z * ck n k (n - 1 - i)%Z)%R).
  2:{ intros i Hi. f_equal.
      - rewrite <- H2 by lia. f_equal. lia.
      - rewrite !ck_root by auto.
        replace (k * (2 * (n + i) + 1)) with (- (k * (2 * (n - 1 - i) + 1)) + 4 * n * k) by lia.
        rewrite root_period by lia. rewrite root_opp. reflexivity. }
  rewrite (rsum_rev n (fun i => x i * ck n k i)%R).
  rewrite (rsum_ext n (fun i => t (2 * i + 1)%Z * ck n k i)%R (fun i => x i * ck n k i)%R).
  2:{ intros i Hi. now rewrite H1. }
  unfold dct2. fold (ck n k). change (fun j : Z => (x j * cos (PI * IZR k * IZR (2 * j + 1) / IZR (2 * n)))%R) with (fun j => (x j * ck n k j)%R). lra.
Qed.

Lemma dct_forward_ok n d x out : 1 <= n < 2 ^ 29 -> d_ready n d -> n <= zlen x -> n <= zlen out ->
  exists d', dct_forward d x out = OK (d', ztab n (dct2 n (zn 0%R x)) ++ skipn (Z.to_nat n) out) /\ d_ready n d'.
Proof.
  intros Hn (R1 & R2 & R3 & R4 & R5 & R6 & R7 & R8) Lx Lo. unfold dct_forward. rewrite R1.
  match goal with |- context [for_up 0 n ?B ?S0] =>
    destruct (for_up_inv (fun i t => zlen t = 4 * n /\ (forall j, 0 <= j < 2 * n -> zn 0%R t (2 * j)%Z = 0%R) /\
       (forall j, 0 <= j < i -> zn 0%R t (2 * j + 1)%Z = zn 0%R x j) /\
       (forall j, 0 <= j < i -> zn 0%R t (4 * n - 2 * j - 1)%Z = zn 0%R x j)) 0 n B S0)
      as (t & E & T1 & T2 & T3 & T4); [lia| | |rewrite E; clear E] end.
  - splits; auto; intros; lia.
  - intros i t Hi (T1 & T2 & T3 & T4). rewrite (aget_OK 0%R) by lia. ret. rewrite aset_OK by lia. ret.
    rewrite aset_OK by (zl; lia). eexists; split; [reflexivity|]. splits.
    + zl; lia.
    + intros j Hj. rewrite !zn_upd by (zl; lia). destruct (Z.eqb_spec (2 * j) (n * 4 - i * 2 - 1)); [lia|].
      destruct (Z.eqb_spec (2 * j) (i * 2 + 1)); [lia|]. auto.
    + intros j Hj. rewrite !zn_upd by (zl; lia). destruct (Z.eqb_spec (2 * j + 1) (n * 4 - i * 2 - 1)); [lia|].
      destruct (Z.eqb_spec (2 * j + 1) (i * 2 + 1)); [f_equal; lia|]. apply T3; lia.
    + intros j Hj. rewrite !zn_upd by (zl; lia). destruct (Z.eqb_spec (4 * n - 2 * j - 1) (n * 4 - i * 2 - 1)); [f_equal; lia|].
      destruct (Z.eqb_spec (4 * n - 2 * j - 1) (i * 2 + 1)); [lia|]. apply T4; lia.
  - ret. destruct (fftreal_forward_ok (2 * n) (d_fft d) t (d_freq2r d) (d_freq2i d)) as (f & fr & fi & E & Rf & L1 & L2 & _ & V); auto; try lia.
    rewrite E. ret. rewrite (for_up_set n (aget fr) (dct2 n (zn 0%R x))); try lia.
    2:{ intros i Hi. rewrite (aget_OK 0%R) by lia. f_equal. rewrite <- (fwd_value n (zn 0%R t) (zn 0%R x) i); try assumption; try lia.
        rewrite <- (V i) by lia. reflexivity. }
    ret. eexists; split; [reflexivity|]. unfold d_ready; cbn [d_n d_scale d_scaled d_time2 d_freq2r d_freq2i d_fft].
    splits; auto; lia.
Qed.

(** The spectrum the inverse transform is given. *)
Definition spect (n : Z) (y : Z -> R) (k : Z) : R := if k <? n then y k else if k =? n then 0%R else (- y (2 * n - k)%Z)%R.

Lemma inv_value n (F : Z -> cplx) y t : 1 <= n -> (forall k, 0 <= k <= 2 * n -> F k = cre (spect n y k)) ->
  fst (cdft true (2 * (2 * n)) (herm (2 * n) F) t) =
  (rsum (2 * n) (fun k => spect n y k * fst (root (4 * n)%Z (k * t)%Z))%R * (1 - sgn1 t))%R.
Proof.
  intros Hn HF.
  set (g := fun k => if k <=? 2 * n then spect n y k else spect n y (4 * n - k)%Z).
  assert (Hg : forall k, 0 <= k < 4 * n -> herm (2 * n) F k = cre (g k)).
  { intros k Hk. unfold herm, g. destruct (Z.eqb_spec k 0) as [->|].
    - rewrite HF by lia. destruct (Z.leb_spec 0 (2 * n)); [reflexivity|lia].
    - destruct (Z.eqb_spec k (2 * n)) as [->|].
      + rewrite HF by lia. destruct (Z.leb_spec (2 * n) (2 * n)); [reflexivity|lia].
      + destruct (Z.ltb_spec k (2 * n)), (Z.leb_spec k (2 * n)); try lia.
        * now rewrite HF by lia.
        * rewrite HF by lia. replace (2 * (2 * n) - k) with (4 * n - k) by lia. apply cplx_eq; cbn; ring. }
  unfold cdft. replace (2 * (2 * n)) with (4 * n) by lia.
  rewrite (csum_ext (4 * n) _ (fun k => cmul (cre (g k)) (root (4 * n)%Z (k * t)%Z))).
  2:{ intros k Hk. rewrite Hg by auto. f_equal. f_equal. cbn [sg]. lia. }
  unfold csum. cbn [fst].
  rewrite (rsum_ext (4 * n) _ (fun k => g k * fst (root (4 * n)%Z (k * t)%Z))%R) by (intros; cbn; ring).
  replace (4 * n) with (2 * n + 2 * n) at 1 by lia. rewrite rsum_split by lia.
  rewrite Rmult_comm, <- rsum_scal, <- rsum_plus. apply rsum_ext. intros k Hk.
  assert (G1 : g k = spect n y k) by (unfold g; destruct (Z.leb_spec k (2 * n)); [auto|lia]).
  assert (G2 : g (2 * n + k) = (- spect n y k)%R).
  { unfold g, spect. destruct (Z.leb_spec (2 * n + k) (2 * n)).
    - assert (k = 0) by lia. subst k. destruct (Z.ltb_spec (2 * n + 0) n); [lia|]. destruct (Z.eqb_spec (2 * n + 0) n); [lia|].
      destruct (Z.ltb_spec 0 n); [|lia]. do 2 f_equal. lia.
    - replace (4 * n - (2 * n + k)) with (2 * n - k) by lia.
      destruct (Z.ltb_spec (2 * n - k) n), (Z.ltb_spec k n); try lia.
      + destruct (Z.eqb_spec k n); [lia|]. ring.
      + destruct (Z.eqb_spec (2 * n - k) n); [lia|]. do 2 f_equal. lia.
      + destruct (Z.eqb_spec (2 * n - k) n); [|lia]. destruct (Z.eqb_spec k n); [|lia]. ring. }
  assert (C : fst (root (4 * n)%Z ((2 * n + k) * t)%Z) = (sgn1 t * fst (root (4 * n)%Z (k * t)%Z))%R).
  { replace ((2 * n + k) * t) with (2 * n * t + k * t) by lia. rewrite root_add.
    assert (E : root (4 * n)%Z (2 * n * t)%Z = (sgn1 t, 0%R)).
    { unfold root, cis.
      replace (2 * PI * IZR (2 * n * t) / IZR (4 * n))%R with (PI * IZR t)%R.
      2:{ rewrite !mult_IZR. assert (IZR n <> 0)%R by (apply not_0_IZR; lia). field. auto. }
      rewrite cos_pi_Z. f_equal. rewrite Rmult_comm. apply sin_eq_0_1. exists t. reflexivity. }
    rewrite E. cbn. ring. }
  rewrite G1, G2, C. ring.
Qed.

Lemma inv_odd n (y : Z -> R) j : 1 <= n ->
  (rsum (2 * n) (fun k => spect n y k * fst (root (4 * n)%Z (k * (2 * j + 1))%Z)) * 2 / IZR (4 * n) = idct2 n y j)%R.
Proof.
  intros Hn. assert (N : (IZR n <> 0)%R) by (apply not_0_IZR; lia).
  rewrite (rsum_ext (2 * n) _ (fun k => spect n y k * ck n k j)%R).
  2:{ intros k Hk. now rewrite ck_root. }
  replace (2 * n) with ((1 + (n - 1)) + (1 + (n - 1))) at 1 by lia. rewrite !rsum_split by lia.
  assert (S1 : forall g, rsum 1 g = g 0%Z).
  { intros g. change 1 with (0 + 1). rewrite rsum_S, rsum_0 by lia. lra. }
  rewrite !S1.
  assert (K0 : ck n 0 j = 1%R).
  { unfold ck. replace (PI * 0 * IZR (2 * j + 1) / IZR (2 * n))%R with 0%R by (unfold Rdiv; ring). apply cos_0. }
  replace (spect n y 0) with (y 0) by (unfold spect; destruct (Z.ltb_spec 0 n); [auto|lia]). rewrite K0.
  replace (spect n y (1 + (n - 1) + 0)%Z) with 0%R.
  2:{ unfold spect. destruct (Z.ltb_spec (1 + (n - 1) + 0) n); [lia|]. destruct (Z.eqb_spec (1 + (n - 1) + 0) n); [auto|lia]. }
  rewrite (rsum_ext (n - 1) (fun i => spect n y (1 + i)%Z * ck n (1 + i)%Z j)%R (fun i => y (i + 1)%Z * ck n (i + 1)%Z j)%R).
  2:{ intros i Hi. replace (1 + i) with (i + 1) by lia. unfold spect. destruct (Z.ltb_spec (i + 1) n); [auto|lia]. }
  rewrite (rsum_ext (n - 1) (fun i => spect n y (1 + (n - 1) + (1 + i))%Z * ck n (1 + (n - 1) + (1 + i))%Z j)%R
     (fun i => y ((n - 1) - 1 - i + 1)%Z * ck n ((n - 1) - 1 - i + 1)%Z j)%R).
  2:{ intros i Hi. unfold spect. destruct (Z.ltb_spec (1 + (n - 1) + (1 + i)) n); [lia|].
      destruct (Z.eqb_spec (1 + (n - 1) + (1 + i)) n); [lia|].
      replace (2 * n - (1 + (n - 1) + (1 + i))) with (n - 1 - 1 - i + 1) by lia.
      assert (E : ck n (1 + (n - 1) + (1 + i))%Z j = (- ck n (n - 1 - 1 - i + 1)%Z j)%R).
      { unfold ck. replace (PI * IZR (1 + (n - 1) + (1 + i)) * IZR (2 * j + 1) / IZR (2 * n))%R with
          (- (PI * IZR (n - 1 - 1 - i + 1) * IZR (2 * j + 1) / IZR (2 * n)) + PI * IZR (2 * j + 1))%R.
        2:{ repeat rewrite ?plus_IZR, ?minus_IZR, ?mult_IZR. field. auto. }
        rewrite cos_plus, cos_neg, cos_pi_Z.
        replace (sin (PI * IZR (2 * j + 1))) with 0%R.
        2:{ symmetry. rewrite Rmult_comm. apply sin_eq_0_1. eexists; reflexivity. }
        unfold sgn1. replace (Z.even (2 * j + 1)) with false; [ring|].
        symmetry. rewrite Z.add_comm, Z.even_add_mul_2. reflexivity. }
      rewrite E. ring. }
  rewrite (rsum_rev (n - 1) (fun i => y (i + 1)%Z * ck n (i + 1)%Z j)%R).
  unfold idct2. change (fun i : Z => (y (i + 1)%Z * cos (PI * IZR (i + 1) * IZR (2 * j + 1) / IZR (2 * n)))%R)
    with (fun i => (y (i + 1)%Z * ck n (i + 1)%Z j)%R).
  rewrite (mult_IZR 4). field. auto.
Qed.

Lemma dct_inverse_ok n d y out : 1 <= n < 2 ^ 29 -> d_ready n d -> n <= zlen y -> n <= zlen out ->
  exists d', dct_inverse d y out = OK (d', ztab n (idct2 n (zn 0%R y)) ++ skipn (Z.to_nat n) out) /\ d_ready n d'.
Proof.
  intros Hn (R1 & R2 & R3 & R4 & R5 & R6 & R7 & R8) Ly Lo. unfold dct_inverse. rewrite R1.
  rewrite (for_up_set n (aget y) (zn 0%R y)); try lia.
  2:{ intros i Hi. now rewrite (aget_OK 0%R) by lia. }
  ret. set (fr1 := ztab n (zn 0%R y) ++ skipn (Z.to_nat n) (d_freq2r d)).
  assert (L1 : zlen fr1 = 4 * n) by (unfold fr1; zl; lia).
  assert (V1 : forall k, 0 <= k < n -> zn 0%R fr1 k = zn 0%R y k).
  { intros k Hk. unfold fr1. rewrite zn_app. zl. rewrite Z.max_r by lia. destruct (Z.ltb_spec k n); [|lia]. now rewrite zn_ztab by lia. }
  match goal with |- context [for_up 0 n ?B fr1] =>
    destruct (for_up_inv (fun i t => zlen t = 4 * n /\ (forall k, 0 <= k < n -> zn 0%R t k = zn 0%R y k) /\
       (forall k, 2 * n - i < k <= 2 * n -> zn 0%R t k = (- zn 0%R y (2 * n - k)%Z)%R)) 0 n B fr1)
      as (fr & E & T1 & T2 & T3); [lia| | |rewrite E; clear E] end.
  - splits; auto; intros; lia.
  - intros i t Hi (T1 & T2 & T3). rewrite (aget_OK 0%R) by lia. ret. rewrite aset_OK by (zl; lia). eexists; split; [reflexivity|].
    splits.
    + zl; lia.
    + intros k Hk. rewrite zn_upd by (zl; lia). destruct (Z.eqb_spec k (n * 2 - i)); [lia|]. auto.
    + intros k Hk. rewrite zn_upd by (zl; lia). destruct (Z.eqb_spec k (n * 2 - i)) as [->|]; [do 2 f_equal; lia|]. apply T3; lia.
  - ret. rewrite aset_OK by lia. ret.
    rewrite (for_up_tab (n * 2 + 1) _ (fun _ => 0%R)); try lia.
    2:{ reflexivity. }
    ret.
    match goal with |- context [fftreal_inverse _ ?A ?B _] => set (FR := A); set (FI := B) end.
    assert (LR : zlen FR = 4 * n) by (unfold FR; zl; lia).
    assert (LI : zlen FI = 4 * n) by (unfold FI; zl; lia).
    destruct (fftreal_inverse_ok (2 * n) (d_fft d) FR FI (d_time2 d)) as (f & t & E & Rf & Lt & _ & V); auto; try lia.
    rewrite E. ret.
    assert (HF : forall k, 0 <= k <= 2 * n -> (zn 0%R FR k, zn 0%R FI k) = cre (spect n (zn 0%R y) k)).
    { intros k Hk. unfold cre. f_equal.
      - unfold FR, spect. rewrite zn_upd by lia. destruct (Z.eqb_spec k n) as [->|].
        + destruct (Z.ltb_spec n n); [lia|reflexivity].
        + destruct (Z.ltb_spec k n); [now apply T2|]. apply T3. lia.
      - unfold FI. rewrite zn_app. zl. rewrite Z.max_r by lia. destruct (Z.ltb_spec k (n * 2 + 1)); [|lia]. now rewrite zn_ztab by lia. }
    assert (VT : forall s, 0 <= s < 4 * n -> zn 0%R t s =
      (rsum (2 * n) (fun k => spect n (zn 0%R y) k * fst (root (4 * n)%Z (k * s)%Z))%R * (1 - sgn1 s) / IZR (4 * n))%R).
    { intros s Hs. rewrite V by lia. rewrite (inv_value n _ (zn 0%R y)); [|lia|assumption]. replace (2 * (2 * n)) with (4 * n) by lia. reflexivity. }
    rewrite (for_up_set n (fun i => aget t (i * 2 + 1)%Z) (idct2 n (zn 0%R y))); try lia.
    2:{ intros i Hi. rewrite (aget_OK 0%R) by lia. f_equal. replace (i * 2 + 1) with (2 * i + 1) by lia. rewrite VT by lia.
        rewrite <- inv_odd by lia. f_equal. f_equal. unfold sgn1. replace (Z.even (2 * i + 1)) with false; [ring|].
        symmetry. rewrite Z.add_comm, Z.even_add_mul_2. reflexivity. }
    ret. eexists; split; [reflexivity|]. unfold d_ready; cbn [d_n d_scale d_scaled d_time2 d_freq2r d_freq2i d_fft].
    splits; auto; try lia.
    intros j Hj. rewrite VT by lia. unfold sgn1. replace (Z.even (2 * j)) with true; [unfold Rdiv; ring|].
    symmetry. rewrite Z.even_mul. reflexivity.
Qed.

Lemma dct_forward_unitary_ok n d x out : 1 <= n < 2 ^ 29 -> d_ready n d -> n <= zlen x -> n <= zlen out ->
  exists d', dct_forward_unitary d x out = OK (d', ztab n (dct2_unitary n (zn 0%R x)) ++ skipn (Z.to_nat n) out) /\ d_ready n d'.
Proof.
  intros Hn Hd Lx Lo. unfold dct_forward_unitary.
  destruct (dct_forward_ok n d x out) as (d' & E & Hd'); auto. rewrite E. ret. clear E.
  pose proof Hd' as (R1 & R2 & _). rewrite R1, R2.
  set (o1 := ztab n _ ++ _).
  assert (L1 : zlen o1 = zlen out) by (unfold o1; zl; lia).
  assert (V1 : forall k, 0 <= k < n -> zn 0%R o1 k = dct2 n (zn 0%R x) k).
  { intros k Hk. unfold o1. rewrite zn_app. zl. rewrite Z.max_r by lia. destruct (Z.ltb_spec k n); [|lia]. now rewrite zn_ztab by lia. }
  assert (V2 : forall k, n <= k -> zn 0%R o1 k = zn 0%R out k).
  { intros k Hk. unfold o1. rewrite zn_app. zl. rewrite Z.max_r by lia. destruct (Z.ltb_spec k n); [lia|].
    rewrite zn_skipn by lia. f_equal. lia. }
  rewrite (for_up_tab n _ (fun k => (dct2 n (zn 0%R x) k / (IZR n * sqrt (2 / IZR n)))%R)).
  2: lia.
  2:{ intros i s Hi Ls H1 H2. rewrite (aget_OK 0%R) by lia. ret. rewrite H1 by lia. now rewrite V1 by lia. }
  ret. set (o2 := ztab n _ ++ _).
  assert (L2 : zlen o2 = zlen out) by (unfold o2; zl; lia).
  rewrite (aget_OK 0%R) by lia. ret. rewrite aset_OK by lia. ret.
  eexists; split; [|eassumption]. f_equal. f_equal. apply (zn_ext 0%R); [zl; lia|]. intros k Hk. rewrite zn_upd by lia.
  rewrite zn_app. zl. rewrite !Z.max_r by lia. unfold o2. rewrite !zn_app. zl. rewrite !Z.max_r by lia.
  destruct (Z.ltb_spec k n).
  - rewrite (zn_ztab 0%R n (dct2_unitary n (zn 0%R x))) by lia. rewrite dct2_unitary_scale by lia. cbv zeta. destruct (Z.eqb_spec k 0) as [->|].
    + destruct (Z.ltb_spec 0 n); [|lia]. now rewrite zn_ztab by lia.
    + now rewrite zn_ztab by lia.
  - destruct (Z.eqb_spec k 0); [lia|]. rewrite !zn_skipn by lia. rewrite V2 by lia. reflexivity.
Qed.

(** The inverse of the unitary transform, as a sum. *)
Definition idct2_unitary (n : Z) (y : Z -> R) : Z -> R :=
  idct2 n (fun k => if k =? 0 then y k * (IZR n * sqrt (2 / IZR n)) * sqrt 2 else y k * (IZR n * sqrt (2 / IZR n)))%R.

Lemma idct2_ext n f g j : 1 <= n -> (forall k, 0 <= k < n -> f k = g k) -> idct2 n f j = idct2 n g j.
Proof.
  intros Hn H. unfold idct2. rewrite H by lia. f_equal. f_equal. apply rsum_ext. intros i Hi. now rewrite H by lia.
Qed.
Lemma dct2_ext n f g j : (forall k, 0 <= k < n -> f k = g k) -> dct2 n f j = dct2 n g j.
Proof. intros H. unfold dct2. f_equal. apply rsum_ext. intros i Hi. now rewrite H. Qed.
Lemma dct2_unitary_ext n f g j : (forall k, 0 <= k < n -> f k = g k) -> dct2_unitary n f j = dct2_unitary n g j.
Proof. intros H. unfold dct2_unitary. f_equal. apply rsum_ext. intros i Hi. now rewrite H. Qed.
Lemma idct2_unitary_ext n f g j : 1 <= n -> (forall k, 0 <= k < n -> f k = g k) -> idct2_unitary n f j = idct2_unitary n g j.
Proof. intros Hn H. unfold idct2_unitary. apply idct2_ext; auto. intros k Hk. now rewrite H. Qed.

Lemma scale_nz n : 1 <= n -> (IZR n * sqrt (2 / IZR n) <> 0)%R /\ (sqrt 2 <> 0)%R.
Proof.
  intros Hn. assert (N : (0 < IZR n)%R) by (apply IZR_lt; lia).
  assert (Q : (0 < sqrt (2 / IZR n))%R) by (apply sqrt_lt_R0; apply Rdiv_lt_0_compat; lra).
  split; [nra|]. apply Rgt_not_eq, sqrt_lt_R0. lra.
Qed.

Lemma idct2_unitary_inv n x j : 1 <= n -> 0 <= j < n -> idct2_unitary n (dct2_unitary n x) j = x j.
Proof.
  intros Hn Hj. destruct (scale_nz n Hn) as (Q1 & Q2). unfold idct2_unitary.
  rewrite <- (idct2_dct2 n x j) by auto. apply idct2_ext; auto. intros k Hk.
  rewrite dct2_unitary_scale by auto. cbv zeta. set (s := (IZR n * sqrt (2 / IZR n))%R) in *. destruct (k =? 0); field; auto.
Qed.
Lemma dct2_unitary_inv n y k : 1 <= n -> 0 <= k < n -> dct2_unitary n (idct2_unitary n y) k = y k.
Proof.
  intros Hn Hk. destruct (scale_nz n Hn) as (Q1 & Q2). rewrite dct2_unitary_scale by auto. unfold idct2_unitary.
  rewrite dct2_idct2 by auto. cbv zeta. set (s := (IZR n * sqrt (2 / IZR n))%R) in *. destruct (k =? 0); field; auto.
Qed.

Lemma dct_inverse_unitary_ok n d y out : 1 <= n < 2 ^ 29 -> d_ready n d -> n <= zlen y -> n <= zlen out ->
  exists d', dct_inverse_unitary d y out = OK (d', ztab n (idct2_unitary n (zn 0%R y)) ++ skipn (Z.to_nat n) out) /\ d_ready n d'.
Proof.
  intros Hn (R1 & R2 & R3 & R4 & R5 & R6 & R7 & R8) Ly Lo. unfold dct_inverse_unitary. rewrite R1.
  rewrite (for_up_tab n _ (fun i => (zn 0 y i * d_scale d)%R)).
  2: lia.
  2:{ intros i s Hi _ _ _. now rewrite (aget_OK 0%R) by lia. }
  ret. set (s1 := ztab n _ ++ _).
  assert (L1 : zlen s1 = n) by (unfold s1; zl; lia).
  rewrite (aget_OK 0%R) by lia. ret. rewrite aset_OK by lia. ret.
  match goal with |- context [dct_inverse ?D ?S _] => set (d1 := D); set (s2 := S) end.
  assert (L2 : zlen s2 = n) by (unfold s2; zl; lia).
  assert (V1 : forall k, 0 <= k < n -> zn 0%R s1 k = (zn 0 y k * d_scale d)%R).
  { intros k Hk. unfold s1. rewrite zn_app. zl. rewrite Z.max_r by lia. destruct (Z.ltb_spec k n); [|lia]. now rewrite zn_ztab by lia. }
  assert (Rd : d_ready n d1).
  { unfold d_ready, d1; cbn [d_n d_scale d_scaled d_time2 d_freq2r d_freq2i d_fft]. splits; auto. }
  destruct (dct_inverse_ok n d1 s2 out) as (d' & E & Hd'); auto; try lia.
  exists d'; split; auto. rewrite E. f_equal. f_equal. f_equal. apply ztab_ext. intros j Hj.
  unfold idct2_unitary. apply idct2_ext; [lia|]. intros k Hk. unfold s2. rewrite zn_upd by lia. rewrite <- R2.
  destruct (Z.eqb_spec k 0) as [->|]; now rewrite V1 by lia.
Qed.
