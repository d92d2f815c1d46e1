(** FFTReal::forward, forwardMagnitude and inverse. *)
From Coq Require Import Reals ZArith Lia Lra List Bool Ring.
From Verif.Base Require Import Imp Sums RealOps Loops.
From Verif.Fft Require Import Cplx FftModel FftSpec FftBfly FftWork FftProofs FftrModel FftrProofs.
Import ListNotations.
Open Scope Z_scope.

(** An FFTReal object of size 2 m, at any time after its construction. *)
Definition r_ready (m : Z) (o : fftreal) : Prop :=
  r_n o = 2 * m /\ rready m false (r_planf o) /\ rready m true (r_plani o) /\ zlen (r_c o) = 2 * m.

Lemma half_2m m : 2 * m / 2 = m.
Proof. rewrite Z.mul_comm, Z.div_mul; lia. Qed.

Lemma fftreal_new_ready n m j1 j2 jc : n = 2 * m -> 1 <= m < 2 ^ 31 -> zlen j1 = m -> zlen j2 = m -> zlen jc = n ->
  exists o, fftreal_new n j1 j2 jc = OK o /\ r_ready m o.
Proof.
  intros Hn Hm L1 L2 Lc. unfold fftreal_new.
  replace (n mod 2) with 0 by (subst; rewrite Z.mul_comm, Z.mod_mul; lia). cbn [Z.eqb negb].
  destruct (kiss_fftr_alloc_ok n m false j1 Hn Hm L1) as (f & Ef & Rf).
  destruct (kiss_fftr_alloc_ok n m true j2 Hn Hm L2) as (i & Ei & Ri).
  rewrite Ef, Ei. ret. ret. eexists; split; [reflexivity|]. unfold r_ready; cbn [r_n r_planf r_plani r_c]. splits; auto; lia.
Qed.

Lemma fftreal_new_odd n j1 j2 jc : n mod 2 <> 0 -> fftreal_new n j1 j2 jc = Throw.
Proof. intros H. unfold fftreal_new. destruct (Z.eqb_spec (n mod 2) 0); [lia|reflexivity]. Qed.

(** The bins above n/2 are the conjugates of those below. *)
Lemma cdft_real_conj n (x : Z -> R) k : 1 <= n ->
  cdft false n (fun j => cre (x j)) (n - k) = cconj (cdft false n (fun j => cre (x j)) k).
Proof. intros Hn. rewrite <- (real_conj n x k) by auto. now rewrite cconj_invol. Qed.

Lemma fftreal_forward_ok m o ri ro io :
  1 <= m <= 2 ^ 30 -> r_ready m o -> 2 * m <= zlen ri -> 2 * m <= zlen ro -> 2 * m <= zlen io ->
  exists o' ro' io', fftreal_forward o ri ro io = OK (o', ro', io') /\ r_ready m o' /\
    zlen ro' = zlen ro /\ zlen io' = zlen io /\
    (forall k, 2 * m <= k -> zn 0%R ro' k = zn 0%R ro k /\ zn 0%R io' k = zn 0%R io k) /\
    (forall k, 0 <= k < 2 * m -> (zn 0%R ro' k, zn 0%R io' k) = cdft false (2 * m) (fun j => cre (zn 0%R ri j)) k).
Proof.
  intros Hm (R1 & R2 & R3 & R4) L1 L2 L3. unfold fftreal_forward. rewrite R1, half_2m.
  destruct (kiss_fftr_ok m (r_planf o) ri (r_c o)) as (pf & c & E & Rf & Lc & Hc); auto; try lia.
  rewrite E. ret. clear E.
  set (X := cdft false (2 * m) (fun j => cre (zn 0%R ri j))) in *.
  rewrite (for_up_out2 (m + 1) (aget c) X fst snd); try lia.
  2:{ intros i Hi. rewrite (aget_OK c0) by lia. now rewrite Hc by lia. }
  ret.
  match goal with |- context [for_up 0 (m - 1) ?B ?S0] =>
    destruct (for_up_inv (fun i (x : list R * list R) => let '(a, b) := x in
       zlen a = zlen ro /\ zlen b = zlen io /\
       (forall k, 2 * m <= k -> zn 0%R a k = zn 0%R ro k /\ zn 0%R b k = zn 0%R io k) /\
       (forall k, 0 <= k < 2 * m -> (k <= m \/ 2 * m - i <= k) -> (zn 0%R a k, zn 0%R b k) = X k)) 0 (m - 1) B S0)
      as ((a & b) & E & I1 & I2 & I3 & I4); [lia| | |] end.
  - splits.
    + zl; lia.
    + zl; lia.
    + intros k Hk. rewrite !zn_app. zl. rewrite !Z.max_r by lia. destruct (Z.ltb_spec k (m + 1)); [lia|].
      rewrite !zn_skipn by lia. split; f_equal; lia.
    + intros k Hk [Hk'|Hk']; [|lia]. rewrite !zn_app. zl. rewrite !Z.max_r by lia.
      destruct (Z.ltb_spec k (m + 1)); [|lia]. rewrite !zn_ztab by lia. now destruct (X k).
  - intros i (a & b) Hi (I1 & I2 & I3 & I4).
    rewrite (aget_OK 0%R) by lia. ret. rewrite aset_OK by lia. ret. rewrite (aget_OK 0%R) by lia. ret.
    rewrite aset_OK by lia. ret. eexists; split; [reflexivity|]. cbv beta iota. splits; try (zl; lia).
    + intros k Hk. rewrite !zn_upd by (zl; lia). destruct (Z.eqb_spec k (2 * m - i - 1)); [lia|]. apply I3; lia.
    + intros k Hk Hor. rewrite !zn_upd by (zl; lia). destruct (Z.eqb_spec k (2 * m - i - 1)) as [->|Ne]; [|apply I4; lia].
      replace (2 * m - i - 1) with (2 * m - (i + 1)) by lia. unfold X. rewrite cdft_real_conj by lia. fold X.
      rewrite <- (I4 (i + 1)) by lia. reflexivity.
  - match goal with |- context [for_up 0 (m - 1) ?B ?S] => replace (for_up 0 (m - 1) B S) with (OK (a, b)) by (symmetry; exact E) end.
    ret. do 3 eexists; split; [reflexivity|]. splits; auto.
    + unfold r_ready; cbn [r_n r_planf r_plani r_c]. splits; auto; lia.
    + intros k Hk. apply I4; [auto|lia].
Qed.

Lemma fftreal_magnitude_ok m o ri mo jio :
  1 <= m <= 2 ^ 30 -> r_ready m o -> 2 * m <= zlen ri -> 2 * m <= zlen mo -> zlen jio = 2 * m ->
  exists o' mo', fftreal_magnitude o ri mo jio = OK (o', mo') /\ r_ready m o' /\ zlen mo' = zlen mo /\
    (forall k, 2 * m <= k -> zn 0%R mo' k = zn 0%R mo k) /\
    (forall k, 0 <= k < 2 * m -> let c := cdft false (2 * m) (fun j => cre (zn 0%R ri j)) k in
       zn 0%R mo' k = sqrt (fst c * fst c + snd c * snd c)).
Proof.
  intros Hm Ho L1 L2 L3. unfold fftreal_magnitude.
  destruct (fftreal_forward_ok m o ri mo jio) as (o' & ro & io & E & Ro & Lr & Li & H1 & H2); auto; try lia.
  rewrite E. ret. destruct Ro as (R1 & R2). rewrite R1.
  rewrite (for_up_tab (2 * m) _ (fun k => sqrt (zn 0 ro k * zn 0 ro k + zn 0 io k * zn 0 io k))%R).
  2: lia.
  2:{ intros i s Hi Ls Hs _. rewrite (aget_OK 0%R) by lia. ret. rewrite (aget_OK 0%R) by lia. ret.
      now rewrite Hs by lia. }
  ret. do 2 eexists; split; [reflexivity|]. splits.
  - unfold r_ready; auto.
  - zl. lia.
  - intros k Hk. rewrite zn_app. zl. rewrite Z.max_r by lia. destruct (Z.ltb_spec k (2 * m)); [lia|].
    rewrite zn_skipn by lia. replace (k - 2 * m + Z.of_nat (Z.to_nat (2 * m))) with k by lia. apply H1; lia.
  - intros k Hk. cbv zeta. rewrite <- (H2 k) by lia. rewrite zn_app. zl. rewrite Z.max_r by lia.
    destruct (Z.ltb_spec k (2 * m)); [|lia]. now rewrite zn_ztab by lia.
Qed.

(** *** The inverse *)
(** The spectrum FFTReal::inverse stands for: bins 0 and m real, the rest conjugate-symmetric. *)
Definition herm (m : Z) (F : Z -> cplx) (k : Z) : cplx :=
  if k =? 0 then cre (fst (F 0)) else if k =? m then cre (fst (F m))
  else if k <? m then F k else cconj (F (2 * m - k)).

Section Inverse.
  Variables (m : Z) (F : Z -> cplx).
  Hypothesis Hm : 1 <= m.
  Let n := 2 * m.
  Let H := herm m F.
  Let y := cdft true n H.
  Let T := fun k => cadd (cadd (H k) (H (k + m))) (cmul (cmul (0, 1)%R (root n k)) (csub (H k) (H (k + m)))).

  Lemma herm_conj k : 0 < k < n -> H (n - k) = cconj (H k).
  Proof.
    intros Hk. unfold H, herm. unfold n in *.
    destruct (Z.eqb_spec (2 * m - k) 0); [lia|]. destruct (Z.eqb_spec k 0); [lia|].
    destruct (Z.eqb_spec k m) as [->|].
    - destruct (Z.eqb_spec (2 * m - m) m); [|lia]. apply cplx_eq; cbn; ring.
    - destruct (Z.eqb_spec (2 * m - k) m); [lia|].
      destruct (Z.ltb_spec (2 * m - k) m), (Z.ltb_spec k m); try lia.
      + now rewrite cconj_invol.
      + replace (2 * m - (2 * m - k)) with k by lia. reflexivity.
  Qed.
  Lemma herm_real : H 0 = cre (fst (F 0)) /\ H m = cre (fst (F m)).
  Proof.
    unfold H, herm. cbn [Z.eqb]. split; [reflexivity|].
    destruct (Z.eqb_spec m 0); [lia|]. now rewrite Z.eqb_refl.
  Qed.
  Lemma herm_low k : 0 < k < m -> H k = F k.
  Proof.
    intros. unfold H, herm. destruct (Z.eqb_spec k 0); [lia|]. destruct (Z.eqb_spec k m); [lia|].
    destruct (Z.ltb_spec k m); [auto|lia].
  Qed.
  Lemma herm_high k : 0 < k < m -> H (k + m) = cconj (F (m - k)).
  Proof.
    intros. replace (k + m) with (n - (m - k)) by (unfold n; lia). rewrite herm_conj by (unfold n; lia).
    now rewrite herm_low by lia.
  Qed.

  (** The inverse transform of such a spectrum is real. *)
  Lemma y_real t : snd (y t) = 0%R.
  Proof.
    set (f := fun j => cmul (H j) (root n (sg true * (t * j)))).
    assert (f0 : cconj (f 0) = f 0).
    { unfold f. rewrite !Z.mul_0_r, root_0. destruct herm_real as (-> & _). apply cplx_eq; cbn; ring. }
    assert (fc : forall j, 0 < j < n -> cconj (f j) = f (n - j)).
    { intros j Hj. unfold f. rewrite cconj_mul, <- root_opp, herm_conj by auto. f_equal.
      apply (root_cong n _ _ (- t)); [unfold n; lia|]. cbn [sg]. ring. }
    assert (E : cconj (y t) = y t).
    { unfold y, cdft. fold f. rewrite <- csum_conj. change (csum n (fun i => cconj (f i)) = csum n f).
      rewrite (csum_first n), (csum_first n f) by (unfold n; lia). rewrite f0. f_equal.
      rewrite <- (csum_rev (n - 1) (fun i => f (i + 1))). apply csum_ext. intros i Hi.
      rewrite fc by lia. f_equal. lia. }
    apply (f_equal snd) in E. cbn [snd cconj] in E. lra.
  Qed.

  (** The packed half-size transform gives the even samples as real and the odd ones as imaginary parts. *)
  Lemma T_pack j : cdft true m T j = (fst (y (2 * j)), fst (y (2 * j + 1))).
  Proof.
    assert (Q : cdft true m T j = cadd (y (2 * j)) (cmul (0, 1)%R (y (2 * j + 1)))).
    { unfold y, cdft. unfold n at 1 3. replace (2 * m) with (m + m) by lia. rewrite !csum_split by lia.
      rewrite <- !csum_plus, <- csum_scal, <- csum_plus. apply csum_ext. intros k Hk.
      replace (m + k) with (k + m) by lia. unfold T.
      replace (sg true * (j * k)) with (j * k) by (cbn [sg]; lia).
      replace (sg true * (2 * j * k)) with (2 * (j * k)) by (cbn [sg]; lia).
      replace (sg true * (2 * j * (k + m))) with (2 * (j * k) + n * j) by (unfold n; cbn [sg]; lia).
      replace (sg true * ((2 * j + 1) * k)) with (2 * (j * k) + k) by (cbn [sg]; lia).
      replace (sg true * ((2 * j + 1) * (k + m))) with (2 * (j * k) + k + m + n * j) by (unfold n; cbn [sg]; lia).
      rewrite !root_period by (unfold n; lia). rewrite !root_add, (root_half n m) by (unfold n; lia).
      assert (RD : root n (2 * (j * k)) = root m (j * k)) by (unfold n; apply root_double; lia).
      rewrite !RD. ring. }
    rewrite Q. apply cplx_eq; cbn [fst snd cadd cmul]; rewrite !y_real; ring.
  Qed.

  (** What kiss_fftri stores. *)
  Lemma T_0 : T 0 = (fst (F 0) + fst (F m), fst (F 0) - fst (F m))%R.
  Proof.
    unfold T. change (0 + m) with m. destruct herm_real as (-> & ->). rewrite root_0. apply cplx_eq; cbn; ring.
  Qed.

  Lemma T_mid k w : 0 < k < m -> w = cmul (root n k) (0, 1)%R ->
    let fek := cadd (F k) (cconj (F (m - k))) in
    let fok := cmul (csub (F k) (cconj (F (m - k)))) w in
    T k = cadd fek fok /\ T (m - k) = cconj (csub fek fok).
  Proof.
    intros Hk -> fek fok. unfold T. rewrite herm_low, herm_high by lia.
    replace (m - k + m) with (n - k) by (unfold n; lia).
    rewrite herm_conj, !herm_low by (unfold n; lia). unfold fek, fok. split; [ring|].
    replace (m - k) with (- k + m) at 2 by lia. rewrite root_add, (root_half n m), root_opp by (unfold n; lia).
    apply cplx_eq; cbn; ring.
  Qed.
End Inverse.

Lemma kiss_fftri_ok m st freq x :
  1 <= m <= 2 ^ 30 -> rready m true st -> m + 1 <= zlen freq -> 2 * m <= zlen x ->
  exists st' x', kiss_fftri st freq x = OK (st', x') /\ rready m true st' /\ zlen x' = zlen x /\
    (forall t, 2 * m <= t -> zn 0%R x' t = zn 0%R x t) /\
    (forall t, 0 <= t < 2 * m -> zn 0%R x' t = fst (cdft true (2 * m) (herm m (zn c0 freq)) t)).
Proof.
  intros Hm (A & Lt & Ls & Hs) Lf Lx. unfold kiss_fftri.
  destruct (alloc_fields m true _ ltac:(lia) A) as (F1 & F2). rewrite F1, F2. cbn [negb].
  set (F := zn c0 freq).
  set (H := herm m F).
  set (T := fun k => cadd (cadd (H k) (H (k + m))) (cmul (cmul (0, 1)%R (root (2 * m) k)) (csub (H k) (H (k + m))))).
  assert (Hd : 0 <= m / 2) by (apply Z.div_pos; lia).
  assert (Hd' : 2 * (m / 2) <= m) by (apply Z.mul_div_le; lia).
  rewrite !(aget_OK c0) by lia. ret. ret. rewrite aset_OK by lia. ret. fold F.
  assert (T0 : T 0 = (fst (F 0%Z) + fst (F m), fst (F 0%Z) - fst (F m))%R) by exact (T_0 m F ltac:(lia)).
  rewrite <- T0.
  match goal with |- context [for_up 1 ?h ?B ?S] =>
    destruct (for_up_inv (fun k f => zlen f = m /\
      (forall i, 0 <= i < m -> (i < k \/ m - k < i) -> zn c0 f i = T i)) 1 h B S) as (f & E & I1 & I2); [lia| | |] end.
  - zl. split; [lia|]. intros i Hi [Hi'|Hi']; [|lia]. assert (i = 0) as -> by lia.
    rewrite zn_upd by lia. now rewrite Z.eqb_refl.
  - intros k f Hk (I1 & I2).
    destruct (Z.eq_dec m 1) as [->|M1]; [change (1 / 2 + 1) with 1 in Hk; lia|].
    assert (Hk' : 0 < k < m) by lia.
    rewrite !(aget_OK c0) by lia. ret. ret. ret. cbv zeta. rewrite Hs by lia.
    destruct (T_mid m F ltac:(lia) k (cmul (root (2 * m) (sg true * k)) (0, IZR (sg true))%R) Hk') as (TL & TH).
    { cbn [sg]. do 2 f_equal. lia. }
    cbv zeta in TL, TH. fold H in TL, TH.
    change (cadd (cadd (H k) (H (k + m))) (cmul (cmul (0%R, 1%R) (root (2 * m) k)) (csub (H k) (H (k + m))))) with (T k) in TL.
    change (cadd (cadd (H (m - k)) (H (m - k + m))) (cmul (cmul (0%R, 1%R) (root (2 * m) (m - k))) (csub (H (m - k)) (H (m - k + m))))) with (T (m - k)) in TH.
    fold F. change (fst (F (m - k)), Ropp (snd (F (m - k)))) with (cconj (F (m - k))).
    rewrite <- TL.
    match goal with |- context [aset _ (m - k) (?a, ?b)] => replace (a, b) with (T (m - k)) end.
    2:{ rewrite TH. apply cplx_eq; cbn [fst snd cconj]; ring. }
    assert (B1 : 0 <= k < zlen f) by lia. assert (B2 : 0 <= m - k < zlen f) by lia.
    rewrite aset_OK by exact B1. ret. rewrite aset_OK by (rewrite zlen_upd; exact B2).
    eexists; split; [reflexivity|]. rewrite !zlen_upd. split; [exact I1|].
    intros i Hi Hor. rewrite !zn_upd by (rewrite ?zlen_upd; lia).
    destruct (Z.eqb_spec i (m - k)) as [->|]; [reflexivity|].
    destruct (Z.eqb_spec i k) as [->|]; [reflexivity|]. apply I2; lia.
  - match goal with |- context [for_up 1 ?h ?B ?S] => replace (for_up 1 h B S) with (OK f) by (symmetry; exact E) end.
    ret. rewrite as_cplx_ok by lia. ret. rewrite (kiss_fft_ok m true); auto; try (zl; lia). ret.
    assert (V : forall j, 0 <= j < m -> cdft true m (zn c0 f) j =
      (fst (cdft true (2 * m) H (2 * j)), fst (cdft true (2 * m) H (2 * j + 1)))).
    { intros j Hj. etransitivity; [|exact (T_pack m F ltac:(lia) j)]. apply cdft_ext. intros k Hk. rewrite I2; [reflexivity|auto|].
      assert (m <= 2 * (m / 2) + 1) by (pose proof (Z.div_mod m 2 ltac:(lia)); pose proof (Z.mod_pos_bound m 2 ltac:(lia)); lia). lia. }
    set (z := ztab m (cdft true m (zn c0 f))). assert (Lz : zlen z = m) by (unfold z; zl; lia).
    eexists; eexists; split; [reflexivity|]. split; [unfold rready; cbn [substate tmpbuf super_twiddles]; splits; auto|].
    assert (La : zlen (as_real z) = 2 * m) by (rewrite as_real_len; lia).
    splits.
    + rewrite zlen_app, La, zlen_skipn. lia.
    + intros t Ht. rewrite zn_app, La. destruct (Z.ltb_spec t (2 * m)); [lia|]. rewrite zn_skipn by lia. f_equal. lia.
    + intros t Ht. rewrite zn_app, La. destruct (Z.ltb_spec t (2 * m)); [|lia].
      pose proof (Z.div_mod t 2 ltac:(lia)) as D. pose proof (Z.mod_pos_bound t 2 ltac:(lia)) as B.
      set (j := t / 2) in *. assert (Hj : 0 <= j < m) by lia.
      assert (t mod 2 = 0 \/ t mod 2 = 1) as [Em|Em] by lia; rewrite Em in D.
      * rewrite D. replace (2 * j + 0) with (2 * j) by lia. rewrite as_real_even by lia. unfold z. rewrite zn_ztab by lia. now rewrite V.
      * rewrite D. rewrite as_real_odd by lia. unfold z. rewrite zn_ztab by lia. now rewrite V.
Qed.

Lemma fftreal_inverse_ok m o ri ii ro :
  1 <= m <= 2 ^ 30 -> r_ready m o -> m + 1 <= zlen ri -> m + 1 <= zlen ii -> 2 * m <= zlen ro ->
  exists o' ro', fftreal_inverse o ri ii ro = OK (o', ro') /\ r_ready m o' /\ zlen ro' = zlen ro /\
    (forall t, 2 * m <= t -> zn 0%R ro' t = zn 0%R ro t) /\
    (forall t, 0 <= t < 2 * m -> zn 0%R ro' t =
       (fst (cdft true (2 * m) (herm m (fun k => (zn 0%R ri k, zn 0%R ii k))) t) / IZR (2 * m))%R).
Proof.
  intros Hm (R1 & R2 & R3 & R4) L1 L2 L3. unfold fftreal_inverse. rewrite R1, half_2m.
  rewrite (for_up_tab (A := cplx) (m + 1) _ (fun k => (zn 0%R ri k, zn 0%R ii k))).
  2:{ split; [lia|]. transitivity (2 * m); [lia|]. apply Z.eq_le_incl. symmetry. exact R4. }
  2:{ intros i s Hi Ls _ _. rewrite !(aget_OK 0%R) by lia. ret. ret. reflexivity. }
  ret. set (c := @ztab cplx (m + 1) _ ++ _).
  assert (Lc : zlen c = 2 * m) by (unfold c; zl; lia).
  destruct (kiss_fftri_ok m (r_plani o) c ro) as (pi & x & E & Rp & Lx & H1 & H2); auto; try lia.
  rewrite E. ret.
  assert (Hc : forall t, cdft true (2 * m) (herm m (zn c0 c)) t = cdft true (2 * m) (herm m (fun k => (zn 0%R ri k, zn 0%R ii k))) t).
  { intros t. apply cdft_ext. intros j Hj.
    assert (G : forall k, 0 <= k <= m -> zn c0 c k = (zn 0%R ri k, zn 0%R ii k)).
    { intros k Hk. unfold c. rewrite zn_app. zl. rewrite Z.max_r by lia. destruct (Z.ltb_spec k (m + 1)); [|lia]. now rewrite zn_ztab by lia. }
    unfold herm. rewrite !G by lia.
    destruct (j =? 0); [reflexivity|]. destruct (Z.eqb_spec j m); [reflexivity|]. destruct (Z.ltb_spec j m).
    - now rewrite G by lia.
    - now rewrite G by lia. }
  rewrite (for_up_tab (2 * m) _ (fun t => (zn 0 x t * (1 / IZR (2 * m)))%R)).
  2: lia.
  2:{ intros i s Hi Ls Hs _. rewrite (aget_OK 0%R) by lia. ret. now rewrite Hs by lia. }
  ret. do 2 eexists; split; [reflexivity|]. split; [unfold r_ready; cbn [r_n r_planf r_plani r_c]; splits; auto|]. splits.
  - zl. lia.
  - intros t Ht. rewrite zn_app. zl. rewrite Z.max_r by lia. destruct (Z.ltb_spec t (2 * m)); [lia|].
    rewrite zn_skipn by lia. replace (t - 2 * m + Z.of_nat (Z.to_nat (2 * m))) with t by lia. auto.
  - intros t Ht. rewrite zn_app. zl. rewrite Z.max_r by lia. destruct (Z.ltb_spec t (2 * m)); [|lia].
    rewrite zn_ztab by lia. rewrite H2 by lia. rewrite Hc. unfold Rdiv. ring.
Qed.
