(** FFTReal in IEEE doubles: every call returns; what it stores. *)
From Coq Require Import ZArith Lia List Bool.
From Verif.Base Require Import Imp RealOps Double Loops.
From Verif.Maths Require Import DoubleModel.
From Verif.Fft Require Import Cplx FftModel FftWork FftProofs FftGen FftGenProofs FftGenRuns FftDouble FftDoubleSpec FftRound FftrDouble FftrDoubleSpec.
Import ListNotations.
Open Scope Z_scope.

Lemma half2 m : 2 * m / 2 = m.
Proof. rewrite Z.mul_comm, Z.div_mul; lia. Qed.
Lemma half_bounds m : 1 <= m -> 0 <= m / 2 /\ 2 * (m / 2) <= m /\ m <= 2 * (m / 2) + 1.
Proof. intros. pose proof (Z.div_mod m 2 ltac:(lia)). pose proof (Z.mod_pos_bound m 2 ltac:(lia)). splits; lia. Qed.

Lemma das_cplx_ok m x : 0 <= m -> 2 * m <= zlen x ->
  das_cplx m x = OK (ztab m (fun j => (zn d0 x (2 * j), zn d0 x (2 * j + 1)))).
Proof. intros Hm L. unfold das_cplx. destruct (Z.leb_spec (2 * m) (zlen x)); [reflexivity|lia]. Qed.
Lemma das_real_len z : zlen (das_real z) = 2 * zlen z.
Proof. unfold das_real. pose proof (zlen_nonneg z). zl. lia. Qed.
Lemma das_real_even z j : 0 <= j < zlen z -> zn d0 (das_real z) (2 * j) = fst (zn dz z j).
Proof. intros Hj. unfold das_real. rewrite zn_ztab by lia. rewrite Z.mul_comm, Z.mod_mul, Z.div_mul by lia. reflexivity. Qed.
Lemma das_real_odd z j : 0 <= j < zlen z -> zn d0 (das_real z) (2 * j + 1) = snd (zn dz z j).
Proof.
  intros Hj. unfold das_real. rewrite zn_ztab by lia.
  replace (2 * j + 1) with (1 + j * 2) by lia. rewrite Z.mod_add, Z.div_add by lia. reflexivity.
Qed.

Section Runs.
  Context (dcos dsin : double -> double) (m : Z) (Hm : 1 <= m <= 2 ^ 30).
  Definition drready (inv : bool) (st : drcfg) : Prop :=
    g_alloc (dtwiddle dcos dsin) m inv = OK (dr_sub st) /\ zlen (dr_tmp st) = m /\ dr_super st = ztab (m / 2) (dsuper dcos dsin inv m).

  Lemma dfftr_alloc_ok inv junk : zlen junk = m -> exists st, dfftr_alloc dcos dsin (2 * m) inv junk = OK st /\ drready inv st.
  Proof.
    intros L. unfold dfftr_alloc. rewrite half2. destruct (g_alloc_ok (dtwiddle dcos dsin) m inv ltac:(lia)) as (facs & _ & _ & A).
    rewrite A. ret. eexists; split; [reflexivity|]. unfold drready; cbn [dr_sub dr_tmp dr_super]. splits; auto.
  Qed.
  Lemma drsub inv st : drready inv st -> p_n (dr_sub st) = m /\ p_inv (dr_sub st) = inv.
  Proof.
    intros (A & _). destruct (g_alloc_ok (dtwiddle dcos dsin) m inv ltac:(lia)) as (facs & _ & _ & A').
    rewrite A in A'. injection A' as ->. split; reflexivity.
  Qed.
  Lemma dkiss_runs inv p f k0 : g_alloc (dtwiddle dcos dsin) m inv = OK p -> zlen f = m -> zlen k0 = m ->
    exists kout, dkiss p f k0 = OK kout /\ zlen kout = m.
  Proof.
    intros A Lf Lk. destruct (g_alloc_ok (dtwiddle dcos dsin) m inv ltac:(lia)) as (facs & _ & Ch & A').
    rewrite A in A'. injection A' as ->. unfold dkiss, g_kiss_fft; cbn [p_n p_inv p_tw p_fac].
    destruct (g_work_runs d0 dhalf dadd dsub dmul dopp m inv (ztab m (dtwiddle dcos dsin inv m)) ltac:(zl; lia) ltac:(lia) ltac:(lia)
      facs m k0 0 f 0 1 1 Ch) as (F' & E & L); try lia.
    exists F'. split; [exact E|lia].
  Qed.

  (** What kiss_fftr stores in bins k and m - k. *)
  Definition f1k (t : list dc) (k : Z) : dc := dcadd (zn dz t k) (fst (zn dz t (m - k)), dopp (snd (zn dz t (m - k)))).
  Definition f2k (t : list dc) (k : Z) : dc := dcsub (zn dz t k) (fst (zn dz t (m - k)), dopp (snd (zn dz t (m - k)))).
  Definition twk (inv : bool) (t : list dc) (k : Z) : dc := dcmul (f2k t k) (dsuper dcos dsin inv m (k - 1)).
  Definition low (t : list dc) (k : Z) : dc :=
    (dhalf_of (dadd (fst (f1k t k)) (fst (twk false t k))), dhalf_of (dadd (snd (f1k t k)) (snd (twk false t k)))).
  Definition high (t : list dc) (k : Z) : dc :=
    (dhalf_of (dsub (fst (f1k t k)) (fst (twk false t k))), dhalf_of (dsub (snd (twk false t k)) (snd (f1k t k)))).
  Definition bin (t : list dc) (i : Z) (v : dc) : Prop :=
    i = 0 /\ v = (dadd (fst (zn dz t 0)) (snd (zn dz t 0)), d0) \/
    i = m /\ v = (dsub (fst (zn dz t 0)) (snd (zn dz t 0)), d0) \/
    exists k, 1 <= k <= m / 2 /\ (i = k /\ v = low t k \/ i = m - k /\ v = high t k).

  Lemma dfftr_runs st x freq : drready false st -> 2 * m <= zlen x -> m + 1 <= zlen freq ->
    exists tmp st' freq', dkiss (dr_sub st) (ztab m (fun j => (zn d0 x (2 * j), zn d0 x (2 * j + 1)))) (dr_tmp st) = OK tmp /\ zlen tmp = m /\
      dfftr st x freq = OK (st', freq') /\ drready false st' /\ zlen freq' = zlen freq /\ forall i, 0 <= i <= m -> bin tmp i (zn dz freq' i).
  Proof.
    intros R Lx Lf. pose proof R as (A & Lt & Es). destruct (drsub _ _ R) as (P1 & P2). unfold dfftr. rewrite P1, P2.
    rewrite das_cplx_ok by lia. ret.
    destruct (dkiss_runs false (dr_sub st) (ztab m (fun j => (zn d0 x (2 * j), zn d0 x (2 * j + 1)))) (dr_tmp st) A ltac:(zl; lia) Lt) as (tmp & K & Ltmp).
    exists tmp. rewrite K. ret. destruct (half_bounds m ltac:(lia)) as (H0 & H1 & H2).
    rewrite (aget_OK dz) by lia. ret. rewrite aset_OK by lia. ret. rewrite aset_OK by (zl; lia). ret.
    match goal with |- context [for_up 1 ?h ?B ?F] =>
      destruct (for_up_inv (fun k f => zlen f = zlen freq /\
        (forall i, 0 <= i <= m -> (i < k \/ m - k < i) -> bin tmp i (zn dz f i))) 1 h B F) as (f & E & I1 & I2); [lia| | |] end.
    - zl. split; [lia|]. intros i Hi [Hi'|Hi'].
      + assert (i = 0) as -> by lia. rewrite !zn_upd by (zl; lia).
        destruct (Z.eqb_spec 0 m); [lia|]. rewrite Z.eqb_refl. left. auto.
      + assert (i = m) as -> by lia. rewrite !zn_upd by (zl; lia). rewrite Z.eqb_refl. right; left. auto.
    - intros k f Hk (I1 & I2). assert (1 <= k <= m / 2) by lia.
      rewrite !(aget_OK dz) by (rewrite ?Es; zl; lia). ret. ret. ret. cbv zeta. rewrite Es, zn_ztab by lia.
      rewrite aset_OK by lia. ret. rewrite aset_OK by (zl; lia).
      eexists; split; [reflexivity|]. rewrite !zlen_upd. split; [exact I1|].
      intros i Hi Hor. rewrite !zn_upd by (rewrite ?zlen_upd; lia).
      destruct (Z.eqb_spec i (m - k)) as [->|].
      { right; right. exists k. split; [lia|]. right. split; reflexivity. }
      destruct (Z.eqb_spec i k) as [->|].
      { right; right. exists k. split; [lia|]. left. split; reflexivity. }
      apply I2; lia.
    - match goal with |- context [for_up 1 ?h ?B ?F] => replace (for_up 1 h B F) with (OK f) by (symmetry; exact E) end.
      ret. do 2 eexists; split; [reflexivity|]. split; [exact Ltmp|]. split; [reflexivity|].
      split; [unfold drready; cbn; splits; auto|]. split; [exact I1|]. intros i Hi. apply I2; [auto|lia].
  Qed.

  (** What kiss_fftri feeds to the transform. *)
  Definition tlow (c : list dc) (k : Z) : dc := dcadd (f1k c k) (twk true c k).
  Definition thigh (c : list dc) (k : Z) : dc := (fst (dcsub (f1k c k) (twk true c k)), dmul (snd (dcsub (f1k c k) (twk true c k))) dneg1).
  Definition packed (c : list dc) (i : Z) (v : dc) : Prop :=
    i = 0 /\ v = (dadd (fst (zn dz c 0)) (fst (zn dz c m)), dsub (fst (zn dz c 0)) (fst (zn dz c m))) \/
    exists k, 1 <= k <= m / 2 /\ k < m /\ (i = k /\ v = tlow c k \/ i = m - k /\ v = thigh c k).

  Lemma dfftri_runs st c x : drready true st -> m + 1 <= zlen c -> 2 * m <= zlen x ->
    exists tmp z st', zlen tmp = m /\ (forall i, 0 <= i < m -> packed c i (zn dz tmp i)) /\
      dkiss (dr_sub st) tmp (ztab m (fun j => (zn d0 x (2 * j), zn d0 x (2 * j + 1)))) = OK z /\ zlen z = m /\
      dfftri st c x = OK (st', das_real z ++ skipn (Z.to_nat (2 * m)) x) /\ drready true st'.
  Proof.
    intros R Lc Lx. pose proof R as (A & Lt & Es). destruct (drsub _ _ R) as (P1 & P2). unfold dfftri. rewrite P1, P2. cbn [negb].
    destruct (half_bounds m ltac:(lia)) as (H0 & H1 & H2).
    rewrite !(aget_OK dz) by lia. ret. ret. rewrite aset_OK by lia. ret.
    match goal with |- context [for_up 1 ?h ?B ?S] =>
      destruct (for_up_inv (fun k f => zlen f = m /\
        (forall i, 0 <= i < m -> (i < k \/ m - k < i) -> packed c i (zn dz f i))) 1 h B S) as (f & E & I1 & I2); [lia| | |] end.
    - zl. split; [lia|]. intros i Hi [Hi'|Hi']; [|lia]. assert (i = 0) as -> by lia.
      rewrite zn_upd by lia. rewrite Z.eqb_refl. left. auto.
    - intros k f Hk (I1 & I2).
      destruct (Z.eq_dec m 1) as [M1|M1]; [rewrite M1 in Hk; change (1 / 2 + 1) with 1 in Hk; lia|].
      rewrite !(aget_OK dz) by (rewrite ?Es; zl; lia). ret. ret. ret. cbv zeta. rewrite Es, zn_ztab by lia.
      rewrite aset_OK by lia. ret. rewrite aset_OK by (zl; lia).
      eexists; split; [reflexivity|]. rewrite !zlen_upd. split; [exact I1|].
      intros i Hi Hor. rewrite !zn_upd by (rewrite ?zlen_upd; lia).
      destruct (Z.eqb_spec i (m - k)) as [->|].
      { right. exists k. split; [lia|]. split; [lia|]. right. split; reflexivity. }
      destruct (Z.eqb_spec i k) as [->|].
      { right. exists k. split; [lia|]. split; [lia|]. left. split; reflexivity. }
      apply I2; lia.
    - match goal with |- context [for_up 1 ?h ?B ?S] => replace (for_up 1 h B S) with (OK f) by (symmetry; exact E) end.
      ret. rewrite das_cplx_ok by lia. ret.
      destruct (dkiss_runs true (dr_sub st) f (ztab m (fun j => (zn d0 x (2 * j), zn d0 x (2 * j + 1)))) A I1 ltac:(zl; lia)) as (z & K & Lz).
      exists f, z. rewrite K. ret. eexists. split; [exact I1|]. split; [intros i Hi; apply I2; [auto|lia]|]. split; [reflexivity|].
      split; [exact Lz|]. split; [reflexivity|]. unfold drready; cbn [dr_sub dr_tmp dr_super]. splits; auto.
  Qed.

  (** *** The object *)
  Definition dready (o : dfftreal) : Prop := dr_n o = 2 * m /\ drready false (dr_planf o) /\ drready true (dr_plani o) /\ zlen (dr_c o) = 2 * m.

  Lemma dnew_ready j1 j2 jc : zlen j1 = m -> zlen j2 = m -> zlen jc = 2 * m ->
    exists o, dfftreal_new dcos dsin (2 * m) j1 j2 jc = OK o /\ dready o.
  Proof.
    intros L1 L2 Lc. unfold dfftreal_new.
    replace (2 * m mod 2) with 0 by (rewrite Z.mul_comm, Z.mod_mul; lia). cbn [Z.eqb negb].
    destruct (dfftr_alloc_ok false j1 L1) as (f & Ef & Rf). destruct (dfftr_alloc_ok true j2 L2) as (i & Ei & Ri).
    rewrite Ef, Ei. ret. ret. eexists; split; [reflexivity|]. unfold dready; cbn [dr_n dr_planf dr_plani dr_c]. splits; auto.
  Qed.

  (** Bin k of the output. *)
  Definition obin (t : list dc) (k : Z) (v : dc) : Prop :=
    k <= m /\ bin t k v \/ m < k /\ exists w, bin t (2 * m - k) w /\ v = (fst w, dopp (snd w)).

  Lemma dforward_runs o ri ro io : dready o -> 2 * m <= zlen ri -> 2 * m <= zlen ro -> 2 * m <= zlen io ->
    exists tmp o' ro' io',
      dkiss (dr_sub (dr_planf o)) (ztab m (fun j => (zn d0 ri (2 * j), zn d0 ri (2 * j + 1)))) (dr_tmp (dr_planf o)) = OK tmp /\ zlen tmp = m /\
      dfftreal_forward o ri ro io = OK (o', ro', io') /\ dready o' /\ zlen ro' = zlen ro /\ zlen io' = zlen io /\
      (forall k, 2 * m <= k -> zn d0 ro' k = zn d0 ro k /\ zn d0 io' k = zn d0 io k) /\
      (forall k, 0 <= k < 2 * m -> obin tmp k (zn d0 ro' k, zn d0 io' k)).
  Proof.
    intros (R1 & R2 & R3 & R4) L1 L2 L3. unfold dfftreal_forward. rewrite R1, half2.
    destruct (dfftr_runs (dr_planf o) ri (dr_c o) R2 L1 ltac:(lia)) as (tmp & pf & c & K & Lt & E & Rf & Lc & Hc).
    exists tmp. rewrite E. ret. clear E.
    rewrite (for_up_out2 (m + 1) (aget c) (zn dz c) fst snd); try lia.
    2:{ intros i Hi. now rewrite (aget_OK dz) by lia. }
    ret.
    match goal with |- context [for_up 0 (m - 1) ?B ?S0] =>
      destruct (for_up_inv (fun i (x : list double * list double) => let '(a, b) := x in
         zlen a = zlen ro /\ zlen b = zlen io /\
         (forall k, 2 * m <= k -> zn d0 a k = zn d0 ro k /\ zn d0 b k = zn d0 io k) /\
         (forall k, 0 <= k < 2 * m -> (k <= m \/ 2 * m - i <= k) -> obin tmp k (zn d0 a k, zn d0 b k))) 0 (m - 1) B S0)
        as ((a & b) & E & I1 & I2 & I3 & I4); [lia| | |] end.
    - splits.
      + zl; lia.
      + zl; lia.
      + intros k Hk. rewrite !zn_app. zl. rewrite !Z.max_r by lia. destruct (Z.ltb_spec k (m + 1)); [lia|].
        rewrite !zn_skipn by lia. split; f_equal; lia.
      + intros k Hk [Hk'|Hk']; [|lia]. rewrite !zn_app. zl. rewrite !Z.max_r by lia.
        destruct (Z.ltb_spec k (m + 1)); [|lia]. rewrite !zn_ztab by lia. left. split; [lia|].
        rewrite <- surjective_pairing. apply Hc. lia.
    - intros i (a & b) Hi (I1 & I2 & I3 & I4).
      rewrite (aget_OK d0) by lia. ret. rewrite aset_OK by lia. ret. rewrite (aget_OK d0) by lia. ret.
      rewrite aset_OK by lia. ret. eexists; split; [reflexivity|]. cbv beta iota. splits; try (zl; lia).
      + intros k Hk. rewrite !zn_upd by (zl; lia). destruct (Z.eqb_spec k (2 * m - i - 1)); [lia|]. apply I3; lia.
      + intros k Hk Hor. rewrite !zn_upd by (zl; lia). destruct (Z.eqb_spec k (2 * m - i - 1)) as [->|Ne]; [|apply I4; lia].
        right. split; [lia|]. exists (zn d0 a (i + 1), zn d0 b (i + 1)). split; [|reflexivity].
        replace (2 * m - (2 * m - i - 1)) with (i + 1) by lia. destruct (I4 (i + 1) ltac:(lia) ltac:(lia)) as [[_ Q]|[Q _]]; [exact Q|lia].
    - match goal with |- context [for_up 0 (m - 1) ?B ?S] => replace (for_up 0 (m - 1) B S) with (OK (a, b)) by (symmetry; exact E) end.
      ret. do 3 eexists; split; [exact K|]. split; [exact Lt|]. split; [reflexivity|]. splits; auto.
      + unfold dready; cbn [dr_n dr_planf dr_plani dr_c]. splits; auto; lia.
      + intros k Hk. apply I4; [auto|lia].
  Qed.

  Lemma dmagnitude_runs o ri mo jio : dready o -> 2 * m <= zlen ri -> 2 * m <= zlen mo -> zlen jio = 2 * m ->
    exists o' ro io, dfftreal_forward o ri mo jio = OK (o', ro, io) /\ dready o' /\ zlen ro = zlen mo /\
      dfftreal_magnitude o ri mo jio = OK (o', ztab (2 * m) (fun k => dsqrt (dadd (dmul (zn d0 ro k) (zn d0 ro k)) (dmul (zn d0 io k) (zn d0 io k))))
        ++ skipn (Z.to_nat (2 * m)) ro).
  Proof.
    intros Ho L1 L2 L3. unfold dfftreal_magnitude.
    destruct (dforward_runs o ri mo jio Ho) as (tmp & o' & ro & io & _ & _ & E & Ro & Lr & Li & _); try lia.
    exists o', ro, io. rewrite E. ret. split; [reflexivity|]. split; [exact Ro|]. split; [exact Lr|]. destruct Ro as (R1 & _). rewrite R1.
    rewrite (for_up_tab (2 * m) _ (fun k => dsqrt (dadd (dmul (zn d0 ro k) (zn d0 ro k)) (dmul (zn d0 io k) (zn d0 io k))))).
    2: lia.
    2:{ intros i s Hi Ls Hs _. rewrite (aget_OK d0) by lia. ret. rewrite (aget_OK d0) by lia. ret. now rewrite Hs by lia. }
    ret. reflexivity.
  Qed.

  Lemma dinverse_runs o ri ii ro : dready o -> m < zlen ri -> m < zlen ii -> 2 * m <= zlen ro ->
    exists c tmp z o', (forall k, 0 <= k <= m -> zn dz c k = (zn d0 ri k, zn d0 ii k)) /\ zlen tmp = m /\ (forall i, 0 <= i < m -> packed c i (zn dz tmp i)) /\
      dkiss (dr_sub (dr_plani o)) tmp (ztab m (fun j => (zn d0 ro (2 * j), zn d0 ro (2 * j + 1)))) = OK z /\ zlen z = m /\
      dfftreal_inverse o ri ii ro = OK (o', ztab (2 * m) (fun i => dmul (zn d0 (das_real z) i) (dscale (2 * m))) ++ skipn (Z.to_nat (2 * m)) ro) /\ dready o'.
  Proof.
    intros (R1 & R2 & R3 & R4) L1 L2 L3. unfold dfftreal_inverse. rewrite R1, half2.
    rewrite (for_up_tab (A := dc) (m + 1) _ (fun k => (zn d0 ri k, zn d0 ii k))); [|lia|].
    2:{ intros i s Hi Ls _ _. rewrite !(aget_OK d0) by lia. ret. ret. reflexivity. }
    ret. set (c := ztab (m + 1) _ ++ _). assert (Lc : zlen c = 2 * m) by (unfold c; zl; lia).
    assert (Vc : forall k, 0 <= k <= m -> zn dz c k = (zn d0 ri k, zn d0 ii k)).
    { intros k Hk. unfold c. rewrite zn_app. zl. rewrite Z.max_r by lia. destruct (Z.ltb_spec k (m + 1)); [|lia]. now rewrite zn_ztab by lia. }
    destruct (dfftri_runs (dr_plani o) c ro R3 ltac:(lia) L3) as (tmp & z & st' & Lt & P & K & Lz & E & Rs).
    exists c, tmp, z. rewrite E. ret.
    assert (La : zlen (das_real z) = 2 * m) by (rewrite das_real_len; lia).
    rewrite (for_up_tab (2 * m) _ (fun i => dmul (zn d0 (das_real z) i) (dscale (2 * m)))).
    2:{ rewrite zlen_app, La, zlen_skipn. lia. }
    2:{ intros i s Hi Ls Hs _. rewrite zlen_app, La, zlen_skipn in Ls. rewrite (aget_OK d0) by lia. ret. rewrite Hs by lia. rewrite zn_app, La.
        destruct (Z.ltb_spec i (2 * m)); [reflexivity|lia]. }
    ret. eexists. split; [exact Vc|]. split; [exact Lt|]. split; [exact P|]. split; [exact K|]. split; [exact Lz|]. split.
    - f_equal. f_equal. f_equal. replace (Z.to_nat (2 * m)) with (length (das_real z)) at 1 by (unfold zlen in La; lia).
      rewrite skipn_app, Nat.sub_diag, skipn_all. reflexivity.
    - unfold dready; cbn [dr_n dr_planf dr_plani dr_c]. splits; auto.
  Qed.

  Lemma real_in_use_ready o : real_in_use dcos dsin (2 * m) o -> dready o.
  Proof.
    induction 1 as [j1 j2 jc o L1 L2 L3 E|o o' ri ro io ro' io' _ IH L1 L2 L3 E|o o' ri mo jio mo' _ IH L1 L2 L3 E|o o' ri ii ro ro' _ IH L1 L2 L3 E].
    - rewrite half2 in *. destruct (dnew_ready j1 j2 jc L1 L2 L3) as (o' & E' & R). rewrite E in E'. injection E' as <-. exact R.
    - destruct (dforward_runs o ri ro io IH L1 L2 L3) as (tmp & o2 & r2 & i2 & _ & _ & E' & R & _). rewrite E in E'. injection E' as -> _ _. exact R.
    - destruct (dmagnitude_runs o ri mo jio IH L1 L2 L3) as (o2 & r2 & i2 & _ & R & _ & E'). rewrite E in E'. injection E' as -> _. exact R.
    - rewrite half2 in *. destruct (dinverse_runs o ri ii ro IH L1 L2 L3) as (c & tmp & z & o2 & _ & _ & _ & _ & _ & E' & R). rewrite E in E'. injection E' as -> _. exact R.
  Qed.
End Runs.
