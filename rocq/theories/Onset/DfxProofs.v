(** DFProcess with infinities and NaN. *)
From Coq Require Import List ZArith Reals Lia Lra Bool.
From Verif.Base Require Import Imp Sums RealOps Loops Xreal Images.
From Verif.Signal Require Import FilterModel FilterSpec FilterProofs FiltFiltModel FiltFiltSpec FiltFiltProofs FilterImage.
From Verif.Maths Require Import MedianSpec RealModel RealSpec RealProofs NormModel NormSpec NormProofs.
From Verif.Onset Require Import PeakModel PeakSpec PeakProofs DfResults DfxModel.
Import ListNotations.
Open Scope Z_scope.

(** *** On finite values: PeakModel *)
Definition lift (o : dfp) : dfx :=
  {| dx_length := df_length o; dx_pre := df_pre o; dx_post := df_post o; dx_alpha := df_alpha o; dx_positive := df_positive o; dx_delta := df_delta o;
     dx_src := map Fin (df_src o); dx_dst := map Fin (df_dst o); dx_filter := filtfilt_image Fin (df_filter o) |}.

Lemma xinsert_fin x l : xinsert (Fin x) (map Fin l) = map Fin (insert_ x l).
Proof. induction l as [|y l IH]; cbn; [reflexivity|]. destruct (Rltb y x); cbn; [now rewrite IH|reflexivity]. Qed.
Lemma xsort_fin l : xsort (map Fin l) = OK (map Fin (sort_ l)).
Proof.
  unfold xsort. destruct l as [|x l]; [reflexivity|]. cbn [map forallb is_nan andb].
  replace (existsb is_nan (Fin x :: map Fin l)) with false.
  - f_equal. change (Fin x :: map Fin l) with (map Fin (x :: l)). unfold sort_. generalize (x :: l). clear. intros l. induction l as [|y l IH]; cbn; [reflexivity|]. rewrite IH. apply xinsert_fin.
  - symmetry. cbn. clear. induction l; cbn; auto.
Qed.
Lemma xmedian_fin y k : xmedian (map Fin y) k = rmap Fin (median_ y k).
Proof.
  unfold xmedian, median_. destruct (k =? 0); [reflexivity|].
  rewrite (for_up_image (map Fin) 0 k (fun i s => v <- aget y i ;; OK (s ++ [v])) _ [] []); [|reflexivity|].
  - apply bind_rmap. intros s. rewrite xsort_fin. cbn [bind]. destruct (Z.rem k 2 =? 0); [|apply aget_map].
    rewrite !aget_map. apply bind_rmap. intros u. apply bind_rmap. intros v. cbn. destruct (Reqb_spec 2 0); [lra|reflexivity].
  - intros i s Hi. rewrite aget_map. apply bind_rmap. intros v. cbn. now rewrite map_app.
Qed.

(** The median filter in two parts. *)
Definition medians (L P Q : Z) (scratch src : list R) : res (list R) :=
  '(index, scratch, y) <- for_up 0 P (fun i '(index, scratch, y) =>
    if L <=? index then OK (index, scratch, y) else
    let k := i + Q + 1 in
    y <- for_up 0 k (fun j y => v <- aget src j ;; aset y j v) y ;;
    m <- median_ y k ;;
    scratch <- aset scratch index m ;;
    OK (index + 1, scratch, y)) (0, scratch, repeat 0%R (Z.to_nat (Q + P + 1))) ;;
  '(index, scratch, y) <- for_up 0 (L - Q - P) (fun i '(index, scratch, y) =>
    if L <=? index then OK (index, scratch, y) else
    '(_, y) <- for_up i (i + Q + P + 1) (fun j '(l, y) => v <- aget src j ;; y <- aset y l v ;; OK (l + 1, y)) (0, y) ;;
    m <- median_ y (Q + P + 1) ;;
    scratch <- aset scratch index m ;;
    OK (index + 1, scratch, y)) (index, scratch, y) ;;
  '(_, scratch, _) <- for_up (Z.max (L - Q) 1) L (fun i '(index, scratch, y) =>
    if L <=? index then OK (index, scratch, y) else
    let k := Z.max (i - P) 1 in
    '(l, y) <- for_up k L (fun j '(l, y) => v <- aget src j ;; y <- aset y l v ;; OK (l + 1, y)) (0, y) ;;
    m <- median_ y l ;;
    scratch <- aset scratch index m ;;
    OK (index + 1, scratch, y)) (index, scratch, y) ;;
  OK scratch.
Definition mediansx (L P Q : Z) (scratch src : list xr) : res (list xr) :=
  '(index, scratch, y) <- for_up 0 P (fun i '(index, scratch, y) =>
    if L <=? index then OK (index, scratch, y) else
    let k := i + Q + 1 in
    y <- for_up 0 k (fun j y => v <- aget src j ;; aset y j v) y ;;
    m <- xmedian y k ;;
    scratch <- aset scratch index m ;;
    OK (index + 1, scratch, y)) (0, scratch, repeat (Fin 0) (Z.to_nat (Q + P + 1))) ;;
  '(index, scratch, y) <- for_up 0 (L - Q - P) (fun i '(index, scratch, y) =>
    if L <=? index then OK (index, scratch, y) else
    '(_, y) <- for_up i (i + Q + P + 1) (fun j '(l, y) => v <- aget src j ;; y <- aset y l v ;; OK (l + 1, y)) (0, y) ;;
    m <- xmedian y (Q + P + 1) ;;
    scratch <- aset scratch index m ;;
    OK (index + 1, scratch, y)) (index, scratch, y) ;;
  '(_, scratch, _) <- for_up (Z.max (L - Q) 1) L (fun i '(index, scratch, y) =>
    if L <=? index then OK (index, scratch, y) else
    let k := Z.max (i - P) 1 in
    '(l, y) <- for_up k L (fun j '(l, y) => v <- aget src j ;; y <- aset y l v ;; OK (l + 1, y)) (0, y) ;;
    m <- xmedian y l ;;
    scratch <- aset scratch index m ;;
    OK (index + 1, scratch, y)) (index, scratch, y) ;;
  OK scratch.
Definition lastx (o : dfx) (src scratch dst : list xr) : res (list xr) :=
  for_up 0 (dx_length o) (fun i dst =>
    v <- aget src i ;; s <- aget scratch i ;;
    let val := xsub (xsub v s) (Fin (dx_delta o)) in
    if dx_positive o then aset dst i (if xlt (Fin 0) val then val else Fin 0) else aset dst i val) dst.
Definition last_ (o : dfp) (src scratch dst : list R) : res (list R) :=
  for_up 0 (df_length o) (fun i dst =>
    v <- aget src i ;; s <- aget scratch i ;;
    let val := (v - s - df_delta o)%R in
    if df_positive o then aset dst i (if Rltb 0 val then val else 0%R) else aset dst i val) dst.

Lemma median_filterx_parts o scratch src dst : median_filterx o scratch src dst = (s <- mediansx (dx_length o) (dx_pre o) (dx_post o) scratch src ;; lastx o src s dst).
Proof.
  unfold median_filterx, mediansx. cbv zeta. rewrite bind_assoc. apply bind_ext. intros ((ix & sc) & y1) _. rewrite bind_assoc. apply bind_ext. intros ((ix2 & sc2) & y2) _.
  rewrite bind_assoc. apply bind_ext. intros ((ix3 & sc3) & y3) _. reflexivity.
Qed.
Lemma median_filter_parts o scratch src dst : median_filter o scratch src dst = (s <- medians (df_length o) (df_pre o) (df_post o) scratch src ;; last_ o src s dst).
Proof.
  unfold median_filter, medians. cbv zeta. rewrite bind_assoc. apply bind_ext. intros ((ix & sc) & y1) _. rewrite bind_assoc. apply bind_ext. intros ((ix2 & sc2) & y2) _.
  rewrite bind_assoc. apply bind_ext. intros ((ix3 & sc3) & y3) _. reflexivity.
Qed.

Lemma mediansx_fin L P Q scratch src : mediansx L P Q (map Fin scratch) (map Fin src) = rmap (map Fin) (medians L P Q scratch src).
Proof.
  pose (h2 := fun p : Z * list R => (fst p, map Fin (snd p))).
  pose (h3 := fun p : Z * list R * list R => (fst (fst p), map Fin (snd (fst p)), map Fin (snd p))).
  assert (Cp : forall a b y, for_up a b (fun j '(l, y) => v <- aget (map Fin src) j ;; y <- aset y l v ;; OK (l + 1, y)) (0, map Fin y)
    = rmap h2 (for_up a b (fun j '(l, y) => v <- aget src j ;; y <- aset y l v ;; OK (l + 1, y)) (0, y))).
  { intros a b y. apply for_up_image; [reflexivity|]. intros i (l & z) Hi. unfold h2 at 1. cbn [fst snd]. rewrite aget_map. apply bind_rmap. intros v. rewrite aset_map. apply bind_rmap. reflexivity. }
  unfold mediansx, medians.
  erewrite (for_up_image h3 0 P).
  2:{ instantiate (1 := (0, scratch, repeat 0%R (Z.to_nat (Q + P + 1)))). unfold h3. cbn [fst snd]. now rewrite map_repeat_zero. }
  2:{ intros i ((ix & sc) & y) Hi. unfold h3 at 1. cbn [fst snd].
      instantiate (1 := fun i '(index, scratch, y) =>
        if L <=? index then OK (index, scratch, y) else
        y <- for_up 0 (i + Q + 1) (fun j y => v <- aget src j ;; aset y j v) y ;;
        m <- median_ y (i + Q + 1) ;;
        scratch <- aset scratch index m ;;
        OK (index + 1, scratch, y)). cbv beta iota zeta.
      destruct (L <=? ix); [reflexivity|].
      rewrite (for_up_image (map Fin) 0 (i + Q + 1) (fun j y => v <- aget src j ;; aset y j v) _ y (map Fin y)); [|reflexivity|].
      2:{ intros j z Hj. rewrite aget_map. apply bind_rmap. intros v. apply aset_map. }
      apply bind_rmap. intros y'. rewrite xmedian_fin. apply bind_rmap. intros m. rewrite aset_map. apply bind_rmap. reflexivity. }
  apply bind_rmap. intros ((ix & sc) & y). unfold h3 at 1. cbn [fst snd].
  erewrite (for_up_image h3 0 (L - Q - P)).
  2:{ instantiate (1 := (ix, sc, y)). reflexivity. }
  2:{ intros i ((jx & sd) & z) Hi. unfold h3 at 1. cbn [fst snd].
      instantiate (1 := fun i '(index, scratch, y) =>
        if L <=? index then OK (index, scratch, y) else
        '(_, y) <- for_up i (i + Q + P + 1) (fun j '(l, y) => v <- aget src j ;; y <- aset y l v ;; OK (l + 1, y)) (0, y) ;;
        m <- median_ y (Q + P + 1) ;;
        scratch <- aset scratch index m ;;
        OK (index + 1, scratch, y)). cbv beta iota zeta.
      destruct (L <=? jx); [reflexivity|]. rewrite Cp. apply bind_rmap. intros (l & y'). unfold h2. cbn [fst snd].
      rewrite xmedian_fin. apply bind_rmap. intros m. rewrite aset_map. apply bind_rmap. reflexivity. }
  apply bind_rmap. clear ix sc y. intros ((ix & sc) & y). unfold h3 at 1. cbn [fst snd].
  erewrite (for_up_image h3 (Z.max (L - Q) 1) L).
  2:{ instantiate (1 := (ix, sc, y)). reflexivity. }
  2:{ intros i ((jx & sd) & z) Hi. unfold h3 at 1. cbn [fst snd].
      instantiate (1 := fun i '(index, scratch, y) =>
        if L <=? index then OK (index, scratch, y) else
        '(l, y) <- for_up (Z.max (i - P) 1) L (fun j '(l, y) => v <- aget src j ;; y <- aset y l v ;; OK (l + 1, y)) (0, y) ;;
        m <- median_ y l ;;
        scratch <- aset scratch index m ;;
        OK (index + 1, scratch, y)). cbv beta iota zeta.
      destruct (L <=? jx); [reflexivity|]. rewrite Cp. apply bind_rmap. intros (l & y'). unfold h2. cbn [fst snd].
      rewrite xmedian_fin. apply bind_rmap. intros m. rewrite aset_map. apply bind_rmap. reflexivity. }
  apply bind_rmap. clear ix sc y. intros ((ix & sc) & y). reflexivity.
Qed.

(** A loop that follows another. *)
Lemma for_up_follow {A B} (P : Z -> A -> B -> Prop) lo hi f f' s s' r : lo <= hi -> P lo s s' ->
  (forall i a b a', lo <= i < hi -> P i a b -> f i a = OK a' -> exists b', f' i b = OK b' /\ P (i + 1) a' b') ->
  for_up lo hi f s = OK r -> exists r', for_up lo hi f' s' = OK r' /\ P hi r r'.
Proof.
  intros Hle H0. revert r. pattern hi. apply (Zlt_lower_bound_ind _ lo); [|exact Hle]. clear hi Hle. intros hi IH Hle r Hst.
  destruct (Z.eq_dec lo hi) as [<- |Hn]. { rewrite !for_up_empty by lia. intros R. injection R as <-. eauto. }
  replace hi with ((hi - 1) + 1) by lia. rewrite !for_up_last by lia.
  destruct (for_up lo (hi - 1) f s) as [m| | |] eqn:E; cbn [bind]; try discriminate. intros R.
  destruct (IH (hi - 1) ltac:(lia) m) as (m' & -> & Hm); auto. { intros; eapply Hst; eauto; lia. }
  cbn [bind]. apply (Hst (hi - 1) m m' r); auto; lia.
Qed.

Lemma lastx_fin o src scratch d0 dst ys : 0 <= df_length o -> zlen d0 = df_length o -> df_length o <= zlen dst -> last_ o src scratch d0 = OK ys ->
  lastx (lift o) (map Fin src) (map Fin scratch) dst = OK (map Fin ys ++ skipn (Z.to_nat (df_length o)) dst).
Proof.
  intros Hn Ld Lt E. unfold lastx. cbn [lift dx_length dx_delta dx_positive].
  destruct (for_up_follow (fun i d x => zlen d = df_length o /\ zlen x = zlen dst /\ (forall j, 0 <= j < i -> zn NaN x j = Fin (zn 0%R d j)) /\ forall j, i <= j < zlen dst -> zn NaN x j = zn NaN dst j)
    0 (df_length o) (fun i dst => v <- aget src i ;; s <- aget scratch i ;; let val := (v - s - df_delta o)%R in
      if df_positive o then aset dst i (if Rltb 0 val then val else 0%R) else aset dst i val) (fun i dst => v <- aget (map Fin src) i ;; s <- aget (map Fin scratch) i ;; let val := xsub (xsub v s) (Fin (df_delta o)) in
      if df_positive o then aset dst i (if xlt (Fin 0) val then val else Fin 0) else aset dst i val) d0 dst ys Hn) with (3 := E) as (r & Er & L1 & L2 & V1 & V2).
  - splits; auto. intros; lia.
  - intros i d x d' Hi (L1 & L2 & V1 & V2). rewrite !aget_map. destruct (aget src i) as [v| | |]; cbn [bind rmap]; try discriminate.
    destruct (aget scratch i) as [u| | |]; cbn [bind rmap]; try discriminate. cbv zeta.
    assert (G : forall w, aset d i w = OK d' -> exists b', aset x i (Fin w) = OK b' /\ zlen d' = df_length o /\ zlen b' = zlen dst /\
      (forall j, 0 <= j < i + 1 -> zn NaN b' j = Fin (zn 0%R d' j)) /\ forall j, i + 1 <= j < zlen dst -> zn NaN b' j = zn NaN dst j).
    { intros w. rewrite !aset_OK by lia. intros R. injection R as <-. eexists; split; [reflexivity|]. splits; try (zl; lia).
      - intros j Hj. rewrite !zn_upd by lia. destruct (j =? i) eqn:Q; auto. apply V1. lia.
      - intros j Hj. rewrite zn_upd by lia. destruct (Z.eqb_spec j i); [lia|]. apply V2. lia. }
    change (xsub (xsub (Fin v) (Fin u)) (Fin (df_delta o))) with (Fin (v - u - df_delta o)).
    destruct (df_positive o); [|apply G]. cbn [xlt]. destruct (Rltb 0 (v - u - df_delta o)); apply G.
  - etransitivity; [exact Er|]. f_equal. apply (zn_ext NaN); [zl; lia|]. intros j Hj. rewrite zn_app. zl. rewrite L1. destruct (Z.ltb_spec j (df_length o)).
    + rewrite V1 by lia. symmetry. apply zn_map. lia.
    + rewrite V2 by lia. rewrite zn_skipn by lia. f_equal. lia.
Qed.

Lemma filtfilt_fin ff src dst n : filtfilt_process (Fin 0) (Fin 2) xadd xsub xmul (filtfilt_image Fin ff) (map Fin src) (map Fin dst) n
  = rmap (fun p => (filtfilt_image Fin (fst p), map Fin (snd p))) (filtfilt_process 0%R 2%R Rplus Rminus Rmult ff src dst n).
Proof. apply filtfilt_process_image; reflexivity. Qed.

Lemma new_fin n a b pre post alpha positive delta junk : dfx_new n a b pre post alpha positive delta junk = rmap lift (dfp_new n a b pre post alpha positive delta junk).
Proof.
  unfold dfx_new, dfp_new. rewrite (filtfilt_new_image 0%R (Fin 0) Fin) by reflexivity. apply bind_rmap. intros f. cbn [rmap]. unfold lift.
  cbn [df_length df_pre df_post df_alpha df_positive df_delta df_src df_dst df_filter]. unfold ztab. rewrite !map_map. reflexivity.
Qed.

Lemma remove_fin n alpha src dst d : remove_dc_normalize n alpha src dst = OK d -> remove_dcx n alpha src (map Fin dst) = OK (map Fin d).
Proof.
  unfold remove_dc_normalize, remove_dcx. destruct (getFrameMinMax src n) as [(mn & mx)| | |]; cbn [bind]; try discriminate.
  destruct (getAlphaNorm src n alpha) as [N| | |]; cbn [bind]; try discriminate. destruct (Reqb_spec N 0) as [Z0|N0]; [discriminate|]. intros E.
  rewrite (for_up_image (map Fin) 0 n (fun i dst => v <- aget src i ;; aset dst i ((v - mn) / N)%R) _ dst (map Fin dst)); [now rewrite E|reflexivity|].
  intros i s Hi. apply bind_same. intros v. cbn. destruct (Reqb_spec N 0); [contradiction|]. apply aset_map.
Qed.

(** A call that PeakModel describes. *)
Theorem dfx_finite o scratch src d0 dst o' ys : 1 <= df_length o -> zlen d0 = df_length o -> df_length o <= zlen dst ->
  dfp_process o scratch src d0 = OK (o', ys) ->
  dfx_process (lift o) scratch src dst = OK (lift o', map Fin ys ++ skipn (Z.to_nat (df_length o)) dst).
Proof.
  intros Hn Ld Lt. unfold dfp_process, dfx_process. cbn [lift dx_length dx_alpha dx_src dx_dst dx_filter dx_pre dx_post dx_positive dx_delta].
  destruct (Z.eqb_spec (df_length o) 0); [lia|].
  destruct (remove_dc_normalize (df_length o) (df_alpha o) src (df_src o)) as [d| | |] eqn:Er; cbn [bind]; try discriminate.
  rewrite (remove_fin _ _ _ _ _ Er). cbn [bind]. rewrite filtfilt_fin.
  destruct (filtfilt_process 0%R 2%R Rplus Rminus Rmult (df_filter o) d (df_dst o) (df_length o)) as [(f & fd)| | |]; cbn [bind rmap fst snd]; try discriminate.
  rewrite median_filter_parts. fold (lift o). rewrite median_filterx_parts. cbn [lift dx_length dx_pre dx_post]. rewrite mediansx_fin.
  destruct (medians (df_length o) (df_pre o) (df_post o) scratch fd) as [sc| | |]; cbn [bind rmap]; try discriminate. fold (lift o).
  destruct (last_ o fd sc d0) as [y| | |] eqn:El; cbn [bind]; try discriminate. intros R. injection R as <- <-.
  rewrite (lastx_fin o fd sc d0 dst y) by (auto; lia). cbn [bind]. reflexivity.
Qed.

(** *** NaN *)
Notation Xn := (zn (Fin 0)).
Lemma xmedian_nan y k : 1 <= k <= zlen y -> (forall j, 0 <= j < k -> Xn y j = NaN) -> xmedian y k = OK NaN.
Proof.
  intros Hk Hy. unfold xmedian. destruct (Z.eqb_spec k 0); [lia|].
  destruct (for_up_inv (fun i s => s = repeat NaN (Z.to_nat i)) 0 k (fun i s => v <- aget y i ;; OK (s ++ [v])) []) as (s & -> & ->); [lia|reflexivity| |].
  { intros i s Hi ->. rewrite (aget_OK (Fin 0)) by lia. cbn [bind]. rewrite Hy by lia. eexists; split; [reflexivity|].
    replace (Z.to_nat (i + 1)) with (Z.to_nat i + 1)%nat by lia. rewrite repeat_app. reflexivity. }
  cbn [bind]. unfold xsort. replace (forallb is_nan (repeat NaN (Z.to_nat k))) with true by (symmetry; apply forallb_forall; intros x Hx; apply repeat_spec in Hx; now subst).
  cbn [bind]. pose proof (Z.quot_div_nonneg k 2 ltac:(lia) ltac:(lia)) as Q. pose proof (Z.rem_mod_nonneg k 2 ltac:(lia) ltac:(lia)) as Rm. pose proof (Z.div_mod k 2 ltac:(lia)). pose proof (Z.mod_pos_bound k 2 ltac:(lia)).
  destruct (Z.eqb_spec (Z.rem k 2) 0); rewrite ?(aget_OK NaN) by (zl; lia); cbn [bind]; rewrite ?zn_repeat; reflexivity.
Qed.

Lemma copy_front_any {T} (z : T) src y k : 0 <= k <= zlen y -> k <= zlen src ->
  exists y', for_up 0 k (fun j y => v <- aget src j ;; aset y j v) y = OK y' /\ zlen y' = zlen y /\ forall j, 0 <= j < k -> zn z y' j = zn z src j.
Proof.
  intros Hk Hs. rewrite (for_up_set k (fun j => aget src j) (zn z src)) by (auto; intros; apply aget_OK; lia).
  eexists; split; [reflexivity|]. split; [rewrite zlen_app, zlen_ztab, zlen_skipn by lia; lia|].
  intros j Hj. rewrite zn_app, zlen_ztab by lia. destruct (Z.ltb_spec j (Z.max 0 k)); [|lia]. apply zn_ztab. lia.
Qed.
Lemma copy_range_any {T} (z : T) src y a b : 0 <= a <= b -> b <= zlen src -> b - a <= zlen y ->
  exists y', for_up a b (fun j '(l, y) => v <- aget src j ;; y <- aset y l v ;; OK (l + 1, y)) (0, y) = OK (b - a, y') /\
    zlen y' = zlen y /\ forall j, 0 <= j < b - a -> zn z y' j = zn z src (a + j).
Proof.
  intros Ha Hb Hy.
  match goal with |- context [for_up a b ?B ?S] =>
    destruct (for_up_inv (fun j (s : Z * list T) => fst s = j - a /\ zlen (snd s) = zlen y /\ forall t, 0 <= t < j - a -> zn z (snd s) t = zn z src (a + t))
      a b B S) as ((l & y') & EQ & I1 & I2 & I3); [lia| | |] end.
  - cbn [fst snd]. splits; auto; intros; lia.
  - intros j (l & y') Hj (I1 & I2 & I3). cbn [fst snd] in *. subst l. rewrite (aget_OK z) by lia. cbn [bind]. rewrite aset_OK by lia. cbn [bind].
    eexists; split; [reflexivity|]. cbn [fst snd]. splits; [lia|zl; lia|]. intros t Ht. rewrite zn_upd by lia.
    destruct (Z.eqb_spec t (j - a)) as [->|]; [f_equal; lia|]. apply I3. lia.
  - cbn [fst snd] in *. subst l. exists y'. auto.
Qed.

Lemma mediansx_nan L P Q scratch : 0 <= P -> 0 <= Q -> P + Q < L -> zlen scratch = L ->
  mediansx L P Q scratch (repeat NaN (Z.to_nat L)) = OK (repeat NaN (Z.to_nat L)).
Proof.
  intros HP HQ HL Hsc. set (src := repeat NaN (Z.to_nat L)). assert (Ls : zlen src = L) by (unfold src; zl; lia).
  assert (Sn : forall j, 0 <= j < L -> Xn src j = NaN) by (intros j Hj; rewrite (zn_default (Fin 0) NaN) by lia; apply zn_repeat).
  pose (inv := fun i (s : Z * list xr * list xr) => let '(index, sc, y) := s in index = i /\ zlen sc = L /\ zlen y = P + Q + 1 /\ forall t, 0 <= t < i -> Xn sc t = NaN).
  assert (St : forall i (sc y : list xr), 0 <= i < L -> zlen sc = L -> zlen y = P + Q + 1 -> (forall t, 0 <= t < i -> Xn sc t = NaN) ->
    exists s, (sc <- aset sc i NaN ;; OK (i + 1, sc, y)) = OK s /\ inv (i + 1) s).
  { intros i sc y Hi H1 H2 H3. rewrite aset_OK by lia. cbn [bind]. eexists; split; [reflexivity|]. cbn. splits; [auto|zl; lia|auto|].
    intros t Ht. rewrite zn_upd by lia. destruct (Z.eqb_spec t i) as [->|]; [auto|]. apply H3. lia. }
  unfold mediansx.
  match goal with |- context [for_up 0 P ?B ?S] => destruct (for_up_inv inv 0 P B S) as (((ix & sc) & y) & EQ & I1 & I2 & I3 & I4); [lia| | |] end.
  { cbn. splits; auto; [zl; lia|intros; lia]. }
  { intros i ((ix & sc) & y) Hi (I1 & I2 & I3 & I4). subst ix. destruct (Z.leb_spec L i); [lia|]. cbv zeta.
    destruct (copy_front_any (Fin 0) src y (i + Q + 1)) as (y' & -> & Ly & Fy); [lia|lia|]. cbn [bind].
    rewrite xmedian_nan; [|lia|intros j Hj; rewrite Fy by lia; apply Sn; lia]. cbn [bind]. apply St; auto; lia. }
  rewrite EQ. cbn [bind]. clear EQ. subst ix.
  match goal with |- context [for_up 0 (L - Q - P) ?B ?S] => 
    destruct (for_up_inv (fun i => inv (P + i)) 0 (L - Q - P) B S) as (((ix & sc') & y') & EQ & J1 & J2 & J3 & J4); [lia| | |] end.
  { cbn. splits; auto; [lia|]. intros; apply I4; lia. }
  { clear sc y I2 I3 I4. intros i ((ix & sc) & y) Hi (I1 & I2 & I3 & I4). subst ix. destruct (Z.leb_spec L (P + i)); [lia|].
    destruct (copy_range_any (Fin 0) src y i (i + Q + P + 1)) as (y' & -> & Ly & Fy); [lia|lia|lia|]. cbn [bind].
    rewrite xmedian_nan; [|lia|intros j Hj; rewrite Fy by lia; apply Sn; lia]. cbn [bind]. rewrite Z.add_assoc. apply St; auto; lia. }
  rewrite EQ. cbn [bind]. clear EQ. subst ix. replace (P + (L - Q - P)) with (L - Q) in * by lia. replace (Z.max (L - Q) 1) with (L - Q) by lia.
  match goal with |- context [for_up (L - Q) L ?B ?S] => 
    destruct (for_up_inv inv (L - Q) L B S) as (((ix & sc'') & y'') & EQ & K1 & K2 & K3 & K4); [lia| | |] end.
  { cbn. splits; auto. }
  { clear sc y sc' y' I2 I3 I4 J2 J3 J4. intros i ((ix & sc) & y) Hi (I1 & I2 & I3 & I4). subst ix. destruct (Z.leb_spec L i); [lia|]. cbv zeta.
    replace (Z.max (i - P) 1) with (i - P) by lia.
    destruct (copy_range_any (Fin 0) src y (i - P) L) as (y' & -> & Ly & Fy); [lia|lia|lia|]. cbn [bind].
    rewrite xmedian_nan; [|lia|intros j Hj; rewrite Fy by lia; apply Sn; lia]. cbn [bind]. apply St; auto; lia. }
  rewrite EQ. cbn [bind]. f_equal. apply (all_poison (Fin 0) NaN); auto.
Qed.

(** What is written for NaN. *)
Definition blank (positive : bool) : xr := if positive then Fin 0 else NaN.
Lemma lastx_nan o dst : 0 <= dx_length o <= zlen dst ->
  lastx o (repeat NaN (Z.to_nat (dx_length o))) (repeat NaN (Z.to_nat (dx_length o))) dst = OK (repeat (blank (dx_positive o)) (Z.to_nat (dx_length o)) ++ skipn (Z.to_nat (dx_length o)) dst).
Proof.
  intros H. unfold lastx. rewrite (for_up_tab (dx_length o) _ (fun _ => blank (dx_positive o))); [|lia|].
  - f_equal. f_equal. apply (zn_ext (Fin 0)); [zl; lia|]. intros i Hi. rewrite zlen_ztab in Hi by lia. rewrite zn_ztab by lia. symmetry.
    rewrite (zn_default _ (blank (dx_positive o))) by (zl; lia). apply zn_repeat.
  - intros i x Hi Lx _ _. rewrite !(aget_OK NaN) by (zl; lia). cbn [bind]. rewrite !zn_repeat. unfold blank. cbn. destruct (dx_positive o); reflexivity.
Qed.

Section Numb.
  Variables (n pre post alpha : Z) (positive : bool) (delta : R) (a b : list R).
  Hypothesis Hlen : zlen a = zlen b.
  Hypothesis Hord : 2 <= zlen b.
  Hypothesis Hpre : 0 <= pre.
  Hypothesis Hpost : 0 <= post.
  Hypothesis Hn : pre + post < n.
  Hypothesis Hal : 1 <= alpha.

  Definition shape (x : dfx) : Prop :=
    dx_length x = n /\ dx_pre x = pre /\ dx_post x = post /\ dx_alpha x = alpha /\ dx_positive x = positive /\ dx_delta x = delta /\
    zlen (dx_src x) = n /\ zlen (dx_dst x) = n /\ ff_ord (dx_filter x) = zlen b - 1.
  (** An object whose filter has put out NaN last. *)
  Definition numb (x : dfx) : Prop := shape x /\ poisoned (Fin 0) xadd xsub xmul NaN (map Fin a) (map Fin b) (ff_filter (dx_filter x)).

  Lemma removex_ok src dst : n <= zlen src -> zlen dst = n ->
    exists d, remove_dcx n alpha src dst = OK d /\ zlen d = n /\ ((forall i, 0 <= i < n -> zn 0%R src i = 0%R) -> Xn d 0 = NaN).
  Proof.
    intros Hs Hd. unfold remove_dcx.
    destruct (minmax_spec src n ltac:(lia)) as (mn & mx & -> & Hmn & _). cbn [bind].
    destruct (alpha_norm_ok src n alpha Hal ltac:(lia)) as (N & -> & HN). cbn [bind].
    rewrite (for_up_tab n _ (fun i => xdiv (Fin (zn 0%R src i - mn)) (Fin N))); [|lia|].
    - eexists; split; [reflexivity|]. split; [zl; lia|]. intros Hz. rewrite zn_app, zlen_ztab by lia. destruct (Z.ltb_spec 0 (Z.max 0 n)); [|lia].
      rewrite zn_ztab by lia. pose proof (proj2 (mean_zero_iff n alpha (zn 0%R src) N Hal ltac:(lia) HN) Hz) as ->.
      assert (mn = 0%R) as -> by (destruct Hmn as ((j & Hj & <-) & _); apply Hz; auto).
      rewrite Hz by lia. cbn. destruct (Reqb_spec 0 0); [|lra]. unfold xsign. replace (0 - 0)%R with 0%R by ring. destruct (Rltb_spec 0 0); [lra|reflexivity].
    - intros i x Hi Lx _ _. rewrite (aget_OK 0%R) by lia. reflexivity.
  Qed.

  Lemma poison_call x xs ys scratch src dst : shape x -> rep (Fin 0) (map Fin a) (map Fin b) (ff_filter (dx_filter x)) xs ys -> is_response (Fin 0) xadd xsub xmul (map Fin a) (map Fin b) xs ys ->
    zlen scratch = n -> n <= zlen src -> n <= zlen dst ->
    (1 <= zlen xs /\ Xn ys (zlen xs - 1) = NaN) \/ (forall i, 0 <= i < n -> zn 0%R src i = 0%R) ->
    exists x', dfx_process x scratch src dst = OK (x', repeat (blank positive) (Z.to_nat n) ++ skipn (Z.to_nat n) dst) /\ numb x'.
  Proof.
    intros (S1 & S2 & S3 & S4 & S5 & S6 & S7 & S8 & S9) R1 R2 Lsc Ls Ld D. unfold dfx_process. rewrite S1. destruct (Z.eqb_spec n 0); [lia|]. rewrite S4.
    destruct (removex_ok src (dx_src x) Ls S7) as (d & -> & Lx & Dz). cbn [bind].
    assert (An : map Fin a <> []) by (destruct a; [cbn in Hlen; lia|discriminate]).
    destruct (filtfilt_poison (Fin 0) (Fin 2) xadd xsub xmul NaN) with (a := map Fin a) (b := map Fin b) (ff := dx_filter x) (xs := xs) (ys := ys) (src := d) (dst := dx_dst x)
      as (ff' & E & O' & P'); auto; try (rewrite ?zlen_map; lia); try (intros []; reflexivity).
    { destruct D as [D|D]; [left; exact D|right; apply Dz; exact D]. }
    rewrite Lx in E. rewrite E. cbn [bind]. clear E.
    rewrite (skipn_all2 (dx_dst x)) by (unfold zlen in *; lia). rewrite app_nil_r.
    replace (length d) with (Z.to_nat n) by (unfold zlen in *; lia).
    rewrite median_filterx_parts, S1, S2, S3. rewrite mediansx_nan by (zl; lia). cbn [bind].
    pose proof (lastx_nan x dst) as Lst. rewrite S1, S5 in Lst. rewrite Lst by lia. cbn [bind].
    eexists; split; [reflexivity|]. split; [unfold shape; cbn; splits; auto; rewrite ?O'; zl; try lia|exact P'].
  Qed.

  Theorem numb_call x scratch src dst : numb x -> zlen scratch = n -> n <= zlen src -> n <= zlen dst ->
    exists x', dfx_process x scratch src dst = OK (x', repeat (blank positive) (Z.to_nat n) ++ skipn (Z.to_nat n) dst) /\ numb x'.
  Proof. intros (S & xs & ys & R1 & R2 & R3 & R4) L1 L2 L3. apply (poison_call x xs ys); auto. Qed.

  Lemma ready_shape o xs ys : ready n pre post alpha positive delta a b o xs ys -> shape (lift o).
  Proof. intros (R1 & R2 & R3 & R4 & R5 & R6 & R7 & R8 & R9 & _). unfold shape, lift. cbn. splits; auto; zl; lia. Qed.
  Theorem silent_call o xs ys scratch src dst : ready n pre post alpha positive delta a b o xs ys -> zlen scratch = n -> n <= zlen src -> n <= zlen dst ->
    (forall i, 0 <= i < n -> zn 0%R src i = 0%R) ->
    exists x', dfx_process (lift o) scratch src dst = OK (x', repeat (blank positive) (Z.to_nat n) ++ skipn (Z.to_nat n) dst) /\ numb x'.
  Proof.
    intros R L1 L2 L3 Hz. apply (poison_call (lift o) (map Fin xs) (map Fin ys)); auto.
    - apply (ready_shape o xs ys R).
    - apply (rep_image 0%R (Fin 0) Fin); [reflexivity|]. apply R.
    - apply (response_image 0%R Rplus Rminus Rmult (Fin 0) xadd xsub xmul Fin); try reflexivity. apply R.
  Qed.
  Theorem normal_call o xs ys scratch src dst : ready n pre post alpha positive delta a b o xs ys -> call_ok n scratch src (repeat 0%R (Z.to_nat n)) -> n <= zlen dst ->
    exists o' out d y z r, dfx_process (lift o) scratch src dst = OK (lift o', map Fin out ++ skipn (Z.to_nat n) dst) /\
      dfp_process o scratch src (repeat 0%R (Z.to_nat n)) = OK (o', out) /\
      smoothing n pre post alpha positive delta src (repeat 0%R (Z.to_nat n)) d r out /\
      zlen y = zlen d + 2 * (3 * (zlen b - 1)) /\ resp a b (xs ++ ext (3 * (zlen b - 1)) d) (ys ++ y) /\ resp a b (rev y) z /\
      r = firstn (length d) (skipn (Z.to_nat (3 * (zlen b - 1))) (rev z)) /\ ready n pre post alpha positive delta a b o' (rev y) z.
  Proof.
    intros R C L.
    assert (Hab : accepted a b) by (right; split; [destruct a; [cbn in Hlen; lia|discriminate]|exact Hlen]).
    destruct (process_ready n pre post alpha positive delta a b Hab ltac:(right; lia) Hpre Hpost Hn Hal o xs ys scratch src _ R C) as (o' & out & d & y & z & r & E & S).
    exists o', out, d, y, z, r. splits; auto; try apply S. assert (Ln : df_length o = n) by apply R.
    rewrite (dfx_finite o scratch src (repeat 0%R (Z.to_nat n)) dst o' out) by (auto; try (zl; lia)). now rewrite Ln.
  Qed.
End Numb.
