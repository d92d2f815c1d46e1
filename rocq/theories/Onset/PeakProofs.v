(** DFProcess. *)
From Coq Require Import List ZArith Reals Lia Lra Bool.
From Verif.Base Require Import Imp Sums RealOps Loops.
From Verif.Signal Require Import FilterModel FilterSpec FilterProofs FiltFiltModel FiltFiltSpec FiltFiltProofs.
From Verif.Maths Require Import MedianSpec RealModel RealSpec RealProofs NormModel NormSpec NormProofs.
From Verif.Onset Require Import PeakModel PeakSpec.
Import ListNotations.
Open Scope Z_scope.

Lemma median_of y k l : firstn (Z.to_nat k) y = l -> 1 <= k <= zlen y -> exists m, median_ y k = OK m /\ is_median l m.
Proof.
  intros E H. destruct (median_spec y k H) as (u & v & Hu & Hv & ->). exists ((u + v) / 2)%R. split; [reflexivity|].
  rewrite E in Hu, Hv. assert (zlen l = k) as L by (subst l; zl; lia). exists u, v. rewrite L. auto.
Qed.

(** The copying loops. *)
Lemma copy_front src y k : 0 <= k <= zlen y -> k <= zlen src ->
  exists y', for_up 0 k (fun j y => v <- aget src j ;; aset y j v) y = OK y' /\ zlen y' = zlen y /\ firstn (Z.to_nat k) y' = ztab k (zn 0%R src).
Proof.
  intros Hk Hs. rewrite (for_up_set k (fun j => aget src j) (zn 0%R src)) by (auto; intros; apply aget_OK; lia).
  eexists; split; [reflexivity|]. split; [rewrite zlen_app, zlen_ztab, zlen_skipn by lia; lia|].
  rewrite firstn_app, firstn_all2 by (pose proof (zlen_ztab k (zn 0%R src)); unfold zlen in *; lia).
  replace (Z.to_nat k - length (ztab k (zn 0%R src)))%nat with 0%nat by (pose proof (zlen_ztab k (zn 0%R src)); unfold zlen in *; lia).
  cbn [firstn]. apply app_nil_r.
Qed.

Lemma copy_range src y a b : 0 <= a <= b -> b <= zlen src -> b - a <= zlen y ->
  exists y', for_up a b (fun j '(l, y) => v <- aget src j ;; y <- aset y l v ;; OK (l + 1, y)) (0, y) = OK (b - a, y') /\
    zlen y' = zlen y /\ firstn (Z.to_nat (b - a)) y' = ztab (b - a) (fun j => zn 0%R src (a + j)).
Proof.
  intros Ha Hb Hy.
  match goal with |- context [for_up a b ?B ?S] =>
    destruct (for_up_inv (fun j (s : Z * list R) => fst s = j - a /\ zlen (snd s) = zlen y /\ forall t, 0 <= t < j - a -> zn 0%R (snd s) t = zn 0%R src (a + t))
      a b B S) as ((l & y') & EQ & I1 & I2 & I3); [lia| | |] end.
  - cbn [fst snd]. splits; auto; intros; lia.
  - intros j (l & y') Hj (I1 & I2 & I3). cbn [fst snd] in *. subst l. rewrite (aget_OK 0%R) by lia. ret. rewrite aset_OK by lia. ret.
    eexists; split; [reflexivity|]. cbn [fst snd]. splits; [lia|zl; lia|]. intros t Ht. rewrite zn_upd by lia.
    destruct (Z.eqb_spec t (j - a)) as [->|]; [f_equal; lia|]. apply I3. lia.
  - cbn [fst snd] in *. subst l. exists y'. split; [exact EQ|]. split; [auto|]. apply (zn_ext 0%R).
    + zl. lia.
    + intros i Hi. rewrite zlen_firstn in Hi by lia. rewrite zn_firstn by lia. rewrite zn_ztab by lia. apply I3. lia.
Qed.

Section Df.
  Variables (L P Q : Z) (src : list R).
  Hypothesis HP : 0 <= P.
  Hypothesis HQ : 0 <= Q.
  Hypothesis HL : P + Q < L.
  Hypothesis Hs : zlen src = L.

  Definition med_inv (i : Z) (s : Z * list R * list R) : Prop :=
    let '(index, scratch, y) := s in index = i /\ zlen scratch = L /\ zlen y = P + Q + 1 /\
      forall t, 0 <= t < i -> is_median (around L P Q (zn 0%R src) t) (zn 0%R scratch t).

  Lemma med_store i (scratch y : list R) m : 0 <= i < L -> zlen scratch = L -> zlen y = P + Q + 1 ->
    (forall t, 0 <= t < i -> is_median (around L P Q (zn 0%R src) t) (zn 0%R scratch t)) ->
    is_median (around L P Q (zn 0%R src) i) m ->
    exists s, (scratch <- aset scratch i m ;; OK (i + 1, scratch, y)) = OK s /\ med_inv (i + 1) s.
  Proof.
    intros Hi H1 H2 H3 Hm. rewrite aset_OK by lia. ret. eexists; split; [reflexivity|]. cbn. splits; [auto|zl; lia|auto|].
    intros t Ht. rewrite zn_upd by lia. destruct (Z.eqb_spec t i) as [->|]; [auto|]. apply H3. lia.
  Qed.

  Lemma medians_ok scratch : zlen scratch = L ->
    exists s y, 
    ('(index, scratch, y) <- for_up 0 P (fun i '(index, scratch, y) =>
    if L <=? index then OK (index, scratch, y) else
    let k := i + Q + 1 in
    y <- for_up 0 k (fun j y => v <- aget src j ;; aset y j v) y ;;
    m <- median_ y k ;;
    scratch <- aset scratch index m ;;
    OK (index + 1, scratch, y)) (0, scratch, repeat 0%R (Z.to_nat (Q + P + 1))) ;;
  '(index, scratch, y) <- for_up 0 (L - Q - P) (fun i '(index, scratch, y) =>
    if L <=? index then OK (index, scratch, y) else
    '(_, y) <- for_up i (i + Q + P + 1) (fun j '(l, y) => v <- aget src j ;; y <- aset y l v ;; OK (l + 1, y)) (0, y) ;;
    m <- median_ y (Q + P + 1) ;;
    scratch <- aset scratch index m ;;
    OK (index + 1, scratch, y)) (index, scratch, y) ;;
  for_up (Z.max (L - Q) 1) L (fun i '(index, scratch, y) =>
    if L <=? index then OK (index, scratch, y) else
    let k := Z.max (i - P) 1 in
    '(l, y) <- for_up k L (fun j '(l, y) => v <- aget src j ;; y <- aset y l v ;; OK (l + 1, y)) (0, y) ;;
    m <- median_ y l ;;
    scratch <- aset scratch index m ;;
    OK (index + 1, scratch, y)) (index, scratch, y)) = OK (L, s, y) /\ zlen s = L /\
      forall t, 0 <= t < L -> is_median (around L P Q (zn 0%R src) t) (zn 0%R s t).
  Proof.
    intros Hsc.
    match goal with |- context [for_up 0 P ?B ?S] => destruct (for_up_inv med_inv 0 P B S) as (((ix & sc) & y) & EQ & I1 & I2 & I3 & I4); [lia| | |] end.
    { cbn. splits; auto; [zl; lia|intros; lia]. }
    { intros i ((ix & sc) & y) Hi (I1 & I2 & I3 & I4). subst ix. destruct (Z.leb_spec L i); [lia|]. cbv zeta.
      destruct (copy_front src y (i + Q + 1)) as (y' & -> & Ly & Fy); [lia|lia|]. ret.
      destruct (median_of y' (i + Q + 1) _ Fy) as (m & -> & Hm); [lia|]. ret.
      apply (med_store i sc y' m); auto; try lia.
      unfold around. replace (Z.max 0 (i - P)) with 0 by lia. replace (Z.min (L - 1) (i + Q)) with (i + Q) by lia.
      replace (i + Q - 0 + 1) with (i + Q + 1) by lia. rewrite (ztab_ext _ _ (zn 0%R src)) by (intros; f_equal; lia). exact Hm. }
    rewrite EQ. ret. clear EQ. subst ix.
    match goal with |- context [for_up 0 (L - Q - P) ?B ?S] => 
      destruct (for_up_inv (fun i => med_inv (P + i)) 0 (L - Q - P) B S) as (((ix & sc') & y') & EQ & J1 & J2 & J3 & J4); [lia| | |] end.
    { cbn. splits; auto; [lia|]. intros; apply I4; lia. }
    { clear sc y I2 I3 I4. intros i ((ix & sc) & y) Hi (I1 & I2 & I3 & I4). subst ix. destruct (Z.leb_spec L (P + i)); [lia|].
      destruct (copy_range src y i (i + Q + P + 1)) as (y' & -> & Ly & Fy); [lia|lia|lia|]. ret.
      replace (i + Q + P + 1 - i) with (Q + P + 1) in Fy by lia.
      destruct (median_of y' (Q + P + 1) _ Fy) as (m & -> & Hm); [lia|]. ret. rewrite Z.add_assoc.
      apply (med_store (P + i) sc y' m); auto; try lia.
      unfold around. replace (Z.max 0 (P + i - P)) with i by lia. replace (Z.min (L - 1) (P + i + Q)) with (P + i + Q) by lia.
      replace (P + i + Q - i + 1) with (Q + P + 1) by lia. exact Hm. }
    rewrite EQ. ret. clear EQ. subst ix. replace (P + (L - Q - P)) with (L - Q) in * by lia. replace (Z.max (L - Q) 1) with (L - Q) by lia.
    match goal with |- context [for_up (L - Q) L ?B ?S] => 
      destruct (for_up_inv med_inv (L - Q) L B S) as (((ix & sc'') & y'') & EQ & K1 & K2 & K3 & K4); [lia| | |] end.
    { cbn. splits; auto. }
    { clear sc y sc' y' I2 I3 I4 J2 J3 J4. intros i ((ix & sc) & y) Hi (I1 & I2 & I3 & I4). subst ix. destruct (Z.leb_spec L i); [lia|]. cbv zeta.
      replace (Z.max (i - P) 1) with (i - P) by lia.
      destruct (copy_range src y (i - P) L) as (y' & -> & Ly & Fy); [lia|lia|lia|]. ret.
      destruct (median_of y' (L - (i - P)) _ Fy) as (m & -> & Hm); [lia|]. ret. 
      apply (med_store i sc y' m); auto; try lia.
      unfold around. replace (Z.max 0 (i - P)) with (i - P) by lia. replace (Z.min (L - 1) (i + Q)) with (L - 1) by lia.
      replace (L - 1 - (i - P) + 1) with (L - (i - P)) by lia. exact Hm. }
    subst ix. exists sc'', y''. splits; auto.
  Qed.
End Df.

Lemma median_filter_ok o scratch src dst :
  0 <= df_pre o -> 0 <= df_post o -> df_pre o + df_post o < df_length o ->
  zlen scratch = df_length o -> zlen src = df_length o -> df_length o <= zlen dst ->
  exists g, median_filter o scratch src dst = OK (ztab (df_length o) g ++ skipn (Z.to_nat (df_length o)) dst) /\
    thresholded (df_length o) (df_pre o) (df_post o) (df_positive o) (df_delta o) (zn 0%R src) g.
Proof.
  intros HP HQ HL Hsc Hs Hd. unfold median_filter. cbv zeta.
  destruct (medians_ok (df_length o) (df_pre o) (df_post o) src HP HQ HL Hs scratch Hsc) as (s & y & E & Ls & V).
  match type of E with ?X = _ => set (lhs := X) in E end.
  exists (fun t => let val := (zn 0 src t - zn 0 s t - df_delta o)%R in if df_positive o then if Rltb 0 val then val else 0%R else val).
  split.
  - match goal with |- ?G = _ => assert (E2 : G = ('(_, scratch, _) <- lhs ;; for_up 0 (df_length o) (fun i dst =>
    v <- aget src i ;; s <- aget scratch i ;;
    let val := (v - s - df_delta o)%R in
    if df_positive o then aset dst i (if Rltb 0 val then val else 0%R) else aset dst i val) dst)) end.
    { unfold lhs. rewrite !bind_assoc. apply bind_ext. intros ((ix & sc) & y1) _. rewrite !bind_assoc. apply bind_ext. intros ((ix2 & sc2) & y2) _. reflexivity. }
    rewrite E2, E. ret. apply for_up_tab; [lia|]. intros i x Hi Lx _ _. rewrite !(aget_OK 0%R) by lia. ret. ret. cbv zeta.
    destruct (df_positive o); reflexivity.
  - intros t Ht. exists (zn 0%R s t). split; [apply V; lia|]. cbv zeta. destruct (df_positive o); [|reflexivity].
    set (val := (_ - _ - _)%R). unfold Rmax. destruct (Rltb_spec 0 val), (Rle_dec 0 val); lra.
Qed.
