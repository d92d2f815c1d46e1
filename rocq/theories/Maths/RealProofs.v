From Coq Require Import List ZArith Reals Lia Lra Bool.
From Verif.Base Require Import Imp Sums RealOps.
From Verif.Maths Require Import MedianSpec RealModel RealSpec.
Import ListNotations.
Open Scope Z_scope.

(** *** princarg *)
Lemma princarg_spec x : same_angle (princarg x) x /\ (- PI < princarg x <= PI)%R.
Proof.
  unfold princarg, mod_. set (k := Zfloor _).
  pose proof PI_RGT_0 as P.
  pose proof (Zfloor_bounds ((x + PI) / (-2 * PI))) as B. fold k in B.
  assert (E : (x + PI = (x + PI) / (-2 * PI) * (-2 * PI))%R) by (field; lra).
  set (q := ((x + PI) / (-2 * PI))%R) in *.
  split.
  - exists (k + 1). rewrite plus_IZR. lra.
  - split; nra.
Qed.

Lemma princarg_unique x y : same_angle y x -> (- PI < y <= PI)%R -> princarg x = y.
Proof.
  intros [k Hk] Hy. destruct (princarg_spec x) as [[j Hj] Hx].
  assert (E : (princarg x = y + IZR (j - k) * (2 * PI))%R) by (rewrite minus_IZR; lra).
  pose proof PI_RGT_0 as P. set (m := j - k) in *.
  assert (-1 < IZR m < 1)%R by (split; nra).
  assert (m = 0). { destruct H as [H1 H2]. apply (lt_IZR (-1)) in H1. apply (lt_IZR m 1) in H2. lia. }
  rewrite E, H0. lra.
Qed.

Lemma princarg_pi : princarg PI = PI.
Proof.
  apply princarg_unique; [exists 0; lra|]. pose proof PI_RGT_0. lra.
Qed.

(** *** Loops *)
Lemma sum_spec src len : 0 <= len <= zlen src -> sum_ src len = OK (rsum len (Rn src)).
Proof.
  intros H. unfold sum_. apply for_up_fsum; [lia|]. intros i acc Hi. rewrite (aget_OK 0%R) by lia. reflexivity.
Qed.

Lemma div_loop d n c : 0 <= n <= zlen d ->
  exists d', for_up 0 n (fun i d => v <- aget d i ;; aset d i (v / c)%R) d = OK d' /\ divided_by n c d d'.
Proof.
  intros Hn.
  match goal with |- context [for_up 0 n ?F ?S] =>
    destruct (for_up_inv (fun i s => divided_by i c d s) 0 n F S) as (d' & E & H); [lia| | |] end.
  - split; auto. intros i Hi. zcase; auto.
  - intros i s Hi (L & V). rewrite (aget_OK 0%R) by lia. cbn [bind]. rewrite aset_OK by lia.
    eexists; split; [reflexivity|]. split; [zl; lia|]. intros k Hk. rewrite zn_upd by lia. rewrite !V by lia.
    zcase; auto. subst k. auto.
  - eauto.
Qed.

Lemma absmax_loop d n : 0 <= n <= zlen d ->
  exists m, for_up 0 n (fun i m => v <- aget d i ;; OK (if Rltb m (Rabs v) then Rabs v else m)) 0%R = OK m /\
    (0 <= m)%R /\ (forall i, 0 <= i < n -> (Rabs (Rn d i) <= m)%R) /\
    (m = 0%R \/ exists i, 0 <= i < n /\ Rabs (Rn d i) = m).
Proof.
  intros Hn.
  match goal with |- context [for_up 0 n ?F ?S] =>
    destruct (for_up_inv (fun i m => (0 <= m)%R /\ (forall k, 0 <= k < i -> (Rabs (Rn d k) <= m)%R) /\
      (m = 0%R \/ exists k, 0 <= k < i /\ Rabs (Rn d k) = m)) 0 n F S) as (m & E & H); [lia| | |] end.
  - split; [lra|]. split; [intros; lia|auto].
  - intros i m Hi (M0 & M1 & M2). rewrite (aget_OK 0%R) by lia. cbn [bind].
    eexists; split; [reflexivity|]. destruct (Rltb_spec m (Rabs (Rn d i))).
    + split; [lra|]. split.
      * intros k Hk. destruct (Z.eq_dec k i) as [->|]; [lra|]. specialize (M1 k ltac:(lia)). lra.
      * right. exists i. split; [lia|auto].
    + split; auto. split.
      * intros k Hk. destruct (Z.eq_dec k i) as [->|]; [lra|]. apply M1. lia.
      * destruct M2 as [->|(k & Hk & E)]; [now left|right; exists k; split; [lia|auto]].
  - exists m. auto.
Qed.

Theorem normalise_sum d n : 0 <= n <= zlen d ->
  exists d', normalise d n NormaliseUnitSum = OK d' /\
    (rsum n (Rn d) = 0%R -> d' = d) /\
    (rsum n (Rn d) <> 0%R -> rsum n (Rn d') = 1%R /\ divided_by n (rsum n (Rn d)) d d').
Proof.
  intros Hn. unfold normalise. change (for_up 0 n _ 0%R) with (sum_ d n). rewrite sum_spec by auto. cbn [bind].
  destruct (Reqb_spec (rsum n (Rn d)) 0); cbn [negb].
  - exists d. splits; auto. congruence.
  - destruct (div_loop d n (rsum n (Rn d)) Hn) as (d' & E & D). exists d'. splits; auto; [congruence|].
    intros _. split; auto. destruct D as [L V].
    rewrite (rsum_ext n (Rn d') (fun i => / rsum n (Rn d) * Rn d i)%R).
    2: { intros i Hi. rewrite V by lia. zcase. unfold Rdiv. ring. }
    rewrite rsum_scal. field. auto.
Qed.

Theorem normalise_max d n : 0 <= n <= zlen d ->
  exists d', normalise d n NormaliseUnitMax = OK d' /\
    ((forall i, 0 <= i < n -> Rn d i = 0%R) -> d' = d) /\
    ((exists i, 0 <= i < n /\ Rn d i <> 0%R) ->
      is_max n (fun i => Rabs (Rn d' i)) 1%R /\
      exists m, (0 < m)%R /\ is_max n (fun i => Rabs (Rn d i)) m /\ divided_by n m d d').
Proof.
  intros Hn. unfold normalise. destruct (absmax_loop d n Hn) as (m & E & M0 & M1 & M2). rewrite E. cbn [bind].
  destruct (Reqb_spec m 0); cbn [negb].
  - exists d. splits; auto. intros (i & Hi & Hne). exfalso. specialize (M1 i Hi).
    apply Hne. pose proof (Rabs_pos (Rn d i)). destruct (Req_dec (Rn d i) 0); auto.
    apply Rabs_pos_lt in H1. lra.
  - destruct (div_loop d n m Hn) as (d' & E' & D). exists d'. split; auto.
    destruct M2 as [|(i & Hi & Em)]; [congruence|]. assert (0 < m)%R by lra. split.
    + intros Hz. exfalso. rewrite Hz, Rabs_R0 in Em by auto. congruence.
    + intros _. assert (IM : is_max n (fun i => Rabs (Rn d i)) m) by (split; [eauto|auto]).
      assert (V' : forall k, 0 <= k < n -> Rabs (Rn d' k) = (Rabs (Rn d k) / m)%R).
      { intros k Hk. destruct D as [L V]. rewrite V by lia. zcase. unfold Rdiv.
        rewrite Rabs_mult. f_equal. rewrite Rabs_inv. f_equal. apply Rabs_pos_eq. lra. }
      split.
      * split.
        -- exists i. split; auto. rewrite V', Em by auto. field. lra.
        -- intros k Hk. rewrite V' by auto. apply (Rmult_le_reg_r m); auto.
           unfold Rdiv. rewrite Rmult_assoc, Rinv_l by lra. rewrite Rmult_1_r, Rmult_1_l. auto.
      * exists m. auto.
Qed.

Theorem normalise_vec_same d t : normalise_vec d t = normalise d (zlen d) t.
Proof. destruct t; reflexivity. Qed.

(** *** getMax, getFrameMinMax *)
Theorem getMax_spec d n : 1 <= n <= zlen d ->
  exists ix, getMax d n = OK (ix, Rn d ix) /\ 0 <= ix < n /\
    (forall i, 0 <= i < n -> (Rn d i <= Rn d ix)%R) /\
    (forall i, 0 <= i < ix -> (Rn d i < Rn d ix)%R).
Proof.
  intros Hn. unfold getMax. rewrite (aget_OK 0%R) by lia. cbn [bind].
  match goal with |- context [for_up 0 n ?F ?S] =>
    destruct (for_up_inv (fun i s => 0 <= fst s < Z.max 1 i /\ snd s = Rn d (fst s) /\
      (forall k, 0 <= k < i -> (Rn d k <= snd s)%R) /\
      (forall k, 0 <= k < fst s -> (Rn d k < snd s)%R)) 0 n F S) as ([ix m] & E & H1 & H2 & H3 & H4); [lia| | |] end.
  - cbn [fst snd]. splits; auto; try lia; intros; lia.
  - intros i [ix m] Hi (H1 & H2 & H3 & H4). cbn [fst snd] in *. rewrite (aget_OK 0%R) by lia. cbn [bind].
    eexists; split; [reflexivity|]. destruct (Rltb_spec m (Rn d i)); cbn [fst snd].
    + splits; auto; try lia.
      * intros k Hk. destruct (Z.eq_dec k i) as [->|]; [lra|]. specialize (H3 k ltac:(lia)). lra.
      * intros k Hk. specialize (H3 k ltac:(lia)). lra.
    + splits; auto; try lia. intros k Hk. destruct (Z.eq_dec k i) as [->|]; [lra|]. apply H3. lia.
  - cbn [fst snd] in *. subst m. exists ix. splits; auto; lia.
Qed.

Theorem minmax_spec d n : 1 <= n <= zlen d ->
  exists mn mx, getFrameMinMax d n = OK (mn, mx) /\ is_min n (Rn d) mn /\ is_max n (Rn d) mx.
Proof.
  intros Hn. unfold getFrameMinMax. zcase. rewrite (aget_OK 0%R) by lia. cbn [bind].
  match goal with |- context [for_up 0 n ?F ?S] =>
    destruct (for_up_inv (fun i s =>
      (exists k, 0 <= k < n /\ Rn d k = fst s) /\ (exists k, 0 <= k < n /\ Rn d k = snd s) /\
      (forall k, 0 <= k < i -> (fst s <= Rn d k <= snd s)%R)) 0 n F S) as ([mn mx] & E & H1 & H2 & H3); [lia| | |] end.
  - cbn [fst snd]. splits; [exists 0; split; [lia|auto]|exists 0; split; [lia|auto]|intros; lia].
  - intros i [mn mx] Hi (H1 & H2 & H3). cbn [fst snd] in *. rewrite (aget_OK 0%R) by lia. cbn [bind].
    eexists; split; [reflexivity|]. cbn [fst snd].
    destruct (Rltb_spec (Rn d i) mn), (Rltb_spec mx (Rn d i)).
    all: splits; auto; try (exists i; split; [lia|auto]).
    all: intros k Hk; destruct (Z.eq_dec k i) as [->|]; [lra|]; specialize (H3 k ltac:(lia)); lra.
  - cbn [fst snd] in *. exists mn, mx. splits; auto; split; auto; intros i Hi; apply H3; auto.
Qed.

(** *** round *)
Theorem round_spec x : exists n, round_ x = IZR n /\ (Rabs (x - IZR n) <= / 2)%R /\
  (Rabs (x - IZR n) = / 2 -> Rabs (IZR n) = Rabs x + / 2)%R.
Proof.
  unfold round_. destruct (Rltb_spec x 0).
  - exists (- Zfloor (- x + / 2)). rewrite opp_IZR. destruct (Zfloor_bounds (- x + / 2)).
    set (f := IZR (Zfloor (- x + / 2))) in *. splits; auto.
    + apply Rabs_le. lra.
    + intros HE. rewrite (Rabs_left x), Rabs_Ropp by auto.
      assert (0 <= f)%R.
      { unfold f. apply (IZR_le 0).
        rewrite <- (Zfloor_IZR 0). apply Zfloor_le. lra. }
      rewrite (Rabs_pos_eq f) by auto.
      unfold Rabs in HE. destruct (Rcase_abs (x - - f)); lra.
  - exists (Zfloor (x + / 2)). destruct (Zfloor_bounds (x + / 2)).
    set (f := IZR (Zfloor (x + / 2))) in *. splits; auto.
    + apply Rabs_le. lra.
    + intros HE. rewrite (Rabs_pos_eq x) by auto.
      assert (0 <= f)%R.
      { unfold f. apply (IZR_le 0). rewrite <- (Zfloor_IZR 0). apply Zfloor_le. lra. }
      rewrite (Rabs_pos_eq f) by auto.
      unfold Rabs in HE. destruct (Rcase_abs (x - f)); lra.
Qed.

(** *** factorial *)
Theorem factorial_spec n : factorial_ (Z.of_nat n) = OK (INR (fact n)).
Proof.
  unfold factorial_. zcase.
  match goal with |- for_up 1 ?N ?F ?S = _ =>
    destruct (for_up_inv (fun i f => f = INR (fact (Z.to_nat (i - 1)))) 1 N F S) as (f & E & HF); [lia| | |] end.
  - reflexivity.
  - intros i f Hi ->. eexists; split; [reflexivity|].
    replace (Z.to_nat (i + 1 - 1)) with (S (Z.to_nat (i - 1))) by lia.
    change (fact (S (Z.to_nat (i - 1)))) with (S (Z.to_nat (i - 1)) * fact (Z.to_nat (i - 1)))%nat.
    rewrite mult_INR, Rmult_comm. f_equal. rewrite INR_IZR_INZ. f_equal. lia.
  - rewrite E, HF. do 3 f_equal. lia.
Qed.

(** *** adaptiveThreshold *)
Lemma mean_range_spec d s c : 0 <= s -> 1 <= c -> s + c <= zlen d ->
  mean_range d s c = OK (rsum c (fun i => Rn d (s + i)) / IZR c)%R.
Proof.
  intros Hs Hc Hd. unfold mean_range. zcase.
  rewrite (for_up_fsum 0%R Rplus c _ (fun i => Rn d (s + i))); [reflexivity|lia|].
  intros i acc Hi. rewrite (aget_OK 0%R) by lia. reflexivity.
Qed.

Theorem adaptiveThreshold_spec d :
  exists d', adaptiveThreshold d = OK d' /\ zlen d' = zlen d /\
    forall i, 0 <= i < zlen d -> Rn d' i = Rmax 0 (Rn d i - local_mean d i).
Proof.
  unfold adaptiveThreshold. pose proof (zlen_nonneg d).
  destruct (Z.eqb_spec (zlen d) 0) as [E|NE].
  - exists d. splits; auto. intros; lia.
  - match goal with |- context [for_up 0 (zlen d) ?F (repeat 0%R ?n)] =>
      destruct (for_up_inv (fun i s => zlen s = zlen d /\ forall k, 0 <= k < i -> Rn s k = local_mean d k)
        0 (zlen d) F (repeat 0%R n)) as (sm & E & L & V); [lia| | |] end.
    + split; [zl; lia|intros; lia].
    + intros i s Hi (L & V). rewrite mean_range_spec by lia. cbn [bind]. rewrite aset_OK by lia.
      eexists; split; [reflexivity|]. split; [zl; lia|]. intros k Hk. rewrite zn_upd by lia.
      zcase; [subst k; reflexivity|]. apply V. lia.
    + rewrite E. cbn [bind].
      match goal with |- context [for_up 0 (zlen d) ?F d] =>
        destruct (for_up_inv (fun i s => zlen s = zlen d /\ forall k, 0 <= k < zlen d ->
           Rn s k = if k <? i then Rmax 0 (Rn d k - local_mean d k) else Rn d k)
          0 (zlen d) F d) as (d' & E' & L' & V'); [lia| | |] end.
      * split; auto. intros k Hk. zcase; auto.
      * intros i s Hi (L' & V'). rewrite (aget_OK 0%R s) by lia. cbn [bind].
        rewrite (aget_OK 0%R sm) by lia. cbn [bind]. rewrite aset_OK by lia. cbn [bind].
        rewrite (aget_OK 0%R) by (zl; lia). cbn [bind]. rewrite zn_upd, Z.eqb_refl by lia.
        rewrite V, V' by lia. zcase.
        destruct (Rltb_spec (Rn d i - local_mean d i) 0).
        -- rewrite aset_OK by (zl; lia). eexists; split; [reflexivity|]. split; [zl; lia|].
           intros k Hk. rewrite zn_upd by (zl; lia). rewrite zn_upd by lia. rewrite V' by lia. zcase; auto.
           subst k. rewrite Rmax_left; lra.
        -- eexists; split; [reflexivity|]. split; [zl; lia|].
           intros k Hk. rewrite zn_upd by lia. rewrite V' by lia. zcase; auto.
           subst k. rewrite Rmax_right; lra.
      * exists d'. splits; auto. intros i Hi. rewrite V' by lia. zcase. auto.
Qed.

(** *** median *)
Local Notation cnt := (@count R).
Lemma cnt_app p l1 l2 : cnt p (l1 ++ l2) = cnt p l1 + cnt p l2.
Proof. unfold count. now rewrite filter_app, zlen_app. Qed.
Lemma cnt_cons p x l : cnt p (x :: l) = (if p x then 1 else 0) + cnt p l.
Proof. unfold count. simpl. destruct (p x); zl; lia. Qed.
Lemma cnt_insert p x l : cnt p (insert_ x l) = cnt p (x :: l).
Proof.
  induction l as [|y l IH]; [reflexivity|]. cbn [insert_]. destruct (Rltb y x); auto.
  rewrite !cnt_cons in *. lia.
Qed.
Lemma cnt_sort p l : cnt p (sort_ l) = cnt p l.
Proof. induction l as [|x l IH]; [reflexivity|]. change (sort_ (x :: l)) with (insert_ x (sort_ l)). rewrite cnt_insert, !cnt_cons. lia. Qed.
Lemma len_insert x l : zlen (insert_ x l) = zlen l + 1.
Proof. induction l as [|y l IH]; [reflexivity|]. cbn [insert_]. destruct (Rltb y x); zl; lia. Qed.
Lemma len_sort l : zlen (sort_ l) = zlen l.
Proof. induction l as [|x l IH]; [reflexivity|]. change (sort_ (x :: l)) with (insert_ x (sort_ l)). rewrite len_insert. zl. lia. Qed.

Fixpoint rsorted (l : list R) : Prop :=
  match l with [] => True | x :: t => Forall (fun y => x <= y)%R t /\ rsorted t end.
Lemma insert_In x l y : In y (insert_ x l) -> y = x \/ In y l.
Proof.
  induction l as [|z l IH]; cbn [insert_]; [cbn; intuition|]. destruct (Rltb z x); cbn; intuition.
Qed.
Lemma insert_sorted x l : rsorted l -> rsorted (insert_ x l).
Proof.
  induction l as [|y l IH]; cbn [insert_]; [cbn; auto|]. intros [H1 H2]. destruct (Rltb_spec y x).
  - split; auto. apply Forall_forall. intros z Hz. apply insert_In in Hz as [->|Hz]; [lra|].
    rewrite Forall_forall in H1. auto.
  - split; [|split; auto]. constructor; auto. rewrite Forall_forall in *. intros z Hz. specialize (H1 z Hz). lra.
Qed.
Lemma sort_sorted l : rsorted (sort_ l).
Proof. induction l as [|x l IH]; cbn; auto. now apply insert_sorted. Qed.

Lemma rsorted_kth l k : rsorted l -> 0 <= k < zlen l ->
  cnt (fun x => Rltb x (Rn l k)) l <= k < cnt (fun x => negb (Rltb (Rn l k) x)) l.
Proof.
  revert k. induction l as [|x l IH]; intros k Hs Hk; [zl; lia|]. destruct Hs as [H1 H2].
  rewrite zn_cons. rewrite Forall_forall in H1. zl. destruct (Z.eqb_spec k 0) as [->|].
  - rewrite !cnt_cons. destruct (Rltb_spec x x); [lra|]. cbn [negb].
    assert (E : cnt (fun y => Rltb y x) l = 0).
    { clear -H1. induction l as [|y l IH]; auto. rewrite cnt_cons, IH by (intros; apply H1; cbn; auto).
      destruct (Rltb_spec y x); auto. specialize (H1 y (or_introl eq_refl)). lra. }
    rewrite E. pose proof (zlen_nonneg (filter (fun y => negb (Rltb x y)) l)). unfold count. lia.
  - destruct (Z.ltb_spec k 0); [lia|]. specialize (IH (k - 1) H2 ltac:(lia)).
    set (v := Rn l (k - 1)) in *. rewrite !cnt_cons.
    assert (x <= v)%R.
    { apply H1. unfold v, zn. destruct (Z.ltb_spec (k - 1) 0); [lia|]. apply nth_In. unfold zlen in *. lia. }
    destruct (Rltb_spec v x); [lra|]. cbn [negb]. destruct (Rltb x v); lia.
Qed.

Lemma copy_all src len : 0 <= len <= zlen src ->
  for_up 0 len (fun i s => v <- aget src i ;; OK ((s ++ [v])%list)) (@nil R) = OK (@firstn R (Z.to_nat len) src).
Proof.
  intros H. rewrite (for_up_ext _ _ _ (fun i s => OK (s ++ [Rn src i])%list)).
  2: { intros i s Hi. rewrite (aget_OK 0%R) by lia. reflexivity. }
  match goal with |- for_up 0 len ?F ?S = _ =>
    destruct (for_up_inv (fun i s => s = ztab i (Rn src)) 0 len F S) as (f & E & HE); [lia| | |] end.
  - reflexivity.
  - intros i s Hi ->. eexists; split; [reflexivity|]. now rewrite ztab_snoc by lia.
  - rewrite E, HE. f_equal. apply (zn_ext 0%R); [zl; lia|]. intros i Hi. zl. rewrite zn_ztab, zn_firstn by lia. auto.
Qed.

Theorem median_spec src len : 1 <= len <= zlen src ->
  exists u v, is_kth Rltb (len / 2) (firstn (Z.to_nat len) src) u /\
    is_kth Rltb ((len - 1) / 2) (firstn (Z.to_nat len) src) v /\
    median_ src len = OK ((u + v) / 2)%R.
Proof.
  intros H. unfold median_. destruct (Z.eqb_spec len 0); [lia|]. rewrite copy_all by lia. cbn [bind].
  set (l := firstn (Z.to_nat len) src). assert (L : zlen (sort_ l) = len) by (rewrite len_sort; unfold l; zl; lia).
  rewrite Z.quot_div_nonneg, Z.rem_mod_nonneg by lia.
  assert (K : forall k, 0 <= k < len -> is_kth Rltb k l (Rn (sort_ l) k)).
  { intros k Hk. unfold is_kth. rewrite <- (cnt_sort _ l), <- (cnt_sort _ l). apply rsorted_kth; [apply sort_sorted|lia]. }
  pose proof (Z.div_mod len 2 ltac:(lia)). pose proof (Z.mod_pos_bound len 2 ltac:(lia)).
  exists (Rn (sort_ l) (len / 2)), (Rn (sort_ l) ((len - 1) / 2)).
  assert (0 <= (len - 1) / 2 < len) by (split; [apply Z.div_pos; lia|apply Z.div_lt_upper_bound; lia]).
  splits; try (apply K; lia).
  destruct (Z.eqb_spec (len mod 2) 0) as [E|E].
  - rewrite !(aget_OK 0%R) by lia. cbn [bind].
    replace ((len - 1) / 2) with (len / 2 - 1); auto.
    apply Z.div_unique with 1; lia.
  - rewrite (aget_OK 0%R) by lia. replace ((len - 1) / 2) with (len / 2).
    + f_equal. field.
    + apply Z.div_unique with 0; lia.
Qed.
