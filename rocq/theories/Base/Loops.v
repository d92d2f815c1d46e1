(** Loops that fill an array, and rearranging sums over R. *)
From Coq Require Import List ZArith Reals Lia Lra Bool.
From Verif.Base Require Import Imp Sums RealOps.
Import ListNotations.
Open Scope Z_scope.

(** Sequencing after a normal result, as a rewriting rule (a kernel conversion here may
    prefer to run a loop with a concrete bound). *)
Lemma bind_ret {A B} (a : A) (k : A -> res B) : bind (OK a) k = k a.
Proof. reflexivity. Qed.
Ltac ret := rewrite bind_ret; cbv beta iota.

(** [for (i = 0; i < n; ++i) l[i] = e(i);] *)
Lemma for_up_tab {A} n (body : Z -> list A -> res (list A)) (g : Z -> A) l :
  0 <= n <= zlen l ->
  (forall i s, 0 <= i < n -> zlen s = zlen l -> (forall d k, i <= k -> zn d s k = zn d l k) ->
     (forall d k, 0 <= k < i -> zn d s k = g k) -> body i s = aset s i (g i)) ->
  for_up 0 n body l = OK (ztab n g ++ skipn (Z.to_nat n) l).
Proof.
  intros Hn Hb.
  destruct (for_up_inv (fun i s => s = ztab i g ++ skipn (Z.to_nat i) l) 0 n body l) as (s & E & ->);
    [lia|reflexivity| |exact E].
  intros i s Hi ->.
  assert (L : zlen (ztab i g ++ skipn (Z.to_nat i) l) = zlen l) by (zl; lia).
  rewrite Hb; auto.
  - rewrite aset_OK by lia. eexists; split; [reflexivity|].
    destruct l as [|d l0]; [zl; lia|]. set (l := d :: l0) in *.
    apply (zn_ext d); [zl; lia|]. intros k Hk. zl. rewrite zn_upd by (zl; lia).
    rewrite !zn_app. zl. rewrite !Z.max_r by lia.
    zcase; subst; try lia; rewrite ?zn_ztab by lia; auto.
    rewrite !zn_skipn by lia. f_equal. lia.
  - intros d k Hk. rewrite zn_app. zl. rewrite Z.max_r by lia. zcase. rewrite zn_skipn by lia. f_equal; lia.
  - intros d k Hk. rewrite zn_app. zl. rewrite Z.max_r by lia. zcase. rewrite zn_ztab by lia. auto.
Qed.

(** The common case: the value does not depend on the array. *)
Lemma for_up_set {A} n (e : Z -> res A) (g : Z -> A) l :
  0 <= n <= zlen l -> (forall i, 0 <= i < n -> e i = OK (g i)) ->
  for_up 0 n (fun i s => v <- e i ;; aset s i v) l = OK (ztab n g ++ skipn (Z.to_nat n) l).
Proof. intros Hn H. apply for_up_tab; auto. intros i s Hi _ _ _. now rewrite H. Qed.

(** Two arrays filled by the same loop. *)
Lemma for_up_set2 {A B} n (e1 : Z -> res A) (e2 : Z -> res B) (g1 : Z -> A) (g2 : Z -> B) l1 l2 :
  0 <= n -> n = zlen l1 -> n = zlen l2 ->
  (forall i, 0 <= i < n -> e1 i = OK (g1 i)) -> (forall i, 0 <= i < n -> e2 i = OK (g2 i)) ->
  for_up 0 n (fun i '(s1, s2) =>
    x <- e1 i ;; y <- e2 i ;; s1 <- aset s1 i x ;; s2 <- aset s2 i y ;; OK (s1, s2)) (l1, l2)
  = OK (ztab n g1, ztab n g2).
Proof.
  intros Hn N1 N2 H1 H2.
  match goal with |- for_up 0 n ?F ?S = _ =>
    destruct (for_up_inv (fun i s => s = (ztab i g1 ++ skipn (Z.to_nat i) l1, ztab i g2 ++ skipn (Z.to_nat i) l2))
      0 n F S) as (s & E & ->); [lia|reflexivity| |] end.
  - intros i s Hi ->. rewrite H1, H2 by auto. cbn [bind]. rewrite !aset_OK by (zl; lia). cbn [bind].
    eexists; split; [reflexivity|].
    assert (G : forall C (g : Z -> C) l, zlen l = n ->
      upd (ztab i g ++ skipn (Z.to_nat i) l) (Z.to_nat i) (g i) = ztab (i + 1) g ++ skipn (Z.to_nat (i + 1)) l).
    { intros C g [|c l0] L; [zl; lia|]. set (l := c :: l0) in *. apply (zn_ext c); [zl; lia|]. intros k Hk. zl.
      rewrite zn_upd by (zl; lia). rewrite !zn_app. zl. rewrite !Z.max_r by lia.
      zcase; subst; try lia; rewrite ?zn_ztab by lia; auto. rewrite !zn_skipn by lia. f_equal. lia. }
    now rewrite !G by lia.
  - rewrite E. rewrite !skipn_all2 by (unfold zlen in *; lia). now rewrite !app_nil_r.
Qed.

Lemma skipn_zlen {A} (l : list A) n : zlen l <= n -> skipn (Z.to_nat n) l = [].
Proof. intros. apply skipn_all2. unfold zlen in *. lia. Qed.

(** *** Sums *)
Lemma rsum_split n m f : 0 <= n -> 0 <= m -> (rsum (n + m) f = rsum n f + rsum m (fun i => f (n + i)%Z))%R.
Proof.
  intros Hn Hm. revert m Hm.
  apply (natlike_ind (fun m => rsum (n + m) f = (rsum n f + rsum m (fun i => f (n + i)%Z))%R)).
  - rewrite Z.add_0_r, (rsum_0 0) by lia. lra.
  - intros m Hm IH. unfold Z.succ. rewrite Z.add_assoc, !rsum_S, IH by lia. lra.
Qed.

Lemma rsum_rev n f : rsum n (fun i => f (n - 1 - i)) = rsum n f.
Proof.
  destruct (Z.le_gt_cases n 0) as [H|H]; [now rewrite !rsum_0 by lia|].
  revert f. pattern n. apply rsum_ind; [intros; now rewrite !rsum_0 by lia| |lia].
  intros m Hm IH f. rewrite rsum_S by lia. rewrite (rsum_first (m + 1) f) by lia.
  replace (m + 1 - 1) with m by lia. rewrite <- (IH (fun i => f (i + 1))). rewrite Rplus_comm. f_equal.
  - f_equal. lia.
  - apply rsum_ext. intros i Hi. f_equal. lia.
Qed.

(** Rotating the index range. *)
Lemma rsum_rot n s f : 0 < n -> rsum n (fun i => f ((i + s) mod n)) = rsum n f.
Proof.
  intros Hn. pose proof (Z.mod_pos_bound s n Hn) as Hr. set (r := s mod n) in *.
  rewrite (rsum_ext _ _ (fun i => f ((i + r) mod n))).
  2: { intros i Hi. unfold r. now rewrite Zplus_mod_idemp_r. }
  replace n with ((n - r) + r) at 1 by lia. rewrite rsum_split by lia.
  rewrite (rsum_ext (n - r) _ (fun i => f (r + i))).
  2: { intros i Hi. f_equal. rewrite Z.mod_small; lia. }
  rewrite (rsum_ext r _ f).
  2: { intros i Hi. f_equal. replace (n - r + i + r) with (i + 1 * n) by lia.
       rewrite Z.mod_add by lia. apply Z.mod_small; lia. }
  replace n with (r + (n - r)) at 2 by lia. rewrite rsum_split by lia. lra.
Qed.
