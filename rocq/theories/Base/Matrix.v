(** Arrays of pointers to rows: checked access, shapes, loops over rows. *)
From Coq Require Import List ZArith Reals Lia Lra Bool.
From Verif.Base Require Import Imp Sums RealOps Loops.
Import ListNotations.
Open Scope Z_scope.

(** Checked read [m[i][j]]. *)
Definition mget {A} (m : list (list A)) (i j : Z) : res A := r <- aget m i ;; aget r j.

(** Total lookup and shape, for specifications. *)
Definition ent {A} (d : A) (m : list (list A)) (i j : Z) : A := zn d (zn [] m i) j.
Definition shape {A} (n k : Z) (m : list (list A)) : Prop :=
  zlen m = n /\ forall i, 0 <= i < n -> zlen (zn [] m i) = k.
Definition tab2 {A} (n k : Z) (f : Z -> Z -> A) : list (list A) := ztab n (fun i => ztab k (f i)).

Lemma mget_OK {A} (d : A) n k m i j : shape n k m -> 0 <= i < n -> 0 <= j < k -> mget m i j = OK (ent d m i j).
Proof.
  intros [L R] Hi Hj. unfold mget, ent. rewrite (aget_OK []) by lia. cbn [bind]. apply aget_OK. rewrite R by lia. lia.
Qed.
Lemma shape_tab2 {A} n k (f : Z -> Z -> A) : 0 <= n -> 0 <= k -> shape n k (tab2 n k f).
Proof. intros Hn Hk. unfold tab2. split; [zl; lia|]. intros i Hi. rewrite zn_ztab by lia. zl. lia. Qed.
Lemma ent_tab2 {A} (d : A) n k f i j : 0 <= i < n -> 0 <= j < k -> ent d (tab2 n k f) i j = f i j.
Proof. intros Hi Hj. unfold ent, tab2. now rewrite !zn_ztab by lia. Qed.
Lemma shape_repeat {A} (x : A) n k : 0 <= n -> 0 <= k -> shape n k (repeat (repeat x (Z.to_nat k)) (Z.to_nat n)).
Proof.
  intros Hn Hk. split; [zl; lia|]. intros i Hi. rewrite zn_repeat_in by lia. zl. lia.
Qed.
Lemma shape_ext {A} (d : A) n k m f : 0 <= n -> 0 <= k -> shape n k m ->
  (forall i j, 0 <= i < n -> 0 <= j < k -> ent d m i j = f i j) -> m = tab2 n k f.
Proof.
  intros Hn Hk [L R] V. unfold tab2. apply (zn_ext []); [zl; lia|]. intros i Hi.
  rewrite zn_ztab by lia. specialize (R i ltac:(lia)). apply (zn_ext d); [zl; lia|]. intros j Hj.
  rewrite zn_ztab by lia. apply V; lia.
Qed.

(** A loop writing one element of an array per iteration, from [lo] on. *)
Lemma for_up_write {A} lo hi (body : Z -> list A -> res (list A)) (g : Z -> A) l :
  0 <= lo <= hi -> hi <= zlen l ->
  (forall i s, lo <= i < hi -> zlen s = zlen l -> (forall d k, lo <= k < i -> zn d s k = g k) ->
     (forall d k, 0 <= k < lo \/ i <= k -> zn d s k = zn d l k) -> body i s = aset s i (g i)) ->
  exists s, for_up lo hi body l = OK s /\ zlen s = zlen l /\ (forall d k, lo <= k < hi -> zn d s k = g k) /\
    (forall d k, 0 <= k < lo \/ hi <= k -> zn d s k = zn d l k).
Proof.
  intros Hl Hh Hb.
  destruct (for_up_inv (fun i s => zlen s = zlen l /\ (forall d k, lo <= k < i -> zn d s k = g k) /\
    (forall d k, 0 <= k < lo \/ i <= k -> zn d s k = zn d l k)) lo hi body l) as (s & E & L & V1 & V2).
  - lia.
  - splits; auto. intros; lia.
  - intros i s Hi (L & V1 & V2). rewrite Hb by auto. rewrite aset_OK by lia. eexists; split; [reflexivity|].
    splits; [zl; lia| |]; intros d k Hk; rewrite zn_upd by lia; zcase; subst; auto; try lia; [apply V1|apply V2]; lia.
  - exists s. auto.
Qed.

(** Filling a row and summing it. *)
Definition fill_row (n : Z) (e : Z -> res R) (row : list R) (s0 : R) : res (list R * R) :=
  for_up 0 n (fun i '(row, s) => v <- e i ;; row <- aset row i v ;; OK (row, (s + v)%R)) (row, s0).
Definition map_row (n : Z) (f : R -> R) (row : list R) : res (list R) :=
  for_up 0 n (fun i row => v <- aget row i ;; aset row i (f v)) row.

Lemma fill_row_ok n e g row s0 : 0 <= n -> zlen row = n -> (forall i, 0 <= i < n -> e i = OK (g i)) ->
  fill_row n e row s0 = OK (ztab n g, (s0 + rsum n g)%R).
Proof.
  intros Hn L He. unfold fill_row.
  match goal with |- for_up 0 n ?F ?S = _ =>
    destruct (for_up_inv (fun i '((r, s) : list R * R) => r = ztab i g ++ skipn (Z.to_nat i) row /\ s = (s0 + rsum i g)%R) 0 n F S)
    as ([r s] & E & -> & ->) end.
  - lia.
  - rewrite rsum_0 by lia. split; [reflexivity|lra].
  - intros i [r s] Hi (-> & ->). rewrite He by lia. cbn [bind]. rewrite aset_OK by (zl; lia). cbn [bind].
    eexists; split; [reflexivity|]. split; [|rewrite rsum_S by lia; lra].
    apply (zn_ext 0%R); [zl; lia|]. intros k Hk. zl. rewrite zn_upd by (zl; lia). rewrite !zn_app. zl. rewrite !Z.max_r by lia.
    zcase; subst; try lia; rewrite ?zn_ztab by lia; auto. rewrite !zn_skipn by lia. f_equal. lia.
  - rewrite E. rewrite skipn_zlen by lia. now rewrite app_nil_r.
Qed.
Lemma map_row_ok n f g : 0 <= n -> map_row n f (ztab n g) = OK (ztab n (fun i => f (g i))).
Proof.
  intros Hn. unfold map_row.
  rewrite (for_up_tab n _ (fun i => f (g i))).
  - rewrite skipn_zlen by (zl; lia). now rewrite app_nil_r.
  - zl. lia.
  - intros i s Hi L V _. rewrite (aget_OK 0%R) by (zl; lia). cbn [bind]. rewrite V by lia. now rewrite zn_ztab by lia.
Qed.

(** An accumulation. *)
Definition sum_up (n : Z) (e : Z -> res R) (s0 : R) : res R := for_up 0 n (fun i s => v <- e i ;; OK (s + v)%R) s0.
Lemma sum_up_ok n e g s0 : 0 <= n -> (forall i, 0 <= i < n -> e i = OK (g i)) -> sum_up n e s0 = OK (s0 + rsum n g)%R.
Proof.
  intros Hn He. unfold sum_up.
  match goal with |- for_up 0 n ?F ?S = _ =>
    destruct (for_up_inv (fun i s => s = (s0 + rsum i g)%R) 0 n F S) as (s & E & ->) end; auto.
  - rewrite rsum_0 by lia. lra.
  - intros i s Hi ->. rewrite He by lia. cbn [bind]. eexists; split; [reflexivity|]. rewrite rsum_S by lia. lra.
Qed.
