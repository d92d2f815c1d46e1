(** Arrays and matrices given by functions: one-cell updates, and loops whose state at every
    iteration is known in closed form. *)
From Coq Require Import List ZArith Lia Bool.
From Verif.Base Require Import Imp Sums Loops Matrix.
Import ListNotations.
Open Scope Z_scope.

(** Checked write [m[i][j] = v]. *)
Definition mput {A} (m : list (list A)) (i j : Z) (v : A) : res (list (list A)) :=
  r <- aget m i ;; r <- aset r j v ;; aset m i r.

Definition set1 {A} (f : Z -> A) (i : Z) (v : A) : Z -> A := fun x => if x =? i then v else f x.
Definition set2 {A} (f : Z -> Z -> A) (i j : Z) (v : A) : Z -> Z -> A :=
  fun x y => if (x =? i) && (y =? j) then v else f x y.

Lemma aget_tab {A} n (f : Z -> A) i : 0 <= i < n -> aget (ztab n f) i = OK (f i).
Proof. intros H. rewrite (aget_OK (f i)) by (zl; lia). now rewrite zn_ztab by lia. Qed.
Lemma aset_tab {A} n (f : Z -> A) i v : 0 <= i < n -> aset (ztab n f) i v = OK (ztab n (set1 f i v)).
Proof.
  intros H. rewrite aset_OK by (zl; lia). f_equal. apply (zn_ext v); [zl; lia|]. intros k Hk. zl.
  rewrite zn_upd by (zl; lia). rewrite !zn_ztab by lia. unfold set1.
  destruct (Z.eqb_spec k i) as [E|E]; zcase; subst; try lia; auto.
Qed.
Lemma mget_tab {A} n k (f : Z -> Z -> A) i j : 0 <= i < n -> 0 <= j < k -> mget (tab2 n k f) i j = OK (f i j).
Proof. intros Hi Hj. unfold mget, tab2. rewrite aget_tab by lia. cbn [bind]. now rewrite aget_tab by lia. Qed.
Lemma tab2_ext {A} n k (f g : Z -> Z -> A) :
  (forall i j, 0 <= i < n -> 0 <= j < k -> f i j = g i j) -> tab2 n k f = tab2 n k g.
Proof. intros H. unfold tab2. apply ztab_ext. intros i Hi. apply ztab_ext. auto. Qed.
Lemma mput_tab {A} n k (f : Z -> Z -> A) i j v : 0 <= i < n -> 0 <= j < k ->
  mput (tab2 n k f) i j v = OK (tab2 n k (set2 f i j v)).
Proof.
  intros Hi Hj. unfold mput, tab2. rewrite aget_tab by lia. cbn [bind]. rewrite aset_tab by lia. cbn [bind].
  rewrite aset_tab by lia. f_equal. apply ztab_ext. intros x Hx. unfold set1 at 1.
  destruct (Z.eqb_spec x i) as [->|N].
  - apply ztab_ext. intros y Hy. unfold set1, set2. now rewrite Z.eqb_refl.
  - apply ztab_ext. intros y Hy. unfold set2. apply Z.eqb_neq in N. now rewrite N.
Qed.
Lemma mput_OK {A} n k (d : A) (m : list (list A)) i j v : 0 <= n -> 0 <= k -> shape n k m -> 0 <= i < n -> 0 <= j < k ->
  mput m i j v = OK (tab2 n k (set2 (ent d m) i j v)).
Proof.
  intros Hn Hk S Hi Hj. rewrite (shape_ext d n k m (ent d m)) at 1 by auto. now apply mput_tab.
Qed.

(** The state before iteration i is [S i]. *)
Lemma for_up_path {St} (S : Z -> St) lo hi body : lo <= hi ->
  (forall i, lo <= i < hi -> body i (S i) = OK (S (i + 1))) -> for_up lo hi body (S lo) = OK (S hi).
Proof.
  intros H B. destruct (for_up_inv (fun i s => s = S i) lo hi body (S lo)) as (s & E & ->); auto.
  intros i s Hi ->. eauto.
Qed.
Lemma for_down_path {St} (S : Z -> St) hi lo body : lo <= hi + 1 ->
  (forall i, lo <= i <= hi -> body i (S i) = OK (S (i - 1))) -> for_down hi lo body (S hi) = OK (S (lo - 1)).
Proof.
  intros H B. destruct (for_down_inv (fun i s => s = S i) hi lo body (S hi)) as (s & E & ->); auto.
  intros i s Hi ->. eauto.
Qed.
