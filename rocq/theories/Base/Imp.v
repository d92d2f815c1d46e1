(** Outcomes, checked arrays and counted loops: the small imperative vocabulary in which
    the C++ code is modelled.  Nothing here is specific to qm-dsp. *)
From Coq Require Import List ZArith Lia Bool.
Import ListNotations.
Open Scope Z_scope.

(** Outcome of running a piece of C/C++:
    [OK a] normal result; [UB] undefined behaviour (index outside an array, division by
    zero, use of an uninitialised or freed object); [Throw] a C++ exception;
    [Diverge] a loop ran out of the fuel given to it. *)
Inductive res (A : Type) : Type :=
| OK (a : A) | UB | Throw | Diverge.
Arguments OK {A} a.
Arguments UB {A}.
Arguments Throw {A}.
Arguments Diverge {A}.

Definition bind {A B} (x : res A) (k : A -> res B) : res B :=
  match x with OK a => k a | UB => UB | Throw => Throw | Diverge => Diverge end.
Notation "x <- e ;; k" := (bind e (fun x => k))
  (at level 61, e at next level, right associativity).
Notation "' p <- e ;; k" := (bind e (fun x => match x with p => k end))
  (at level 61, p pattern, e at next level, right associativity).

(** *** Arrays *)
Definition zlen {A} (l : list A) : Z := Z.of_nat (length l).

(** Total lookup with a default, used in specifications. *)
Definition zn {A} (d : A) (l : list A) (i : Z) : A :=
  if i <? 0 then d else nth (Z.to_nat i) l d.

(** Checked read [l[i]]. *)
Definition aget {A} (l : list A) (i : Z) : res A :=
  if i <? 0 then UB
  else match nth_error l (Z.to_nat i) with Some v => OK v | None => UB end.

Fixpoint upd {A} (l : list A) (n : nat) (v : A) : list A :=
  match l, n with
  | [], _ => []
  | _ :: t, O => v :: t
  | h :: t, S k => h :: upd t k v
  end.

(** Checked write [l[i] = v]. *)
Definition aset {A} (l : list A) (i : Z) (v : A) : res (list A) :=
  if (0 <=? i) && (i <? zlen l) then OK (upd l (Z.to_nat i) v) else UB.

(** [ztab n f] is the array [f 0, ..., f (n-1)]. *)
Definition ztab {A} (n : Z) (f : Z -> A) : list A :=
  map (fun k => f (Z.of_nat k)) (seq 0 (Z.to_nat n)).

(** *** Counted loops *)
Fixpoint for_n {St} (n : nat) (i step : Z) (f : Z -> St -> res St) (s : St) : res St :=
  match n with
  | O => OK s
  | S k => s' <- f i s ;; for_n k (i + step) step f s'
  end.

(** [for (i = lo; i < hi; ++i) body] *)
Definition for_up {St} (lo hi : Z) (f : Z -> St -> res St) (s : St) : res St :=
  for_n (Z.to_nat (hi - lo)) lo 1 f s.

(** [for (i = hi; i >= lo; --i) body] *)
Definition for_down {St} (hi lo : Z) (f : Z -> St -> res St) (s : St) : res St :=
  for_n (Z.to_nat (hi - lo + 1)) hi (-1) f s.

(** [while (c) body] with fuel. *)
Fixpoint while {St} (fuel : nat) (c : St -> bool) (body : St -> res St) (s : St) : res St :=
  if c s then
    match fuel with
    | O => Diverge
    | S k => s' <- body s ;; while k c body s'
    end
  else OK s.

(** *** Facts about outcomes *)
Lemma bind_OK {A B} (x : res A) (k : A -> res B) (b : B) :
  bind x k = OK b <-> exists a, x = OK a /\ k a = OK b.
Proof.
  destruct x; simpl; split; intros H; try discriminate; try (destruct H as (?&?&?); discriminate).
  - eauto.
  - destruct H as (a'&E&H). now injection E as ->.
Qed.

Lemma bind_assoc {A B C} (x : res A) (f : A -> res B) (g : B -> res C) :
  bind (bind x f) g = bind x (fun a => bind (f a) g).
Proof. destruct x; reflexivity. Qed.

Lemma bind_ext {A B} (x : res A) (f g : A -> res B) :
  (forall a, x = OK a -> f a = g a) -> bind x f = bind x g.
Proof. destruct x; simpl; auto. Qed.

(** *** Facts about arrays *)
Lemma zlen_nonneg {A} (l : list A) : 0 <= zlen l.
Proof. unfold zlen; lia. Qed.

Lemma zlen_nil {A} : zlen (@nil A) = 0.
Proof. reflexivity. Qed.

Lemma zlen_1 {A} (x : A) : zlen [x] = 1.
Proof. reflexivity. Qed.

Lemma zlen_cons {A} (x : A) l : zlen (x :: l) = zlen l + 1.
Proof. unfold zlen; simpl length; lia. Qed.

Lemma zlen_app {A} (l1 l2 : list A) : zlen (l1 ++ l2) = zlen l1 + zlen l2.
Proof. unfold zlen; rewrite app_length; lia. Qed.

Lemma zlen_rev {A} (l : list A) : zlen (rev l) = zlen l.
Proof. unfold zlen; now rewrite rev_length. Qed.

Lemma zlen_map {A B} (f : A -> B) l : zlen (map f l) = zlen l.
Proof. unfold zlen; now rewrite map_length. Qed.

Lemma zlen_repeat {A} (x : A) n : zlen (repeat x n) = Z.of_nat n.
Proof. unfold zlen; now rewrite repeat_length. Qed.

Lemma length_upd {A} (l : list A) n v : length (upd l n v) = length l.
Proof. revert n; induction l as [|h t IH]; intros [|n]; simpl; auto. Qed.

Lemma zlen_upd {A} (l : list A) n v : zlen (upd l n v) = zlen l.
Proof. unfold zlen; now rewrite length_upd. Qed.

Lemma nth_upd_same {A} (d : A) l n v : (n < length l)%nat -> nth n (upd l n v) d = v.
Proof.
  revert n; induction l as [|h t IH]; intros [|n] H; simpl in *; try lia; auto.
  apply IH; lia.
Qed.

Lemma nth_upd_other {A} (d : A) l n m v : n <> m -> nth m (upd l n v) d = nth m l d.
Proof.
  revert n m; induction l as [|h t IH]; intros [|n] [|m] H; simpl; auto; try congruence.
Qed.

Lemma zn_upd {A} (d : A) l i v j :
  0 <= i < zlen l -> 0 <= j ->
  zn d (upd l (Z.to_nat i) v) j = if j =? i then v else zn d l j.
Proof.
  unfold zn, zlen; intros Hi Hj.
  destruct (Z.ltb_spec j 0); [lia|].
  destruct (Z.eqb_spec j i) as [->|Hne].
  - apply nth_upd_same; lia.
  - apply nth_upd_other; lia.
Qed.

Lemma aget_OK {A} (d : A) l i : 0 <= i < zlen l -> aget l i = OK (zn d l i).
Proof.
  unfold aget, zn, zlen; intros H.
  destruct (Z.ltb_spec i 0); [lia|].
  destruct (nth_error l (Z.to_nat i)) eqn:E.
  - now rewrite (nth_error_nth _ _ _ E).
  - apply nth_error_None in E; lia.
Qed.

Lemma aget_inv {A} (d : A) l i v : aget l i = OK v -> 0 <= i < zlen l /\ v = zn d l i.
Proof.
  unfold aget, zn, zlen.
  destruct (Z.ltb_spec i 0); [discriminate|].
  destruct (nth_error l (Z.to_nat i)) eqn:E; [|discriminate].
  intros [= <-]. split.
  - assert (Hs : nth_error l (Z.to_nat i) <> None) by congruence.
    apply nth_error_Some in Hs; lia.
  - symmetry; now apply nth_error_nth.
Qed.

Lemma aget_UB {A} (l : list A) i : i < 0 \/ zlen l <= i -> aget l i = UB.
Proof.
  unfold aget, zlen; intros H.
  destruct (Z.ltb_spec i 0); [reflexivity|].
  destruct (nth_error l (Z.to_nat i)) eqn:E; [|reflexivity].
  assert (Hs : nth_error l (Z.to_nat i) <> None) by congruence.
  apply nth_error_Some in Hs; lia.
Qed.

Lemma aset_OK {A} (l : list A) i v :
  0 <= i < zlen l -> aset l i v = OK (upd l (Z.to_nat i) v).
Proof.
  unfold aset; intros H.
  destruct (Z.leb_spec 0 i); [|lia]. destruct (Z.ltb_spec i (zlen l)); [reflexivity|lia].
Qed.

Lemma aset_inv {A} (l : list A) i v l' :
  aset l i v = OK l' -> 0 <= i < zlen l /\ l' = upd l (Z.to_nat i) v.
Proof.
  unfold aset.
  destruct (Z.leb_spec 0 i); simpl; [|discriminate].
  destruct (Z.ltb_spec i (zlen l)); [|discriminate].
  intros [= <-]; auto.
Qed.

Lemma zn_out {A} (d : A) l i : i < 0 \/ zlen l <= i -> zn d l i = d.
Proof.
  unfold zn, zlen; intros H. destruct (Z.ltb_spec i 0); [reflexivity|].
  apply nth_overflow; lia.
Qed.

Lemma zn_default {A} (d d' : A) l i : 0 <= i < zlen l -> zn d l i = zn d' l i.
Proof.
  unfold zn, zlen; intros H. destruct (Z.ltb_spec i 0); [lia|].
  apply nth_indep; lia.
Qed.

Lemma zn_nil {A} (d : A) i : zn d [] i = d.
Proof. unfold zn. destruct (i <? 0); auto. now destruct (Z.to_nat i). Qed.

Lemma zn_cons {A} (d : A) x l i :
  zn d (x :: l) i = if i =? 0 then x else if i <? 0 then d else zn d l (i - 1).
Proof.
  unfold zn. destruct (Z.eqb_spec i 0) as [->|Hne]; [reflexivity|].
  destruct (Z.ltb_spec i 0); [reflexivity|].
  destruct (Z.ltb_spec (i - 1) 0); [lia|].
  replace (Z.to_nat i) with (S (Z.to_nat (i - 1))) by lia. reflexivity.
Qed.

Lemma zn_app {A} (d : A) l1 l2 i :
  zn d (l1 ++ l2) i = if i <? zlen l1 then zn d l1 i else zn d l2 (i - zlen l1).
Proof.
  unfold zn, zlen.
  destruct (Z.ltb_spec i 0); destruct (Z.ltb_spec i (Z.of_nat (length l1)));
    destruct (Z.ltb_spec (i - Z.of_nat (length l1)) 0); try lia; auto.
  - rewrite app_nth1 by lia; reflexivity.
  - rewrite app_nth2 by lia. f_equal; lia.
Qed.

Lemma zn_rev {A} (d : A) l i : 0 <= i < zlen l -> zn d (rev l) i = zn d l (zlen l - 1 - i).
Proof.
  unfold zn, zlen; intros H.
  destruct (Z.ltb_spec i 0); [lia|].
  destruct (Z.ltb_spec (Z.of_nat (length l) - 1 - i) 0); [lia|].
  rewrite rev_nth by lia. f_equal; lia.
Qed.

Lemma zn_map {A B} (f : A -> B) (d : A) (d' : B) l i :
  0 <= i < zlen l -> zn d' (map f l) i = f (zn d l i).
Proof.
  unfold zn, zlen; intros H.
  destruct (Z.ltb_spec i 0); [lia|].
  rewrite (nth_indep _ d' (f d)) by (rewrite map_length; lia).
  apply map_nth.
Qed.

Lemma zn_repeat {A} (d : A) n i : zn d (repeat d n) i = d.
Proof.
  unfold zn. destruct (i <? 0); [reflexivity|].
  generalize (Z.to_nat i); intros k; revert k.
  induction n as [|n IH]; intros [|k]; simpl; auto.
Qed.

Lemma zn_repeat_in {A} (d x : A) n i : 0 <= i < Z.of_nat n -> zn d (repeat x n) i = x.
Proof.
  intros H. rewrite (zn_default d x) by (rewrite zlen_repeat; lia). apply zn_repeat.
Qed.

Lemma zn_firstn {A} (d : A) l n i :
  0 <= i < Z.of_nat n -> zn d (firstn n l) i = zn d l i.
Proof.
  unfold zn; intros H. destruct (Z.ltb_spec i 0); [lia|].
  revert n i H H0. induction l as [|x t IH]; intros n i H H0.
  - now rewrite firstn_nil.
  - destruct n as [|n]; [lia|]. simpl firstn.
    destruct (Z.to_nat i) as [|k] eqn:E; [reflexivity|]. simpl.
    specialize (IH n (i - 1)). replace (Z.to_nat (i - 1)) with k in IH by lia.
    apply IH; lia.
Qed.

Lemma zn_skipn {A} (d : A) l n i : 0 <= i -> zn d (skipn n l) i = zn d l (i + Z.of_nat n).
Proof.
  unfold zn; intros H. destruct (Z.ltb_spec i 0); [lia|].
  destruct (Z.ltb_spec (i + Z.of_nat n) 0); [lia|].
  replace (Z.to_nat (i + Z.of_nat n)) with (n + Z.to_nat i)%nat by lia.
  clear. revert l. induction n as [|n IH]; intros l; simpl; [reflexivity|].
  destruct l as [|x t]; [now destruct (Z.to_nat i)|]. apply IH.
Qed.

Lemma zlen_firstn {A} n (l : list A) : zlen (firstn n l) = Z.min (Z.of_nat n) (zlen l).
Proof. unfold zlen; rewrite firstn_length; lia. Qed.

Lemma zlen_skipn {A} n (l : list A) : zlen (skipn n l) = Z.max 0 (zlen l - Z.of_nat n).
Proof. unfold zlen; rewrite skipn_length; lia. Qed.

Lemma zn_ext {A} (d : A) l1 l2 :
  zlen l1 = zlen l2 -> (forall i, 0 <= i < zlen l1 -> zn d l1 i = zn d l2 i) -> l1 = l2.
Proof.
  unfold zlen, zn; intros Hl H.
  apply (nth_ext _ _ d d); [lia|].
  intros n Hn. specialize (H (Z.of_nat n)).
  destruct (Z.ltb_spec (Z.of_nat n) 0); [lia|].
  rewrite !Nat2Z.id in H. apply H; lia.
Qed.

Lemma zlen_ztab {A} n (f : Z -> A) : zlen (ztab n f) = Z.max 0 n.
Proof. unfold zlen, ztab; rewrite map_length, seq_length; lia. Qed.

Lemma zn_ztab {A} (d : A) n f i : 0 <= i < n -> zn d (ztab n f) i = f i.
Proof.
  intros H. unfold zn, ztab. destruct (Z.ltb_spec i 0); [lia|].
  rewrite (nth_indep _ d (f (Z.of_nat 0))) by (rewrite map_length, seq_length; lia).
  rewrite (map_nth (fun k => f (Z.of_nat k))).
  rewrite seq_nth by lia. f_equal; lia.
Qed.

Lemma ztab_ext {A} n (f g : Z -> A) :
  (forall i, 0 <= i < n -> f i = g i) -> ztab n f = ztab n g.
Proof.
  intros H. unfold ztab. apply map_ext_in. intros k Hk. apply in_seq in Hk. apply H; lia.
Qed.

Lemma ztab_zn {A} (d : A) l : ztab (zlen l) (zn d l) = l.
Proof.
  apply (zn_ext d).
  - rewrite zlen_ztab. pose proof (zlen_nonneg l); lia.
  - intros i Hi. rewrite zlen_ztab in Hi. pose proof (zlen_nonneg l).
    rewrite zn_ztab by lia. reflexivity.
Qed.

Lemma ztab_snoc {A} n (f : Z -> A) : 0 <= n -> ztab (n + 1) f = ztab n f ++ [f n].
Proof.
  intros H. unfold ztab. replace (Z.to_nat (n + 1)) with (S (Z.to_nat n)) by lia.
  rewrite seq_S, map_app. simpl. now rewrite Z2Nat.id by lia.
Qed.

Lemma ztab_cons {A} n (f : Z -> A) : 0 < n -> ztab n f = f 0 :: ztab (n - 1) (fun i => f (i + 1)).
Proof.
  intros H. unfold ztab. replace (Z.to_nat n) with (S (Z.to_nat (n - 1))) by lia.
  simpl seq. rewrite <- seq_shift, map_cons, map_map. f_equal.
  apply map_ext; intros k. f_equal; lia.
Qed.

Lemma ztab_0 {A} n (f : Z -> A) : n <= 0 -> ztab n f = [].
Proof. intros H. unfold ztab. now replace (Z.to_nat n) with 0%nat by lia. Qed.

Lemma ztab_app {A} n m (f : Z -> A) :
  0 <= n -> 0 <= m -> ztab (n + m) f = ztab n f ++ ztab m (fun i => f (n + i)).
Proof.
  intros Hn Hm. revert m Hm.
  apply (natlike_ind (fun m => ztab (n + m) f = ztab n f ++ ztab m (fun i => f (n + i)))).
  - rewrite (ztab_0 0) by lia. now rewrite app_nil_r, Z.add_0_r.
  - intros m Hm IH. unfold Z.succ. rewrite Z.add_assoc, !ztab_snoc by lia.
    now rewrite IH, app_assoc.
Qed.

(** *** Rules for loops *)
Lemma for_n_app {St} n m i step (f : Z -> St -> res St) s :
  for_n (n + m) i step f s
  = bind (for_n n i step f s) (for_n m (i + Z.of_nat n * step) step f).
Proof.
  revert i s; induction n as [|n IH]; intros i s.
  - simpl. now replace (i + 0) with i by lia.
  - simpl plus. cbn [for_n]. rewrite bind_assoc. apply bind_ext; intros a _.
    rewrite IH. apply bind_ext; intros b _. f_equal. lia.
Qed.

Lemma for_n_ext {St} n i step (f g : Z -> St -> res St) s :
  (forall k s, (k < n)%nat -> f (i + Z.of_nat k * step) s = g (i + Z.of_nat k * step) s) ->
  for_n n i step f s = for_n n i step g s.
Proof.
  revert i s; induction n as [|n IH]; intros i s H; [reflexivity|].
  cbn [for_n]. pose proof (H 0%nat s ltac:(lia)) as H0.
  replace (i + Z.of_nat 0 * step) with i in H0 by lia.
  rewrite H0. apply bind_ext; intros a _. apply IH. intros k s' Hk.
  specialize (H (S k) s' ltac:(lia)).
  replace (i + Z.of_nat (S k) * step) with (i + step + Z.of_nat k * step) in H by lia.
  exact H.
Qed.

(** Total-correctness rule: the invariant [P i s] holds before iteration [i]. *)
Lemma for_up_inv {St} (P : Z -> St -> Prop) lo hi f s :
  lo <= hi -> P lo s ->
  (forall i s, lo <= i < hi -> P i s -> exists s', f i s = OK s' /\ P (i + 1) s') ->
  exists s', for_up lo hi f s = OK s' /\ P hi s'.
Proof.
  intros Hle H0 Hstep. unfold for_up.
  remember (Z.to_nat (hi - lo)) as n eqn:En.
  revert lo s Hle H0 Hstep En; induction n as [|n IH]; intros lo s Hle H0 Hstep En.
  - exists s; split; [reflexivity|]. replace hi with lo by lia. exact H0.
  - cbn [for_n]. destruct (Hstep lo s ltac:(lia) H0) as (s1 & E1 & H1).
    rewrite E1. cbn [bind]. apply IH; try lia; auto.
    intros i s' Hi. apply Hstep; lia.
Qed.

Lemma for_down_inv {St} (P : Z -> St -> Prop) hi lo f s :
  lo <= hi + 1 -> P hi s ->
  (forall i s, lo <= i <= hi -> P i s -> exists s', f i s = OK s' /\ P (i - 1) s') ->
  exists s', for_down hi lo f s = OK s' /\ P (lo - 1) s'.
Proof.
  intros Hle H0 Hstep. unfold for_down.
  remember (Z.to_nat (hi - lo + 1)) as n eqn:En.
  revert hi s Hle H0 Hstep En; induction n as [|n IH]; intros hi s Hle H0 Hstep En.
  - exists s; split; [reflexivity|]. replace (lo - 1) with hi by lia. exact H0.
  - cbn [for_n]. destruct (Hstep hi s ltac:(lia) H0) as (s1 & E1 & H1).
    rewrite E1. cbn [bind]. replace (hi + -1) with (hi - 1) by lia. apply IH; try lia; auto.
    intros i s' Hi. apply Hstep; lia.
Qed.

Lemma for_up_empty {St} lo hi (f : Z -> St -> res St) s : hi <= lo -> for_up lo hi f s = OK s.
Proof. intros H. unfold for_up. now replace (Z.to_nat (hi - lo)) with 0%nat by lia. Qed.

Lemma for_up_last {St} lo hi (f : Z -> St -> res St) s :
  lo <= hi -> for_up lo (hi + 1) f s = bind (for_up lo hi f s) (f hi).
Proof.
  intros H. unfold for_up. replace (Z.to_nat (hi + 1 - lo)) with (Z.to_nat (hi - lo) + 1)%nat by lia.
  rewrite for_n_app. apply bind_ext; intros a _. cbn [for_n].
  replace (lo + Z.of_nat (Z.to_nat (hi - lo)) * 1) with hi by lia.
  destruct (f hi a); reflexivity.
Qed.

Lemma for_up_first {St} lo hi (f : Z -> St -> res St) s :
  lo < hi -> for_up lo hi f s = bind (f lo s) (for_up (lo + 1) hi f).
Proof.
  intros H. unfold for_up. replace (Z.to_nat (hi - lo)) with (S (Z.to_nat (hi - (lo + 1)))) by lia.
  reflexivity.
Qed.

Lemma for_up_split {St} lo mid hi (f : Z -> St -> res St) s :
  lo <= mid <= hi -> for_up lo hi f s = bind (for_up lo mid f s) (for_up mid hi f).
Proof.
  intros H. unfold for_up.
  replace (Z.to_nat (hi - lo)) with (Z.to_nat (mid - lo) + Z.to_nat (hi - mid))%nat by lia.
  rewrite for_n_app. apply bind_ext; intros a _.
  replace (lo + Z.of_nat (Z.to_nat (mid - lo)) * 1) with mid by lia. reflexivity.
Qed.

Lemma for_up_ext {St} lo hi (f g : Z -> St -> res St) s :
  (forall i s, lo <= i < hi -> f i s = g i s) -> for_up lo hi f s = for_up lo hi g s.
Proof.
  intros H. unfold for_up. apply for_n_ext. intros k s' Hk. apply H. lia.
Qed.

(** A loop that fills [l[i] = g i] for [lo <= i < hi]. *)
Lemma for_up_fill {A} (d : A) lo hi (g : Z -> A) l :
  0 <= lo <= hi -> hi <= zlen l ->
  exists l', for_up lo hi (fun i l => aset l i (g i)) l = OK l' /\ zlen l' = zlen l /\
    forall j, 0 <= j -> zn d l' j = if (lo <=? j) && (j <? hi) then g j else zn d l j.
Proof.
  intros Hlo Hhi.
  destruct (for_up_inv (fun i l' => zlen l' = zlen l /\
     forall j, 0 <= j -> zn d l' j = if (lo <=? j) && (j <? i) then g j else zn d l j)
     lo hi (fun i l => aset l i (g i)) l) as (l' & E & H); try lia.
  - split; [reflexivity|]. intros j Hj.
    destruct (Z.leb_spec lo j), (Z.ltb_spec j lo); simpl; auto; lia.
  - intros i s Hi [Hl Hs]. exists (upd s (Z.to_nat i) (g i)). split.
    + apply aset_OK; lia.
    + split; [now rewrite zlen_upd|]. intros j Hj. rewrite zn_upd by lia. rewrite Hs by lia.
      destruct (Z.eqb_spec j i) as [->|].
      * destruct (Z.leb_spec lo i), (Z.ltb_spec i (i + 1)); simpl; auto; lia.
      * destruct (Z.leb_spec lo j), (Z.ltb_spec j (i + 1)), (Z.ltb_spec j i); simpl; auto; lia.
  - exists l'. auto.
Qed.

(** Total-correctness rule for [while], with a measure. *)
Lemma while_inv {St} (P : St -> Prop) (mu : St -> nat) (c : St -> bool) body :
  (forall s, P s -> c s = true -> exists s', body s = OK s' /\ P s' /\ (mu s' < mu s)%nat) ->
  forall fuel s, P s -> (mu s <= fuel)%nat ->
    exists s', while fuel c body s = OK s' /\ P s' /\ c s' = false.
Proof.
  intros Hb. induction fuel as [|fuel IH]; intros s Hs Hm; simpl; destruct (c s) eqn:E;
    try (now exists s).
  - destruct (Hb s Hs E) as (s' & _ & _ & H). lia.
  - destruct (Hb s Hs E) as (s' & Eb & Hs' & H). rewrite Eb. cbn [bind]. apply IH; auto; lia.
Qed.

(** Normalise lengths. *)
Global Hint Rewrite @zlen_app @zlen_rev @zlen_map @zlen_repeat @zlen_upd @zlen_firstn
  @zlen_skipn @zlen_ztab @zlen_1 @zlen_cons : zl.
Ltac zl :=
  autorewrite with zl in *;
  repeat match goal with
  | |- context [zlen (@nil ?A)] => change (zlen (@nil A)) with 0
  | H : context [zlen (@nil ?A)] |- _ => change (zlen (@nil A)) with 0 in H
  | |- context [Z.of_nat (length ?l)] => change (Z.of_nat (length l)) with (zlen l)
  | H : context [Z.of_nat (length ?l)] |- _ => change (Z.of_nat (length l)) with (zlen l) in H
  end.

(** Split conjunctions only (unlike [split], never introduces). *)
Ltac splits := repeat match goal with |- _ /\ _ => split end.

(** Case analysis on all integer comparisons of the goal, dropping impossible cases. *)
Ltac zcase :=
  repeat (match goal with
  | |- context [?a <? ?b] => destruct (Z.ltb_spec a b)
  | |- context [?a <=? ?b] => destruct (Z.leb_spec a b)
  | |- context [?a =? ?b] => destruct (Z.eqb_spec a b)
  end; try (exfalso; lia)); cbn [andb orb negb].
