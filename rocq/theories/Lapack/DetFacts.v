(** The determinant under row operations. *)
From Coq Require Import ZArith Reals Lia Lra Bool.
From Verif.Base Require Import Imp RealOps Loops.
From Verif.Lapack Require Import LapackSpec LapackBlas LapackLu.
Open Scope Z_scope.

Lemma det_S m A : det (S m) A = rsum (Z.of_nat (S m)) (fun i =>
  (if Z.even i then 1 else -1) * A i 0%Z * det m (fun r c => A (if r <? i then r else r + 1)%Z (c + 1)%Z))%R.
Proof. reflexivity. Qed.
Lemma det_ext n : forall A B, (forall i j, 0 <= i < Z.of_nat n -> 0 <= j < Z.of_nat n -> A i j = B i j) -> det n A = det n B.
Proof.
  induction n as [|m IH]; intros A B H; auto. rewrite !det_S. apply rsum_ext. intros i Hi. f_equal.
  - now rewrite H by lia.
  - apply IH. intros r c Hr Hc. apply H; ifs; lia.
Qed.

(** Linear in each row. *)
Lemma det_linear n : forall p a b A B C, 0 <= p < Z.of_nat n ->
  (forall j, 0 <= j < Z.of_nat n -> C p j = (a * A p j + b * B p j)%R) ->
  (forall i j, 0 <= i < Z.of_nat n -> 0 <= j < Z.of_nat n -> i <> p -> A i j = C i j /\ B i j = C i j) ->
  det n C = (a * det n A + b * det n B)%R.
Proof.
  induction n as [|m IH]; intros p a b A B C Hp HC H; [lia|]. rewrite !det_S.
  rewrite <- !rsum_scal, <- rsum_plus. apply rsum_ext. intros i Hi. cbv beta.
  destruct (Z.eq_dec i p) as [->|N].
  - rewrite HC by lia.
    rewrite (det_ext m (fun r c => A (if r <? p then r else r + 1) (c + 1)) (fun r c => C (if r <? p then r else r + 1) (c + 1)))
      by (intros r c Hr Hc; apply H; ifs; lia).
    rewrite (det_ext m (fun r c => B (if r <? p then r else r + 1) (c + 1)) (fun r c => C (if r <? p then r else r + 1) (c + 1)))
      by (intros r c Hr Hc; apply H; ifs; lia).
    ring.
  - destruct (H i 0 ltac:(lia) ltac:(lia) N) as [-> ->].
    rewrite (IH (if p <? i then p else p - 1) a b (fun r c => A (if r <? i then r else r + 1) (c + 1)) (fun r c => B (if r <? i then r else r + 1) (c + 1))).
    + ring.
    + ifs; lia.
    + intros j Hj. replace (if (if p <? i then p else p - 1) <? i then (if p <? i then p else p - 1) else (if p <? i then p else p - 1) + 1) with p.
      * apply HC. lia.
      * destruct (Z.ltb_spec p i); ifs; lia.
    + intros r c Hr Hc Nr. apply H; try lia; destruct (Z.ltb_spec p i); ifs; lia.
Qed.

Lemma rsum_pair n p f : 0 <= p -> p + 1 < n -> (forall i, 0 <= i < n -> i <> p -> i <> p + 1 -> f i = 0%R) -> rsum n f = (f p + f (p + 1)%Z)%R.
Proof.
  intros Hp H H0. replace n with (p + 1 + 1 + (n - (p + 2))) by lia. rewrite rsum_split, !rsum_S by lia.
  rewrite (rsum_zero p), (rsum_zero (n - (p + 2))); [ring| |]; intros i Hi; apply H0; lia.
Qed.

(** Zero when two neighbouring rows agree. *)
Lemma det_adjacent n : forall p A, 0 <= p -> p + 1 < Z.of_nat n ->
  (forall j, 0 <= j < Z.of_nat n -> A p j = A (p + 1) j) -> det n A = 0%R.
Proof.
  induction n as [|m IH]; intros p A Hp H HA; [lia|]. rewrite det_S. rewrite (rsum_pair _ p); [|lia|lia|].
  - rewrite HA by lia.
    rewrite (det_ext m (fun r c => A (if r <? p then r else r + 1) (c + 1)) (fun r c => A (if r <? p + 1 then r else r + 1) (c + 1))).
    + replace (Z.even (p + 1)) with (negb (Z.even p)).
      * destruct (Z.even p); cbn [negb]; ring.
      * replace (p + 1) with (Z.succ p) by lia. rewrite Z.even_succ, <- Z.negb_even. auto.
    + intros r c Hr Hc. ifs; auto; try lia. replace r with p by lia. symmetry. apply HA. lia.
  - intros i Hi N1 N2. rewrite (IH (if p <? i then p else p - 1)); [ring| | |].
    + ifs; lia.
    + ifs; lia.
    + intros j Hj. destruct (Z.ltb_spec p i); ifs; try lia.
      * apply HA. lia. * replace (p - 1 + 1 + 1) with (p + 1) by lia. replace (p - 1 + 1) with p by lia. apply HA. lia.
Qed.

Definition row_set (A : Z -> Z -> R) (p : Z) (v : Z -> R) : Z -> Z -> R := fun i j => if i =? p then v j else A i j.
Definition alt (n : nat) (p q : Z) : Prop :=
  forall A, (forall j, 0 <= j < Z.of_nat n -> A p j = A q j) -> det n A = 0%R.

Lemma det_row_add n A p v u : 0 <= p < Z.of_nat n ->
  det n (row_set A p (fun j => v j + u j)%R) = (det n (row_set A p v) + det n (row_set A p u))%R.
Proof.
  intros Hp. rewrite (det_linear n p 1 1 (row_set A p v) (row_set A p u)); [ring|auto| |].
  - intros j Hj. unfold row_set. rewrite Z.eqb_refl. ring.
  - intros i j Hi Hj N. unfold row_set. ifs; [lia|auto].
Qed.
Lemma det_row_scale n A p c v : 0 <= p < Z.of_nat n ->
  det n (row_set A p (fun j => c * v j)%R) = (c * det n (row_set A p v))%R.
Proof.
  intros Hp. rewrite (det_linear n p c 0 (row_set A p v) (row_set A p v)); [ring|auto| |].
  - intros j Hj. unfold row_set. rewrite Z.eqb_refl. ring.
  - intros i j Hi Hj N. unfold row_set. ifs; [lia|auto].
Qed.

Lemma alt_swap n p q A : 0 <= p < Z.of_nat n -> 0 <= q < Z.of_nat n -> p <> q -> alt n p q ->
  det n (fun i j => A (swp p q i) j) = (- det n A)%R.
Proof.
  intros Hp Hq N Alt. set (P := A p). set (Q := A q).
  set (D u v := det n (row_set (row_set A p u) q v)).
  assert (Z1 : forall u, D u u = 0%R).
  { intros u. apply Alt. intros j Hj. unfold row_set. ifs; auto; lia. }
  assert (L1 : forall u u' v, D (fun j => u j + u' j)%R v = (D u v + D u' v)%R).
  { intros u u' v. unfold D.
    assert (C : forall w, det n (row_set (row_set A p w) q v) = det n (row_set (row_set A q v) p w)).
    { intros w. apply det_ext. intros i j Hi Hj. unfold row_set. ifs; auto; lia. }
    rewrite !C. now apply det_row_add. }
  assert (L2 : forall u v v', D u (fun j => v j + v' j)%R = (D u v + D u v')%R).
  { intros u v v'. unfold D. now apply det_row_add. }
  assert (E : (D P Q + D Q P = 0)%R).
  { pose proof (Z1 (fun j => P j + Q j)%R) as H. rewrite L1, !L2, !Z1 in H. lra. }
  assert (E1 : det n A = D P Q).
  { apply det_ext. intros i j Hi Hj. unfold row_set, P, Q. ifs; subst; auto. }
  assert (E2 : det n (fun i j => A (swp p q i) j) = D Q P).
  { apply det_ext. intros i j Hi Hj. unfold row_set, P, Q, swp. ifs; subst; auto; lia. }
  rewrite E1, E2. lra.
Qed.

Lemma alt_all n p q : 0 <= p -> p < q -> q < Z.of_nat n -> alt n p q.
Proof.
  intros Hp Hq Hn. replace q with (p + 1 + (q - (p + 1))) by lia.
  assert (G : forall d, 0 <= d -> p + 1 + d < Z.of_nat n -> alt n p (p + 1 + d)).
  { apply (natlike_ind (fun d => p + 1 + d < Z.of_nat n -> alt n p (p + 1 + d))).
    - intros H A HA. apply (det_adjacent n p); try lia. intros j Hj. rewrite HA by auto. f_equal. lia.
    - intros d Hd IH H A HA.
      assert (Ad : alt n (p + 1 + d) (p + 1 + d + 1)).
      { intros B HB. apply (det_adjacent n (p + 1 + d)); auto; lia. }
      pose proof (alt_swap n (p + 1 + d) (p + 1 + d + 1) A ltac:(lia) ltac:(lia) ltac:(lia) Ad) as S.
      rewrite (IH ltac:(lia)) in S; [lra|].
      intros j Hj. unfold swp. ifs; try lia. rewrite HA by auto. f_equal. lia. }
  apply G; lia.
Qed.
Lemma alt_any n p q : 0 <= p < Z.of_nat n -> 0 <= q < Z.of_nat n -> p <> q -> alt n p q.
Proof.
  intros Hp Hq N. destruct (Z_lt_ge_dec p q).
  - apply alt_all; lia.
  - intros A HA. apply (alt_all n q p); try lia. intros j Hj. symmetry. auto.
Qed.

Theorem det_swap n p q A : 0 <= p < Z.of_nat n -> 0 <= q < Z.of_nat n -> p <> q ->
  det n (fun i j => A (swp p q i) j) = (- det n A)%R.
Proof. intros. apply alt_swap; auto. now apply alt_any. Qed.

(** Adding a multiple of one row to another. *)
Theorem det_add n p q c A B : 0 <= p < Z.of_nat n -> 0 <= q < Z.of_nat n -> p <> q ->
  (forall j, 0 <= j < Z.of_nat n -> B q j = (A q j + c * A p j)%R) ->
  (forall i j, 0 <= i < Z.of_nat n -> 0 <= j < Z.of_nat n -> i <> q -> B i j = A i j) ->
  det n B = det n A.
Proof.
  intros Hp Hq N HB H. rewrite (det_linear n q 1 c A (row_set A q (A p)) B); auto.
  - rewrite (alt_any n p q Hp Hq N (row_set A q (A p))); [ring|]. intros j Hj. unfold row_set. ifs; auto; lia.
  - intros j Hj. unfold row_set. rewrite Z.eqb_refl, HB by auto. ring.
  - intros i j Hi Hj Ni. unfold row_set. ifs; [lia|]. rewrite H; auto.
Qed.

Fixpoint pprod (n : nat) (f : Z -> R) : R := match n with O => 1 | S m => pprod m f * f (Z.of_nat m) end%R.
Lemma pprod_first n f : pprod (S n) f = (f 0%Z * pprod n (fun i => f (i + 1)%Z))%R.
Proof.
  induction n as [|n IH]; [cbn; ring|]. change (pprod (S (S n)) f) with (pprod (S n) f * f (Z.of_nat (S n)))%R.
  rewrite IH. change (pprod (S n) (fun i => f (i + 1)%Z)) with (pprod n (fun i => f (i + 1)%Z) * f (Z.of_nat n + 1)%Z)%R.
  replace (Z.of_nat n + 1) with (Z.of_nat (S n)) by lia. ring.
Qed.
Lemma pprod_zero n f : pprod n f = 0%R <-> exists c, 0 <= c < Z.of_nat n /\ f c = 0%R.
Proof.
  induction n as [|n IH]; cbn [pprod].
  - split; [intros C; lra|intros (c & H & _); lia].
  - split.
    + intros C. apply Rmult_integral in C. destruct C as [C|C].
      * apply IH in C. destruct C as (c & H & E). exists c. split; [lia|auto].
      * exists (Z.of_nat n). split; [lia|auto].
    + intros (c & H & E). destruct (Z.eq_dec c (Z.of_nat n)) as [->|]; [rewrite E; ring|].
      rewrite (proj2 IH); [ring|]. exists c. split; [lia|auto].
Qed.

Lemma det_upper n : forall A, (forall i j, 0 <= j < i -> i < Z.of_nat n -> A i j = 0%R) -> det n A = pprod n (fun i => A i i).
Proof.
  induction n as [|m IH]; intros A H; auto. rewrite det_S, pprod_first.
  replace (Z.of_nat (S m)) with (1 + Z.of_nat m) by lia. rewrite rsum_split by lia.
  rewrite (rsum_zero (Z.of_nat m)) by (intros i Hi; rewrite (H (1 + i)) by lia; ring).
  change 1 with (0 + 1) at 1. rewrite rsum_S, rsum_0 by lia. rewrite (IH (fun r c => A (if r <? 0 then r else r + 1) (c + 1))).
  - rewrite Rplus_0_l, Rplus_0_r. cbn [Z.even]. rewrite Rmult_1_l. f_equal.
    assert (G : forall k, (k <= m)%nat -> pprod k (fun i => A (if i <? 0 then i else i + 1) (i + 1)) = pprod k (fun i => A (i + 1) (i + 1))).
    { induction k as [|k IHk]; intros Hk; auto. cbn [pprod]. rewrite IHk by lia. ifs; auto; lia. }
    apply G. auto.
  - intros i j Hj Hi. ifs; try lia. apply H; lia.
Qed.

(** The product of the triangles has the determinant of the upper one. *)
Lemma det_lu n G A : (forall i j, 0 <= i < Z.of_nat n -> 0 <= j < Z.of_nat n ->
    A i j = rsum (Z.of_nat n) (fun p => lo G i p * up G p j)%R) ->
  det n A = pprod n (fun i => G i i).
Proof.
  intros HA.
  assert (R : forall i j, 0 <= i < Z.of_nat n -> 0 <= j < Z.of_nat n -> A i j = (up G i j + rsum i (fun p => lo G i p * up G p j))%R).
  { intros i j Hi Hj. rewrite HA by auto. replace (Z.of_nat n) with (i + 1 + (Z.of_nat n - (i + 1))) by lia.
    rewrite rsum_split, rsum_S by lia. rewrite (rsum_zero (_ - _)) by (intros p Hp; unfold lo; ifs; try lia; ring).
    unfold lo at 2. ifs; try lia. ring. }
  set (M k := fun i j => if i <? k then up G i j else A i j).
  assert (St : forall k, 0 <= k < Z.of_nat n -> det n (M (k + 1)) = det n (M k)).
  { intros k Hk.
    set (N q := fun i j => if i =? k then (up G i j + rsum q (fun p => lo G i p * up G p j))%R else M k i j).
    assert (T : forall q, 0 <= q -> q <= k -> det n (N q) = det n (M (k + 1))).
    { apply (natlike_ind (fun q => q <= k -> det n (N q) = det n (M (k + 1)))).
      - intros _. apply det_ext. intros i j Hi Hj. unfold N, M. rewrite rsum_0 by lia. ifs; subst; auto; try lia; ring.
      - intros q Hq IH H. rewrite <- IH by lia. apply (det_add n q k (lo G k q)); try lia.
        + intros j Hj. unfold N, M. rewrite <- Z.add_1_r, rsum_S by lia. ifs; try lia. ring.
        + intros i j Hi Hj Ni. unfold N. ifs; auto; lia. }
    rewrite <- (T k) by lia. apply det_ext. intros i j Hi Hj. unfold N, M. ifs; auto; try lia. subst i. now rewrite R by lia. }
  assert (C : forall k, 0 <= k -> k <= Z.of_nat n -> det n (M k) = det n A).
  { apply (natlike_ind (fun k => k <= Z.of_nat n -> det n (M k) = det n A)).
    - intros _. apply det_ext. intros i j Hi Hj. unfold M. ifs; auto; lia.
    - intros k Hk IH H. rewrite <- Z.add_1_r, St by lia. apply IH. lia. }
  rewrite <- (C (Z.of_nat n)) by lia. rewrite (det_ext n _ (up G)).
  - rewrite det_upper.
    + assert (E : forall k, pprod k (fun i => up G i i) = pprod k (fun i => G i i)).
      { induction k as [|k IH]; auto. cbn [pprod]. rewrite IH. unfold up. now rewrite Z.leb_refl. }
      apply E.
    + intros i j Hj Hi. unfold up. destruct (Z.leb_spec i j); auto; lia.
  - intros i j Hi Hj. unfold M. ifs; auto; lia.
Qed.

Lemma det_perm n pv A : (forall k, 0 <= k < Z.of_nat n -> k <= pv k < Z.of_nat n) -> forall m, (m <= n)%nat ->
  Rabs (det n (fun i j => A (perm 0 pv m i) j)) = Rabs (det n A).
Proof.
  intros Hpv. induction m as [|m IH]; intros Hm; auto. rewrite <- IH by lia. cbn [perm]. rewrite !Z.add_0_l.
  destruct (Z.eq_dec (pv (Z.of_nat m)) (Z.of_nat m)) as [E|N].
  - f_equal. apply det_ext. intros i j Hi Hj. now rewrite E, swp_self.
  - rewrite (det_swap n (Z.of_nat m) (pv (Z.of_nat m)) (fun i j => A (perm 0 pv m i) j)).
    + apply Rabs_Ropp. + lia. + specialize (Hpv (Z.of_nat m)). lia. + auto.
Qed.
