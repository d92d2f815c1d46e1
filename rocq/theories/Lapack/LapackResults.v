(** Results about invert. *)
From Coq Require Import List ZArith Reals Lia Lra Bool.
From Verif.Base Require Import Imp Sums RealOps Loops Matrix Tables.
From Verif.Lapack Require Import LapackModel LapackSpec LapackBlas LapackLu LapackInv DetFacts LapackProofs.
Import ListNotations.
Open Scope Z_scope.

Section Results.
  Variables sfmin junk : R.

  Theorem invert_always L cov icov : 1 <= L -> shape L L cov -> shape L L icov ->
    exists icov', invert sfmin junk cov L icov = OK (icov', Rabs (det (Z.to_nat L) (ent 0%R cov))) /\ shape L L icov'.
  Proof.
    intros HL S1 S2. destruct (invert_with_ok sfmin junk block_size L cov icov) as (ic & E & Sh & _); auto; try (unfold block_size; lia).
    exists ic. auto.
  Qed.
  Theorem invert_regular L cov icov : 1 <= L -> shape L L cov -> shape L L icov -> det (Z.to_nat L) (ent 0%R cov) <> 0%R ->
    exists icov', invert sfmin junk cov L icov = OK (icov', Rabs (det (Z.to_nat L) (ent 0%R cov))) /\ shape L L icov' /\
      inverse_of L (ent 0%R cov) (ent 0%R icov').
  Proof.
    intros HL S1 S2 D. destruct (invert_with_ok sfmin junk block_size L cov icov) as (ic & E & Sh & [[_ I]|[C _]]); auto; try (unfold block_size; lia).
    - exists ic. auto.
    - contradiction.
  Qed.
  Lemma invert_overwrites L cov ic1 ic2 : 1 <= L -> shape L L cov -> shape L L ic1 -> shape L L ic2 ->
    invert sfmin junk cov L ic1 = invert sfmin junk cov L ic2.
  Proof. intros. apply invert_with_overwrites; auto; unfold block_size; lia. Qed.
End Results.

(** A matrix of any size as a list of rows. *)
Lemma det_tab2 L F : 0 <= L -> det (Z.to_nat L) (ent 0%R (tab2 L L F)) = det (Z.to_nat L) F.
Proof. intros HL. apply det_ext. rewrite Z2Nat.id by lia. intros i j Hi Hj. now apply ent_tab2. Qed.
Lemma inverse_of_ext n A A' B : (forall i j, 0 <= i < n -> 0 <= j < n -> A i j = A' i j) -> inverse_of n A B -> inverse_of n A' B.
Proof.
  intros E I i j Hi Hj. destruct (I i j Hi Hj) as [I1 I2].
  split; [rewrite <- I1|rewrite <- I2]; apply rsum_ext; intros; now rewrite E by auto.
Qed.

Theorem invertible_iff_det n A : 1 <= n -> (invertible n A <-> det (Z.to_nat n) A <> 0%R).
Proof.
  intros Hn. set (m := tab2 n n A). assert (Sm : shape n n m) by (apply shape_tab2; lia).
  assert (V : forall i j, 0 <= i < n -> 0 <= j < n -> ent 0%R m i j = A i j) by (intros; now apply ent_tab2).
  destruct (invert_with_ok 0%R 0%R 1 n m m) as (ic & _ & _ & [[D I]|[D [I _]]]); auto; try lia; unfold m in D; rewrite det_tab2 in D by lia.
  - split; auto. intros _. exists (ent 0%R ic). now apply (inverse_of_ext n (ent 0%R m)).
  - split; [|contradiction]. intros [B HB]. exfalso. apply I. exists B. apply (inverse_of_ext n A); auto. intros; symmetry; auto.
Qed.

Theorem singular_kernel n A : 1 <= n -> det (Z.to_nat n) A = 0%R ->
  exists v, (exists c, 0 <= c < n /\ v c <> 0%R) /\ forall i, 0 <= i < n -> rsum n (fun k => A i k * v k)%R = 0%R.
Proof.
  intros Hn D. set (m := tab2 n n A). assert (Sm : shape n n m) by (apply shape_tab2; lia).
  destruct (invert_with_ok 0%R 0%R 1 n m m) as (ic & _ & _ & [[D' I]|[D' [_ (v & N & V)]]]); auto; try lia; unfold m in D'; rewrite det_tab2 in D' by lia.
  - contradiction.
  - exists v. split; auto. intros i Hi. rewrite <- (V i) by auto. apply rsum_ext. intros k Hk. unfold m. now rewrite ent_tab2 by auto.
Qed.

Lemma quadratic_apply n A v : quadratic n A v = rsum n (fun i => v i * rsum n (fun k => A i k * v k))%R.
Proof.
  apply rsum_ext. intros i Hi. rewrite <- rsum_scal. apply rsum_ext. intros; ring.
Qed.
Theorem posdef_det n A : 1 <= n -> posdef n A -> det (Z.to_nat n) A <> 0%R.
Proof.
  intros Hn P D. destruct (singular_kernel n A Hn D) as (v & N & V). specialize (P v N). rewrite quadratic_apply, rsum_zero in P; [lra|].
  intros i Hi. cbv beta. rewrite V by auto. ring.
Qed.

Lemma inverse_unique n A B B' : inverse_of n A B -> inverse_of n A B' -> forall i j, 0 <= i < n -> 0 <= j < n -> B i j = B' i j.
Proof.
  intros I I' i j Hi Hj. rewrite <- (rsum_kron_r n j (B i)) by auto.
  rewrite (rsum_ext n _ (fun k => B i k * rsum n (fun p => A k p * B' p j))%R).
  - rewrite rsum_assoc. rewrite (rsum_ext n _ (fun p => kron i p * B' p j)%R).
    + now apply (rsum_kron n i (fun p => B' p j)).
    + intros p Hp. f_equal. apply I; auto.
  - intros k Hk. f_equal. symmetry. apply I'; auto.
Qed.
(** The inverse of a positive definite matrix is positive definite. *)
Theorem posdef_inverse n A B : posdef n A -> inverse_of n A B -> posdef n B.
Proof.
  intros P I w (c & Hc & Wc). set (v i := rsum n (fun k => B i k * w k)%R).
  assert (AV : forall i, 0 <= i < n -> rsum n (fun k => A i k * v k)%R = w i).
  { intros i Hi. unfold v. rewrite rsum_assoc. rewrite (rsum_ext n _ (fun p => kron i p * w p)%R).
    - now apply rsum_kron.
    - intros p Hp. f_equal. apply I; auto. }
  assert (N : exists i, 0 <= i < n /\ v i <> 0%R).
  { apply Classical_Prop.NNPP. intros C. apply Wc. rewrite <- (AV c Hc). apply rsum_zero. intros k Hk. cbv beta.
    destruct (Req_dec (v k) 0) as [->|]; [ring|]. exfalso. apply C. eauto. }
  specialize (P v N). rewrite quadratic_apply in *. fold v.
  rewrite (rsum_ext n _ (fun i => v i * w i)%R) in P by (intros i Hi; now rewrite AV by auto).
  rewrite (rsum_ext n _ (fun i => v i * w i)%R); auto. intros i Hi. unfold v. ring.
Qed.

(** Small determinants. *)
Lemma det_1 A : det 1 A = A 0 0.
Proof. unfold det. change (Z.of_nat 1) with (0 + 1). rewrite rsum_S, rsum_0 by lia. cbn [Z.even]. ring. Qed.
Lemma det_2 A : det 2 A = (A 0%Z 0%Z * A 1%Z 1%Z - A 1%Z 0%Z * A 0%Z 1%Z)%R.
Proof.
  change (det 2 A) with (rsum (1 + 1) (fun i => (if Z.even i then 1 else -1) * A i 0%Z *
    det 1 (fun r c => A (if r <? i then r else r + 1)%Z (c + 1)%Z)))%R.
  rewrite rsum_S by lia. change 1 with (0 + 1) at 1. rewrite rsum_S, rsum_0 by lia. rewrite !det_1. cbn. ring.
Qed.
