(** Positive definite matrices: triangular factors, and the inequality between determinant and trace. *)
From Coq Require Import List ZArith Reals Lia Lra Bool.
From Verif.Base Require Import Imp Sums RealOps Loops Matrix Tables.
From Verif.Lapack Require Import LapackSpec LapackLu LapackInv DetFacts LapackProofs.
Import ListNotations.
Open Scope Z_scope.

Definition unit_lower (n : Z) (K : Z -> Z -> R) : Prop :=
  (forall i, 0 <= i < n -> K i i = 1%R) /\ (forall i k, 0 <= i < k -> k < n -> K i k = 0%R).
Definition ldl (n : Z) (A K : Z -> Z -> R) (D : Z -> R) : Prop :=
  unit_lower n K /\ (forall i, 0 <= i < n -> (0 < D i)%R) /\
  forall i j, 0 <= i < n -> 0 <= j < n -> A i j = rsum n (fun k => K i k * D k * K j k)%R.

Lemma rsum_mul n m (f g : Z -> R) : (rsum n f * rsum m g)%R = rsum n (fun i => rsum m (fun j => f i * g j))%R.
Proof.
  rewrite (rsum_ext n (fun i => rsum m _) (fun i => rsum m g * f i)%R).
  - rewrite rsum_scal. ring.
  - intros i Hi. rewrite rsum_scal. ring.
Qed.

(** The Schur complement of the first entry. *)
Definition schur (A : Z -> Z -> R) (i j : Z) : R := (A (i + 1)%Z (j + 1)%Z - A (i + 1)%Z 0%Z * A (j + 1)%Z 0%Z / A 0%Z 0%Z)%R.
Lemma schur_quadratic n A v : 0 <= n -> (forall i j, 0 <= i < n + 1 -> 0 <= j < n + 1 -> A i j = A j i) -> A 0%Z 0%Z <> 0%R ->
  quadratic n (schur A) v =
  quadratic (n + 1) A (fun k => if k =? 0 then (- rsum n (fun j => v j * A (j + 1)%Z 0%Z) / A 0%Z 0%Z)%R else v (k - 1)).
Proof.
  intros Hn Sy A0. set (s := rsum n (fun j => v j * A (j + 1)%Z 0%Z)%R). set (a := A 0%Z 0%Z) in *.
  unfold quadratic. rewrite (rsum_first (n + 1)) by lia. rewrite !(rsum_first (n + 1) (fun j => _ * A 0%Z j * _)%R) by lia.
  replace (n + 1 - 1) with n by lia. cbn [Z.eqb].
  rewrite (rsum_ext n (fun i => rsum (n + 1) _) (fun i => v i * A (i + 1)%Z 0%Z * (- s / a) + rsum n (fun j => v i * A (i + 1)%Z (j + 1)%Z * v j))%R).
  2: { intros i Hi. destruct (Z.eqb_spec (i + 1) 0); [lia|]. rewrite (rsum_first (n + 1)) by lia. replace (n + 1 - 1) with n by lia. cbn [Z.eqb].
       replace (i + 1 - 1) with i by lia. f_equal. apply rsum_ext. intros j Hj. destruct (Z.eqb_spec (j + 1) 0); [lia|].
       now replace (j + 1 - 1) with j by lia. }
  rewrite rsum_plus.
  rewrite (rsum_ext n (fun i => v i * A (i + 1)%Z 0%Z * (- s / a))%R (fun i => (- s / a) * (v i * A (i + 1)%Z 0%Z))%R) by (intros; ring).
  rewrite rsum_scal. fold s.
  rewrite (rsum_ext n (fun i => - s / a * A 0%Z (i + 1)%Z * _)%R (fun i => (- s / a) * (v i * A (i + 1)%Z 0%Z))%R).
  2: { intros i Hi. destruct (Z.eqb_spec (i + 1) 0); [lia|]. replace (i + 1 - 1) with i by lia. rewrite (Sy 0 (i + 1)) by lia. ring. }
  rewrite rsum_scal. fold s. fold a.
  rewrite (rsum_ext n _ (fun i => rsum n (fun j => v i * A (i + 1)%Z (j + 1)%Z * v j) - / a * (v i * A (i + 1)%Z 0%Z * s))%R).
  - rewrite rsum_minus, rsum_scal.
    rewrite (rsum_ext n (fun i => v i * A (i + 1)%Z 0%Z * s)%R (fun i => s * (v i * A (i + 1)%Z 0%Z))%R) by (intros; ring).
    rewrite rsum_scal. fold s. field. exact A0.
  - intros i Hi. unfold schur. fold a.
    rewrite (rsum_ext n _ (fun j => v i * A (i + 1)%Z (j + 1)%Z * v j - (/ a * (v i * A (i + 1)%Z 0%Z)) * (v j * A (j + 1)%Z 0%Z))%R) by (intros; unfold Rdiv; ring).
    rewrite rsum_minus, rsum_scal. fold s. ring.
Qed.

Theorem ldl_exists n A : 0 <= n -> (forall i j, 0 <= i < n -> 0 <= j < n -> A i j = A j i) -> posdef n A -> exists K D, ldl n A K D.
Proof.
  intros Hn. revert A. revert n Hn. apply (natlike_ind (fun n => forall A, (forall i j, 0 <= i < n -> 0 <= j < n -> A i j = A j i) -> posdef n A -> exists K D, ldl n A K D)).
  { intros A _ _. exists (fun _ _ => 0%R), (fun _ => 0%R). repeat split; intros; lia. }
  intros n Hn IH A Sy P. rewrite <- Z.add_1_r in *.
  assert (Pa : (0 < A 0%Z 0%Z)%R).
  { specialize (P (fun k => if k =? 0 then 1%R else 0%R)). unfold quadratic in P.
    rewrite rsum_first in P by lia. cbn [Z.eqb] in P.
    rewrite (rsum_zero (n + 1 - 1)) in P.
    - rewrite rsum_first in P by lia. cbn [Z.eqb] in P. rewrite rsum_zero in P.
      + assert (0 < 1 * A 0%Z 0%Z * 1 + 0 + 0)%R; [|lra]. apply P. exists 0. cbn. split; [lia|lra].
      + intros i Hi. destruct (Z.eqb_spec (i + 1) 0); [lia|ring].
    - intros i Hi. apply rsum_zero. intros j Hj. destruct (Z.eqb_spec (i + 1) 0); [lia|ring]. }
  destruct (IH (schur A)) as (K & D & (K1 & K0) & Dp & E).
  - intros i j Hi Hj. unfold schur. rewrite (Sy (i + 1) (j + 1)) by lia. unfold Rdiv. ring.
  - intros v (i & Hi & Nv). rewrite schur_quadratic by (auto; lra). apply P. exists (i + 1). split; [lia|].
    destruct (Z.eqb_spec (i + 1) 0); [lia|]. now replace (i + 1 - 1) with i by lia.
  - exists (fun i k => if k =? 0 then (A i 0%Z / A 0%Z 0%Z)%R else if i =? 0 then 0%R else K (i - 1) (k - 1)),
      (fun k => if k =? 0 then A 0%Z 0%Z else D (k - 1)).
    split; [split|split].
    + intros i Hi. destruct (Z.eqb_spec i 0) as [->|]; [field; lra|]. apply K1. lia.
    + intros i k Hi Hk. destruct (Z.eqb_spec k 0); [lia|]. destruct (Z.eqb_spec i 0); auto. apply K0; lia.
    + intros i Hi. destruct (Z.eqb_spec i 0); auto. apply Dp. lia.
    + intros i j Hi Hj. rewrite rsum_first by lia. cbn [Z.eqb]. replace (n + 1 - 1) with n by lia.
      destruct (Z.eqb_spec i 0) as [Ei|Ni].
      { subst i. rewrite rsum_zero.
        - rewrite (Sy 0 j) by lia. field. lra.
        - intros k Hk. destruct (Z.eqb_spec (k + 1) 0); [lia|]. ring. }
      destruct (Z.eqb_spec j 0) as [Ej|Nj].
      { subst j. rewrite rsum_zero.
        - field. lra.
        - intros k Hk. destruct (Z.eqb_spec (k + 1) 0); [lia|]. ring. }
      rewrite (rsum_ext n _ (fun k => K (i - 1)%Z k * D k * K (j - 1)%Z k)%R).
      * rewrite <- E by lia. unfold schur. replace (i - 1 + 1) with i by lia. replace (j - 1 + 1) with j by lia. field. lra.
      * intros k Hk. destruct (Z.eqb_spec (k + 1) 0); [lia|]. now replace (k + 1 - 1) with k by lia.
Qed.

(** The determinant is the product of the middle factors. *)
Lemma ldl_det n A K D : 0 <= n -> ldl n A K D -> det (Z.to_nat n) A = pprod (Z.to_nat n) D.
Proof.
  intros Hn ((K1 & K0) & Dp & E).
  rewrite (det_lu (Z.to_nat n) (fun i j => if j <? i then K i j else (D i * K j i)%R)).
  - assert (G : forall k, Z.of_nat k <= n -> pprod k (fun i => if i <? i then K i i else (D i * K i i)%R) = pprod k D).
    { induction k as [|k IH]; intros Hk; auto. cbn [pprod]. rewrite IH by lia. rewrite Z.ltb_irrefl, K1 by lia. ring. }
    apply G. lia.
  - rewrite Z2Nat.id by lia. intros i j Hi Hj. rewrite E by auto. apply rsum_ext. intros k Hk. unfold lo, up.
    assert (EL : K i k = (if k <? i then if k <? i then K i k else (D i * K k i)%R else if k =? i then 1%R else 0%R)).
    { destruct (Z.ltb_spec k i); auto. destruct (Z.eqb_spec k i) as [->|]; [now apply K1|apply K0; lia]. }
    assert (EU : (D k * K j k)%R = (if k <=? j then if j <? k then K k j else (D k * K j k)%R else 0%R)).
    { destruct (Z.leb_spec k j); destruct (Z.ltb_spec j k); try lia; auto. rewrite K0 by lia. ring. }
    rewrite <- EL, <- EU. ring.
Qed.
Lemma pprod_pos n D : (forall i, 0 <= i < Z.of_nat n -> (0 < D i)%R) -> (0 < pprod n D)%R.
Proof. induction n as [|n IH]; intros H; cbn [pprod]; [lra|]. apply Rmult_lt_0_compat; [apply IH; intros; apply H; lia|apply H; lia]. Qed.
Lemma pprod_ln n D : (forall i, 0 <= i < Z.of_nat n -> (0 < D i)%R) -> ln (pprod n D) = rsum (Z.of_nat n) (fun i => ln (D i)).
Proof.
  induction n as [|n IH]; intros H; cbn [pprod]; [rewrite rsum_0, ln_1 by lia; reflexivity|].
  rewrite ln_mult; [|apply pprod_pos; intros; apply H; lia|apply H; lia].
  rewrite IH by (intros; apply H; lia). replace (Z.of_nat (S n)) with (Z.of_nat n + 1) by lia. now rewrite rsum_S by lia.
Qed.
Theorem posdef_det_pos n A : 0 <= n -> (forall i j, 0 <= i < n -> 0 <= j < n -> A i j = A j i) -> posdef n A -> (0 < det (Z.to_nat n) A)%R.
Proof.
  intros Hn Sy P. destruct (ldl_exists n A Hn Sy P) as (K & D & H). rewrite (ldl_det n A K D Hn H).
  apply pprod_pos. rewrite Z2Nat.id by lia. apply H.
Qed.

(** Forward substitution. *)
Lemma unit_lower_solve n K (M : Z -> Z -> R) : 0 <= n -> unit_lower n K -> exists W : Z -> Z -> R, forall i j, 0 <= i < n -> M i j = rsum n (fun k => K i k * W k j)%R.
Proof.
  intros Hn (K1 & K0).
  assert (G : forall m, 0 <= m -> m <= n -> exists W : Z -> Z -> R, forall i j, 0 <= i < m -> M i j = (rsum i (fun k => K i k * W k j) + W i j)%R).
  { apply (natlike_ind (fun m => m <= n -> exists W : Z -> Z -> R, forall i j, 0 <= i < m -> M i j = (rsum i (fun k => K i k * W k j) + W i j)%R)).
    - intros _. exists (fun _ _ => 0%R). intros; lia.
    - intros m Hm IH Hle. destruct IH as (W & H); [lia|].
      exists (fun i j => if i =? m then (M m j - rsum m (fun k => K m k * W k j))%R else W i j).
      intros i j Hi. rewrite (rsum_ext i _ (fun k => K i k * W k j)%R).
      + destruct (Z.eqb_spec i m) as [->|]; [ring|]. apply H. lia.
      + intros k Hk. destruct (Z.eqb_spec k m); [lia|]. reflexivity. }
  destruct (G n Hn ltac:(lia)) as (W & H). exists W. intros i j Hi. rewrite H by auto.
  rewrite (rsum_upto n i) by (auto; intros k Hk; rewrite K0 by lia; ring). rewrite K1 by auto. ring.
Qed.
Lemma unit_lower_quotient n K M W : unit_lower n K -> unit_lower n M ->
  (forall i j, 0 <= i < n -> M i j = rsum n (fun k => K i k * W k j)%R) -> unit_lower n W.
Proof.
  intros (K1 & K0) (M1 & M0) H.
  assert (E : forall i j, 0 <= i < n -> W i j = (M i j - rsum i (fun k => K i k * W k j))%R).
  { intros i j Hi. rewrite H by auto. rewrite (rsum_upto n i) by (auto; intros k Hk; rewrite K0 by lia; ring). rewrite K1 by auto. ring. }
  assert (Up : forall m, 0 <= m -> forall i j, 0 <= i < m -> i < j < n -> W i j = 0%R).
  { apply (natlike_ind (fun m => forall i j, 0 <= i < m -> i < j < n -> W i j = 0%R)); [intros; lia|].
    intros m Hm IH i j Hi Hj. rewrite E by lia. rewrite M0 by lia. rewrite rsum_zero; [ring|].
    intros k Hk. rewrite IH by lia. ring. }
  split.
  - intros i Hi. rewrite E, M1 by auto. rewrite rsum_zero; [ring|]. intros k Hk. rewrite (Up n ltac:(lia) k i) by lia. ring.
  - intros i k Hi Hk. apply (Up n); lia.
Qed.
(** A row that the transposed factor maps to zero is zero. *)
Lemma unit_lower_cancel n K X : unit_lower n K -> (forall j, 0 <= j < n -> rsum n (fun k => X k * K j k)%R = 0%R) ->
  forall j, 0 <= j < n -> X j = 0%R.
Proof.
  intros (K1 & K0) H.
  assert (Up : forall m, 0 <= m -> m <= n -> forall j, 0 <= j < m -> X j = 0%R).
  { apply (natlike_ind (fun m => m <= n -> forall j, 0 <= j < m -> X j = 0%R)); [intros; lia|].
    intros m Hm IH Hle j Hj. destruct (Z.eq_dec j m) as [->|]; [|apply IH; lia].
    specialize (H m ltac:(lia)). rewrite (rsum_upto n m) in H by (try lia; intros k Hk; rewrite K0 by lia; ring).
    rewrite rsum_zero in H by (intros k Hk; rewrite IH by lia; ring). rewrite K1 in H by lia. lra. }
  intros j Hj. apply (Up n); lia.
Qed.

(** The trace of the product of two matrices. *)
Definition trace2 (n : Z) (A B : Z -> Z -> R) : R := rsum n (fun i => rsum n (fun j => A i j * B j i))%R.

Section Trace.
  Variables (n : Z) (A B K : Z -> Z -> R) (D : Z -> R).
  Hypothesis Hn : 0 <= n.
  Hypothesis I : inverse_of n A B.
  Hypothesis F : ldl n A K D.

  (** K^T B K is the inverse of D. *)
  Definition inner (k l : Z) : R := rsum n (fun i => rsum n (fun j => K i k * B i j * K j l))%R.
  Lemma inner_diag k l : 0 <= k < n -> 0 <= l < n -> (inner k l * D l)%R = kron k l.
  Proof.
    intros Hk Hl. destruct F as (U & Dp & E). apply Rminus_diag_uniq.
    apply (unit_lower_cancel n K (fun l => inner k l * D l - kron k l)%R U); auto. clear l Hl.
    intros m Hm. rewrite (rsum_ext n _ (fun l => inner k l * (D l * K m l) - kron k l * K m l)%R) by (intros; ring).
    rewrite rsum_minus, (rsum_kron n k (K m)) by auto.
    rewrite (rsum_ext n _ (fun l => rsum n (fun i => K i k * rsum n (fun j => B i j * (K j l * D l * K m l))))%R).
    2: { intros l Hl. unfold inner. rewrite Rmult_comm, <- rsum_scal. apply rsum_ext. intros i Hi.
         rewrite <- !rsum_scal. apply rsum_ext. intros j Hj. ring. }
    rewrite rsum_swap.
    rewrite (rsum_ext n _ (fun i => K i k * kron i m)%R).
    - rewrite rsum_kron_r by auto. ring.
    - intros i Hi. rewrite rsum_scal. f_equal. rewrite rsum_swap.
      transitivity (delta i m); [|unfold delta, kron; now rewrite Z.eqb_sym]. rewrite <- (proj2 (I i m Hi Hm)).
      apply rsum_ext. intros j Hj. rewrite rsum_scal. now rewrite <- E by auto.
  Qed.
  Lemma inner_eq k l : 0 <= k < n -> 0 <= l < n -> inner k l = (kron k l / D k)%R.
  Proof.
    intros Hk Hl. pose proof (inner_diag k l Hk Hl) as H. destruct F as (_ & Dp & _).
    pose proof (Dp l Hl). unfold kron in *. destruct (Z.eqb_spec k l) as [->|].
    - rewrite <- H. field. lra.
    - unfold Rdiv. rewrite Rmult_0_l. apply Rmult_integral in H. destruct H; auto. lra.
  Qed.
  (** A congruent matrix K P K^T. *)
  Lemma trace_congruent S P : (forall i j, 0 <= i < n -> 0 <= j < n -> S i j = rsum n (fun k => rsum n (fun l => K i k * P k l * K j l))%R) ->
    trace2 n B S = rsum n (fun k => P k k / D k)%R.
  Proof.
    intros ES. unfold trace2.
    rewrite (rsum_ext n _ (fun i => rsum n (fun l => rsum n (fun k => P k l * rsum n (fun j => K i l * B i j * K j k)))))%R.
    2: { intros i Hi. rewrite (rsum_ext n _ (fun j => rsum n (fun l => rsum n (fun k => P k l * (K i l * B i j * K j k))))%R).
         - rewrite rsum_swap. apply rsum_ext. intros l Hl. rewrite rsum_swap. apply rsum_ext. intros k Hk. now rewrite rsum_scal.
         - intros j Hj. rewrite ES by auto. rewrite <- rsum_scal. symmetry. rewrite rsum_swap.
           apply rsum_ext. intros k Hk. rewrite <- rsum_scal. apply rsum_ext. intros l Hl. ring. }
    rewrite rsum_swap.
    rewrite (rsum_ext n _ (fun l => rsum n (fun k => P k l * inner l k))%R).
    2: { intros l Hl. rewrite rsum_swap. apply rsum_ext. intros k Hk. rewrite rsum_scal. reflexivity. }
    apply rsum_ext. intros l Hl.
    rewrite (rsum_ext n _ (fun k => kron l k * (P k l / D l))%R).
    - now rewrite rsum_kron.
    - intros k Hk. rewrite inner_eq by auto. unfold Rdiv. ring.
  Qed.
End Trace.

Lemma ln_le_minus y : (0 < y)%R -> (ln y <= y - 1)%R.
Proof. intros H. pose proof (exp_ineq1_le (ln y)) as G. rewrite exp_ln in G by auto. lra. Qed.

(** ln det S - ln det A <= tr (A^-1 S) - n, for symmetric positive definite matrices. *)
Theorem log_det_trace n A B S : 0 <= n ->
  (forall i j, 0 <= i < n -> 0 <= j < n -> A i j = A j i) -> posdef n A -> inverse_of n A B ->
  (forall i j, 0 <= i < n -> 0 <= j < n -> S i j = S j i) -> posdef n S ->
  (ln (det (Z.to_nat n) S) - ln (det (Z.to_nat n) A) <= trace2 n B S - IZR n)%R.
Proof.
  intros Hn SyA PA I SyS PS. destruct (ldl_exists n A Hn SyA PA) as (K & D & F). destruct (ldl_exists n S Hn SyS PS) as (M & E & G).
  rewrite (ldl_det n A K D Hn F), (ldl_det n S M E Hn G).
  pose proof F as (UK & Dp & _). pose proof G as (UM & Ep & ES).
  rewrite !pprod_ln by (rewrite Z2Nat.id by lia; assumption). rewrite !Z2Nat.id by lia.
  destruct (unit_lower_solve n K M Hn UK) as (W & HW). pose proof (unit_lower_quotient n K M W UK UM HW) as UW.
  rewrite (trace_congruent n A B K D I F S (fun k l => rsum n (fun p => W k p * E p * W l p))%R).
  - rewrite <- rsum_minus. replace (IZR n) with (rsum n (fun _ => 1%R)) by (rewrite rsum_const by lia; ring). rewrite <- rsum_minus.
    apply rsum_le. intros i Hi. pose proof (Dp i Hi). pose proof (Ep i Hi).
    apply Rle_trans with (E i / D i - 1)%R.
    + replace (ln (E i) - ln (D i))%R with (ln (E i / D i)) by (unfold Rdiv; rewrite ln_mult, ln_Rinv by (auto using Rinv_0_lt_compat); ring). apply ln_le_minus. now apply Rdiv_lt_0_compat.
    + apply Rplus_le_compat_r. apply Rmult_le_compat_r; [left; now apply Rinv_0_lt_compat|].
      pose proof (rsum_term n (fun p => W i p * E p * W i p)%R i) as T. cbv beta in T. destruct UW as (W1 & _). rewrite (W1 i) in T by auto.
      replace (1 * E i * 1)%R with (E i) in T by ring. apply T; auto. intros p Hp. pose proof (Ep p Hp).
      replace (W i p * E p * W i p)%R with (E p * (W i p * W i p))%R by ring. apply Rmult_le_pos; [lra|apply Rle_0_sqr].
  - intros i j Hi Hj. rewrite ES by auto.
    rewrite (rsum_ext n _ (fun p => rsum n (fun k => rsum n (fun l => E p * (K i k * W k p) * (K j l * W l p))))%R).
    2: { intros p Hp. rewrite (HW i p), (HW j p) by auto. replace (rsum n (fun k => K i k * W k p) * E p * rsum n (fun k => K j k * W k p))%R
           with (E p * (rsum n (fun k => K i k * W k p) * rsum n (fun k => K j k * W k p)))%R by ring.
         rewrite rsum_mul, <- rsum_scal. apply rsum_ext. intros k Hk. rewrite <- rsum_scal. apply rsum_ext. intros l Hl. ring. }
    rewrite rsum_swap. apply rsum_ext. intros k Hk. rewrite rsum_swap. apply rsum_ext. intros l Hl.
    transitivity (K i k * K j l * rsum n (fun p => W k p * E p * W l p))%R; [rewrite <- rsum_scal; apply rsum_ext; intros; ring|ring].
Qed.
