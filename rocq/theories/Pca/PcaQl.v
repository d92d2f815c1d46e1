(** tqli: the columns of z stay orthonormal and diagonalise the matrix up to the neglected couplings. *)
From Coq Require Import List ZArith Reals Lia Lra Bool Psatz.
From Verif.Base Require Import Imp Sums RealOps Loops Matrix Tables.
From Verif.Pca Require Import PcaModel PcaSpec PcaMath.
Import ListNotations.
Open Scope Z_scope.

Lemma sq_nonneg x : (0 <= x * x)%R.
Proof. apply Rle_0_sqr. Qed.

Lemma givens_ok f g : f <> 0%R \/ g <> 0%R ->
  let '(s, c, v) := givens f g in
  (s * s + c * c = 1 /\ s * f + c * g = v /\ c * f = s * g /\ (f <> 0 -> s <> 0))%R.
Proof.
  intros H. unfold givens. destruct (Rleb_spec (Rabs g) (Rabs f)) as [L|L].
  - assert (F : f <> 0%R). { intros ->. destruct H as [H|H]; [auto|]. rewrite Rabs_R0 in L. apply Rabs_pos_lt in H. lra. }
    set (t := (g / f)%R). assert (P : (0 < t * t + 1)%R) by nra.
    pose proof (sqrt_lt_R0 _ P) as Q. pose proof (sqrt_sqrt _ (Rlt_le _ _ P)) as S. set (r := sqrt (t * t + 1)) in *.
    assert (G : (g = t * f)%R) by (unfold t; field; auto).
    assert (N : r <> 0%R) by lra. assert (I : (1 / r * (1 / r) * (r * r) = 1)%R) by (field; auto).
    splits.
    + transitivity ((1 / r * (1 / r)) * (t * t + 1))%R; [ring|]. rewrite <- S. exact I.
    + rewrite G. transitivity (f * (1 / r) * (t * t + 1))%R; [ring|]. rewrite <- S. field. auto.
    + rewrite G. ring.
    + intros _ E. assert (1 / r * r = 1)%R by (field; auto). rewrite E in *. lra.
  - assert (G : g <> 0%R). { intros ->. rewrite Rabs_R0 in L. pose proof (Rabs_pos f). lra. }
    set (t := (f / g)%R). assert (P : (0 < t * t + 1)%R) by nra.
    pose proof (sqrt_lt_R0 _ P) as Q. pose proof (sqrt_sqrt _ (Rlt_le _ _ P)) as S. set (r := sqrt (t * t + 1)) in *.
    assert (F : (f = t * g)%R) by (unfold t; field; auto).
    assert (N : r <> 0%R) by lra. assert (I : (1 / r * (1 / r) * (r * r) = 1)%R) by (field; auto).
    splits.
    + transitivity ((1 / r * (1 / r)) * (t * t + 1))%R; [ring|]. rewrite <- S. exact I.
    + rewrite F. transitivity (g * (1 / r) * (t * t + 1))%R; [ring|]. rewrite <- S. field. auto.
    + rewrite F. ring.
    + intros Nf E. apply Rmult_integral in E. destruct E as [E|E].
      * rewrite E in F. apply Nf. rewrite F. ring.
      * assert (1 / r * r = 1)%R by (field; auto). rewrite E in *. lra.
Qed.

Section Ql.
  Variable n : Z.
  Variable A : Z -> Z -> R.
  Variable F : R.
  Hypothesis HF : (0 <= F)%R.

  Definition image (z : Z -> Z -> R) (k a : Z) : R := rsum n (fun j => A k j * z j a)%R.

  (** A z = z M + Er, M tridiagonal with one bulge; the error is at most B and |z M| at most F. *)
  Definition form (cp dg : Z -> R) (i : Z) (bl : R) (z : Z -> Z -> R) (B : R) : Prop :=
    orthonormal n z /\ exists Er, (frob n n Er <= B)%R /\
      (forall k a, 0 <= k < n -> 0 <= a < n ->
        (image z k a - Er k a)%R = (tri_row cp dg (z k) a + bulge_row i bl (z k) a)%R) /\
      (frob2 n n (fun k a => image z k a - Er k a) <= F * F)%R.

  Lemma form_ext cp dg cp' dg' i i' bl bl' z B : form cp dg i bl z B ->
    (forall a, -1 <= a < n -> cp a = cp' a) -> (forall a, 0 <= a < n -> dg a = dg' a) ->
    (bl = 0 /\ bl' = 0)%R \/ (i = i' /\ bl = bl') -> form cp' dg' i' bl' z B.
  Proof.
    intros (O & Er & E1 & E2 & E3) C D Bu. split; [auto|]. exists Er. splits; auto. intros k a Hk Ha. rewrite E2 by auto. f_equal.
    - unfold tri_row. now rewrite !C, D by lia.
    - destruct Bu as [(-> & ->)|(-> & ->)]; [|reflexivity]. unfold bulge_row. repeat match goal with |- context[if ?b then _ else _] => destruct b end; ring.
  Qed.

  Lemma image_rot i s c z k a : image (fun k a => rotc i s c (z k) a) k a = rotc i s c (image z k) a.
  Proof.
    unfold image, rotc. destruct (a =? i); [|destruct (a =? i + 1)]; auto.
    - rewrite <- !rsum_scal, <- rsum_minus. apply rsum_ext. intros. ring.
    - rewrite <- !rsum_scal, <- rsum_plus. apply rsum_ext. intros. ring.
  Qed.

  Lemma form_rot cp dg i bl z B s c cp' dg' : form cp dg i bl z B -> 0 <= i -> i + 1 < n -> (s * s + c * c = 1)%R ->
    (c * bl = s * cp (i + 1)%Z)%R ->
    let r := ((dg i - dg (i + 1)%Z) * s + 2 * c * cp i)%R in
    (forall a, a <> i -> a <> (i + 1)%Z -> dg' a = dg a) -> (dg' (i + 1)%Z = dg (i + 1)%Z + s * r)%R -> (dg' i = dg i - s * r)%R ->
    (forall a, a <> (i - 1)%Z -> a <> i -> a <> (i + 1)%Z -> cp' a = cp a) ->
    (cp' (i + 1)%Z = s * bl + c * cp (i + 1)%Z)%R -> (cp' i = c * r - cp i)%R -> (cp' (i - 1)%Z = c * cp (i - 1)%Z)%R ->
    form cp' dg' (i - 1) (s * cp (i - 1)%Z)%R (fun k a => rotc i s c (z k) a) B.
  Proof.
    intros ((O1 & O2) & Er & E1 & E2 & E3) H0 H1 U Hb r D1 D2 D3 C1 C2 C3 C4. split.
    - split.
      + intros a b Ha Hb'. apply (rot_cols n i s c H0 H1 U z n); auto.
      + intros k j Hk Hj. rewrite (rot_dot n i s c H0 H1 U). auto.
    - exists (fun k a => rotc i s c (Er k) a). 
      assert (L : forall k a, (rotc i s c (image z k) a - rotc i s c (Er k) a = rotc i s c (fun a => image z k a - Er k a) a)%R).
      { intros k a. unfold rotc. destruct (a =? i); [ring|destruct (a =? i + 1); ring]. }
      splits.
      + rewrite frob_rot by auto. exact E1.
      + intros k a Hk Ha. rewrite image_rot, L.
        apply (rot_row n i s c H0 H1 U cp dg cp' dg' bl (fun a => image z k a - Er k a)%R (z k)); auto.
      + unfold frob2 in *. eapply Rle_trans; [|exact E3]. apply Req_le, rsum_ext. intros k Hk.
        etransitivity; [|apply (rot_dot n i s c H0 H1 U (fun a => image z k a - Er k a)%R (fun a => image z k a - Er k a)%R)].
        apply rsum_ext. intros a Ha. now rewrite image_rot, L.
  Qed.

  (** Without a bulge: scalar products with the columns of z. *)
  Section Flat.
    Variables (cp dg : Z -> R) (z : Z -> Z -> R) (W : Z -> Z -> R).
    Hypothesis Hz : orthonormal n z.
    Hypothesis HW : forall k a, 0 <= k < n -> 0 <= a < n -> W k a = tri_row cp dg (z k) a.
    Hypotheses (C0 : cp (-1) = 0%R) (C1 : cp (n - 1) = 0%R).
    Lemma dot_W j b : 0 <= j < n -> 0 <= b < n ->
      rsum n (fun k => W k j * z k b)%R = (cp (j - 1) * delta (j - 1) b + dg j * delta j b + cp j * delta (j + 1) b)%R.
    Proof.
      intros Hj Hb. destruct Hz as (O & _).
      rewrite (rsum_ext n _ (fun k => cp (j - 1) * (z k (j - 1) * z k b) + dg j * (z k j * z k b) + cp j * (z k (j + 1) * z k b))%R)
        by (intros k Hk; rewrite HW by auto; unfold tri_row; ring).
      rewrite !rsum_plus, !rsum_scal. f_equal; [f_equal|].
      - destruct (Z.eq_dec j 0) as [->|N].
        + cbn [Z.sub Z.opp Z.add]. rewrite C0. ring.
        + now rewrite O by lia.
      - now rewrite O by lia.
      - destruct (Z.eq_dec j (n - 1)) as [->|N].
        + rewrite C1. ring.
        + now rewrite O by lia.
    Qed.
    Lemma diag_le j : 0 <= j < n -> (dg j * dg j <= rsum n (fun k => W k j * W k j))%R.
    Proof.
      intros Hj. pose proof (dot_W j j Hj Hj) as D. rewrite delta_eq, !delta_ne in D by lia.
      assert (Q : forall t, (0 <= rsum n (fun k => W k j * W k j) + 2 * dg j * t + 1 * (t * t))%R).
      { intros t. apply Rle_trans with (rsum n (fun k => (W k j + t * z k j) * (W k j + t * z k j))%R).
        - apply rsum_nonneg. intros. apply sq_nonneg.
        - apply Req_le. destruct Hz as (O & _).
          replace 1%R with (rsum n (fun k => z k j * z k j)%R) by (rewrite O by lia; apply delta_eq).
          replace (dg j) with (rsum n (fun k => W k j * z k j)%R) by (rewrite D; ring).
          rewrite (Rmult_comm _ (t * t)), (Rmult_comm _ t). rewrite <- (Rmult_assoc t 2). rewrite <- !rsum_scal, <- !rsum_plus.
          apply rsum_ext. intros. ring. }
      apply disc in Q; [lra|apply rsum_nonneg; intros; apply sq_nonneg|lra].
    Qed.
  End Flat.

  Lemma two_cols (W : Z -> Z -> R) j : 0 <= j -> j + 1 < n ->
    (rsum n (fun k => W k j * W k j) + rsum n (fun k => W k (j + 1)%Z * W k (j + 1)%Z) <= frob2 n n W)%R.
  Proof.
    intros H0 H1. unfold frob2. rewrite rsum_swap.
    apply Rle_trans with (rsum n (fun a => (if (a =? j) || (a =? j + 1) then 1 else 0) * rsum n (fun k => W k a * W k a))%R).
    - apply Req_le.
      transitivity (rsum n (fun a => delta a j * (rsum n (fun k => W k j * W k j) + rsum n (fun k => W k (j + 1)%Z * W k (j + 1)%Z)))%R);
        [now rewrite rsum_delta by lia|]. symmetry. apply (rsum_two n _ _ j H0 H1).
      + intros a Ha N1 N2. rewrite (proj2 (Z.eqb_neq a j)), (proj2 (Z.eqb_neq a (j + 1))) by lia. cbn [orb]. rewrite delta_ne by lia. ring.
      + rewrite !Z.eqb_refl, (proj2 (Z.eqb_neq (j + 1) j)) by lia. cbn [orb]. rewrite delta_eq, delta_ne by lia. ring.
    - apply rsum_le. intros a Ha. assert (0 <= rsum n (fun k => W k a * W k a))%R by (apply rsum_nonneg; intros; apply sq_nonneg).
      destruct ((a =? j) || (a =? j + 1)); nra.
  Qed.

  (** The diagonal is bounded by the norm. *)
  Lemma form_diag cp dg i z B j : form cp dg i 0 z B -> cp (-1) = 0%R -> cp (n - 1) = 0%R -> 0 <= j -> j + 1 < n ->
    (Rabs (dg j) + Rabs (dg (j + 1)%Z) <= sqrt 2 * F)%R.
  Proof.
    intros (O & Er & E1 & E2 & E3) C0 C1 H0 H1.
    set (W := fun k a => (image z k a - Er k a)%R) in *.
    assert (HW : forall k a, 0 <= k < n -> 0 <= a < n -> W k a = tri_row cp dg (z k) a).
    { intros k a Hk Ha. unfold W. rewrite E2 by auto. unfold bulge_row.
      repeat match goal with |- context[if ?b then _ else _] => destruct b end; ring. }
    pose proof (diag_le cp dg z W O HW C0 C1 j ltac:(lia)) as D0.
    pose proof (diag_le cp dg z W O HW C0 C1 (j + 1) ltac:(lia)) as D1.
    pose proof (two_cols W j H0 H1) as T.
    assert (S : (dg j * dg j + dg (j + 1)%Z * dg (j + 1)%Z <= F * F)%R) by lra.
    apply Rsqr_incr_0_var; [|apply Rmult_le_pos; [apply sqrt_pos|auto]].
    unfold Rsqr. replace (sqrt 2 * F * (sqrt 2 * F))%R with ((sqrt 2 * sqrt 2) * (F * F))%R by ring. rewrite sqrt_sqrt by lra.
    pose proof (Rabs_pos (dg j)). pose proof (Rabs_pos (dg (j + 1))).
    assert (A0 : (Rabs (dg j) * Rabs (dg j) = dg j * dg j)%R) by (rewrite <- Rabs_mult; apply Rabs_right, Rle_ge, sq_nonneg).
    assert (A1 : (Rabs (dg (j + 1)%Z) * Rabs (dg (j + 1)%Z) = dg (j + 1)%Z * dg (j + 1)%Z)%R) by (rewrite <- Rabs_mult; apply Rabs_right, Rle_ge, sq_nonneg).
    pose proof (sq_nonneg (Rabs (dg j) - Rabs (dg (j + 1)%Z))) as Q. clear - A0 A1 S Q.
    set (x := Rabs (dg j)) in *. set (y := Rabs (dg (j + 1))) in *. clearbody x y. lra.
  Qed.

  (** A coupling is dropped. *)
  Lemma form_neglect cp dg i z B j : form cp dg i 0 z B -> cp (-1) = 0%R -> cp (n - 1) = 0%R -> 0 <= j -> j + 1 < n ->
    form (set1 cp j 0%R) dg i 0 z (B + sqrt 2 * Rabs (cp j)).
  Proof.
    intros (O & Er & E1 & E2 & E3) C0 C1 H0 H1. split; [auto|].
    set (W := fun k a => (image z k a - Er k a)%R) in *.
    assert (HW : forall k a, 0 <= k < n -> 0 <= a < n -> W k a = tri_row cp dg (z k) a).
    { intros k a Hk Ha. unfold W. rewrite E2 by auto. unfold bulge_row.
      repeat match goal with |- context[if ?b then _ else _] => destruct b end; ring. }
    set (dE := fun k a => (delta a j * (cp j * z k (j + 1)%Z) + delta a (j + 1) * (cp j * z k j))%R).
    exists (fun k a => (Er k a + dE k a)%R). destruct O as (Oc & Or).
    assert (Dj : forall k, dE k j = (cp j * z k (j + 1)%Z)%R) by (intros; unfold dE; rewrite delta_eq, delta_ne by lia; ring).
    assert (Dj1 : forall k, dE k (j + 1) = (cp j * z k j)%R) by (intros; unfold dE; rewrite delta_eq, delta_ne by lia; ring).
    assert (Do : forall k a, a <> j -> a <> j + 1 -> dE k a = 0%R) by (intros; unfold dE; rewrite !delta_ne by lia; ring).
    splits.
    - eapply Rle_trans; [apply frob_triangle|]. apply Rplus_le_compat; [auto|].
      apply Req_le. rewrite frob_frob2.
      assert (E : frob2 n n dE = (2 * (cp j * cp j))%R).
      { unfold frob2. rewrite rsum_swap.
        rewrite (rsum_two n _ (fun a => delta a j * (2 * (cp j * cp j)))%R j H0 H1).
        - now rewrite rsum_delta by lia.
        - intros a Ha N1 N2. rewrite delta_ne by lia. rewrite Rmult_0_l. apply rsum_zero. intros. rewrite Do by auto. ring.
        - rewrite delta_eq, delta_ne by lia.
          rewrite (rsum_ext n (fun k => dE k j * dE k j)%R (fun k => (cp j * cp j) * (z k (j + 1)%Z * z k (j + 1)%Z))%R) by (intros; rewrite Dj; ring).
          rewrite (rsum_ext n (fun k => dE k (j + 1)%Z * dE k (j + 1)%Z)%R (fun k => (cp j * cp j) * (z k j * z k j))%R) by (intros; rewrite Dj1; ring).
          rewrite !rsum_scal, !Oc, !delta_eq by lia. ring. }
      rewrite E, sqrt_mult by nra. f_equal. rewrite <- sqrt_Rsqr_abs. reflexivity.
    - intros k a Hk Ha. replace (image z k a - (Er k a + dE k a))%R with (W k a - dE k a)%R by (unfold W; ring).
      rewrite HW by auto. replace (bulge_row i 0 (z k) a) with 0%R
        by (unfold bulge_row; repeat match goal with |- context[if ?b then _ else _] => destruct b end; ring).
      unfold tri_row, set1. destruct (Z.eq_dec a j) as [->|N1].
      + rewrite Dj, Z.eqb_refl, (proj2 (Z.eqb_neq (j - 1) j)) by lia. ring.
      + destruct (Z.eq_dec a (j + 1)) as [->|N2].
        * rewrite Dj1. replace (j + 1 - 1) with j by lia. rewrite Z.eqb_refl, (proj2 (Z.eqb_neq (j + 1) j)) by lia. ring.
        * rewrite Do by auto. rewrite (proj2 (Z.eqb_neq (a - 1) j)), (proj2 (Z.eqb_neq a j)) by lia. ring.
    - eapply Rle_trans; [|exact E3]. unfold frob2. rewrite (rsum_swap n n (fun k a => (W k a * W k a)%R)), rsum_swap.
      apply rsum_le. intros a Ha.
      rewrite (rsum_ext n _ (fun k => (W k a - dE k a) * (W k a - dE k a))%R) by (intros; unfold W; ring).
      assert (K : forall b (q : R), 0 <= b < n -> (rsum n (fun k => W k a * z k b)%R = q)%R ->
        (rsum n (fun k => (W k a - q * z k b) * (W k a - q * z k b)) <= rsum n (fun k => W k a * W k a))%R).
      { intros b q Hb Q.
        replace (rsum n (fun k => (W k a - q * z k b) * (W k a - q * z k b))%R) with
          (rsum n (fun k => W k a * W k a) - q * q)%R; [nra|].
        transitivity (rsum n (fun k => W k a * W k a) + (- (2 * q)) * rsum n (fun k => W k a * z k b) + (q * q) * rsum n (fun k => z k b * z k b))%R.
        - rewrite Q, Oc, delta_eq by lia. ring.
        - rewrite <- !rsum_scal, <- !rsum_plus. apply rsum_ext. intros. ring. }
      destruct (Z.eq_dec a j) as [->|N1].
      + rewrite (rsum_ext n _ (fun k => (W k j - cp j * z k (j + 1)%Z) * (W k j - cp j * z k (j + 1)%Z))%R) by (intros; rewrite Dj; ring).
        apply K; [lia|]. rewrite (dot_W cp dg z W (conj Oc Or) HW C0 C1) by lia. rewrite delta_eq, !delta_ne by lia. ring.
      + destruct (Z.eq_dec a (j + 1)) as [->|N2].
        * rewrite (rsum_ext n _ (fun k => (W k (j + 1)%Z - cp j * z k j) * (W k (j + 1)%Z - cp j * z k j))%R) by (intros; rewrite Dj1; ring).
          apply K; [lia|]. rewrite (dot_W cp dg z W (conj Oc Or) HW C0 C1) by lia. replace (j + 1 - 1) with j by lia.
          rewrite delta_eq, !delta_ne by lia. ring.
        * apply Req_le, rsum_ext. intros. rewrite Do by auto. ring.
  Qed.
End Ql.
