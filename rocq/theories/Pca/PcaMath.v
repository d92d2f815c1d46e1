(** Rotations of two columns, Householder reflections, Frobenius norm. *)
From Coq Require Import List ZArith Reals Lia Lra Bool Psatz.
From Verif.Base Require Import Imp Sums RealOps Loops.
From Verif.Pca Require Import PcaSpec.
Import ListNotations.
Open Scope R_scope.

(** *** Sums *)
Lemma rsum_single n f j : (0 <= j < n)%Z -> (forall i, (0 <= i < n)%Z -> i <> j -> f i = 0) -> rsum n f = f j.
Proof.
  intros Hj H. replace n with (j + (1 + (n - j - 1)))%Z by lia. rewrite rsum_split by lia.
  rewrite (rsum_zero j) by (intros; apply H; lia). rewrite rsum_split by lia.
  rewrite (rsum_zero (n - j - 1)) by (intros; apply H; lia).
  replace 1%Z with (0 + 1)%Z by lia. rewrite rsum_S, rsum_0 by lia. rewrite Z.add_0_r. ring.
Qed.
Lemma rsum_delta n j f : (0 <= j < n)%Z -> rsum n (fun i => delta i j * f i) = f j.
Proof.
  intros Hj. rewrite (rsum_single n _ j Hj).
  - unfold delta. rewrite Z.eqb_refl. ring.
  - intros i Hi N. unfold delta. apply Z.eqb_neq in N. rewrite N. ring.
Qed.
Lemma rsum_delta' n j f : (0 <= j < n)%Z -> rsum n (fun i => delta j i * f i) = f j.
Proof.
  intros Hj. rewrite <- (rsum_delta n j f Hj). apply rsum_ext. intros. unfold delta. now rewrite Z.eqb_sym.
Qed.
Lemma delta_sym i j : delta i j = delta j i.
Proof. unfold delta. now rewrite Z.eqb_sym. Qed.
Lemma delta_eq i : delta i i = 1.
Proof. unfold delta. now rewrite Z.eqb_refl. Qed.
Lemma delta_ne i j : i <> j -> delta i j = 0.
Proof. intros N. unfold delta. apply Z.eqb_neq in N. now rewrite N. Qed.
(** Two sums that differ in two neighbouring terms only. *)
Lemma rsum_two n f g i : (0 <= i)%Z -> (i + 1 < n)%Z ->
  (forall j, (0 <= j < n)%Z -> j <> i -> j <> (i + 1)%Z -> f j = g j) -> f i + f (i + 1)%Z = g i + g (i + 1)%Z ->
  rsum n f = rsum n g.
Proof.
  intros H0 H1 E S. replace n with (i + (2 + (n - i - 2)))%Z by lia. rewrite !(rsum_split i), !(rsum_split 2) by lia.
  assert (T : forall h, rsum 2 (fun k => h (i + k)%Z) = h i + h (i + 1)%Z).
  { intros h. replace 2%Z with (0 + 1 + 1)%Z by lia. rewrite !rsum_S, rsum_0 by lia. rewrite Z.add_0_r. cbn [Z.add]. ring. }
  rewrite !T. rewrite (rsum_ext i f g) by (intros; apply E; lia). f_equal. f_equal; [exact S|].
  apply rsum_ext. intros. apply E; lia.
Qed.
Lemma rsum_scal_r n c f : rsum n (fun i => f i * c) = rsum n f * c.
Proof. rewrite Rmult_comm, <- rsum_scal. apply rsum_ext. intros. ring. Qed.
Lemma rsum_opp n f : rsum n (fun i => - f i) = - rsum n f.
Proof. rewrite (rsum_ext _ _ (fun i => -1 * f i)) by (intros; ring). rewrite rsum_scal. ring. Qed.

(** *** Rotation in the plane of coordinates i, i+1 *)
Definition rotc (i : Z) (s c : R) (x : Z -> R) (a : Z) : R :=
  if (a =? i)%Z then c * x i - s * x (i + 1)%Z
  else if (a =? i + 1)%Z then s * x i + c * x (i + 1)%Z else x a.

Lemma rotc_i i s c x : rotc i s c x i = c * x i - s * x (i + 1)%Z.
Proof. unfold rotc. now rewrite Z.eqb_refl. Qed.
Lemma rotc_i1 i s c x : rotc i s c x (i + 1)%Z = s * x i + c * x (i + 1)%Z.
Proof. unfold rotc. rewrite (proj2 (Z.eqb_neq (i + 1) i)) by lia. now rewrite Z.eqb_refl. Qed.
Lemma rotc_other i s c x a : a <> i -> a <> (i + 1)%Z -> rotc i s c x a = x a.
Proof. intros N1 N2. unfold rotc. apply Z.eqb_neq in N1, N2. now rewrite N1, N2. Qed.

Section Rotation.
  Variables (n i : Z) (s c : R).
  Hypotheses (H0 : (0 <= i)%Z) (H1 : (i + 1 < n)%Z) (U : s * s + c * c = 1).

  (** Scalar products of rows are kept. *)
  Lemma rot_dot x y : rsum n (fun a => rotc i s c x a * rotc i s c y a) = rsum n (fun a => x a * y a).
  Proof.
    apply (rsum_two n _ _ i H0 H1).
    - intros j Hj N1 N2. now rewrite !rotc_other by auto.
    - rewrite !rotc_i, !rotc_i1. transitivity ((s * s + c * c) * (x i * y i + x (i + 1)%Z * y (i + 1)%Z)); [ring|rewrite U; ring].
  Qed.

  (** Orthonormal columns stay so. *)
  Lemma rot_cols (z : Z -> Z -> R) N :
    (forall a b, (0 <= a < n)%Z -> (0 <= b < n)%Z -> rsum N (fun k => z k a * z k b) = delta a b) ->
    forall a b, (0 <= a < n)%Z -> (0 <= b < n)%Z ->
    rsum N (fun k => rotc i s c (z k) a * rotc i s c (z k) b) = delta a b.
  Proof.
    intros O a b Ha Hb.
    assert (L : forall p q p' q' j j' l l',
      rsum N (fun k => (p * z k j + q * z k j') * (p' * z k l + q' * z k l')) =
      p * p' * rsum N (fun k => z k j * z k l) + p * q' * rsum N (fun k => z k j * z k l') +
      q * p' * rsum N (fun k => z k j' * z k l) + q * q' * rsum N (fun k => z k j' * z k l')).
    { intros. rewrite <- !rsum_scal, <- !rsum_plus. apply rsum_ext. intros. ring. }
    assert (F : forall a, (0 <= a < n)%Z -> exists p q, (forall k, rotc i s c (z k) a = p * z k (if (a =? i + 1)%Z then i else a) + q * z k (i + 1)%Z) /\
       ((a = i /\ p = c /\ q = - s) \/ (a = i + 1 /\ p = s /\ q = c)%Z \/ (a <> i /\ a <> (i + 1)%Z /\ p = 1 /\ q = 0))).
    { intros x Hx. destruct (Z.eq_dec x i) as [->|N1].
      - exists c, (- s). split; [|auto]. intros k. rewrite rotc_i, (proj2 (Z.eqb_neq i (i + 1))) by lia. ring.
      - destruct (Z.eq_dec x (i + 1)) as [->|N2].
        + exists s, c. split; [|auto]. intros k. rewrite rotc_i1, Z.eqb_refl. ring.
        + exists 1, 0. split; [|auto 10]. intros k. rewrite rotc_other by auto. rewrite (proj2 (Z.eqb_neq x (i + 1))) by lia. ring. }
    destruct (F a Ha) as (p & q & Ea & Ca), (F b Hb) as (p' & q' & Eb & Cb).
    rewrite (rsum_ext N _ (fun k => (p * z k (if (a =? i + 1)%Z then i else a) + q * z k (i + 1)%Z) *
      (p' * z k (if (b =? i + 1)%Z then i else b) + q' * z k (i + 1)%Z))) by (intros k _; now rewrite Ea, Eb).
    rewrite L.
    destruct Ca as [(-> & -> & ->)|[(-> & -> & ->)|(N1 & N2 & -> & ->)]], Cb as [(-> & -> & ->)|[(-> & -> & ->)|(N3 & N4 & -> & ->)]];
      rewrite ?Z.eqb_refl, ?(proj2 (Z.eqb_neq i (i + 1))) by lia;
      rewrite ?(proj2 (Z.eqb_neq a (i + 1))) by lia; rewrite ?(proj2 (Z.eqb_neq b (i + 1))) by lia;
      rewrite !O by lia; rewrite ?delta_eq, ?(delta_ne i (i + 1)), ?(delta_ne (i + 1) i) by lia;
      rewrite ?(delta_ne i b), ?(delta_ne (i + 1) b), ?(delta_ne a i), ?(delta_ne a (i + 1)) by lia; lra.
  Qed.

  (** One row of [X = Z M] where M is tridiagonal (diagonal [dg], couplings [cp j] of j and j+1) apart from
      the entry [bl] at (i, i+2) and (i+2, i). *)
  Definition tri_row (cp dg : Z -> R) (z : Z -> R) (a : Z) : R :=
    cp (a - 1)%Z * z (a - 1)%Z + dg a * z a + cp a * z (a + 1)%Z.
  Definition bulge_row (j : Z) (bl : R) (z : Z -> R) (a : Z) : R :=
    if (a =? j)%Z then bl * z (j + 2)%Z else if (a =? j + 2)%Z then bl * z j else 0.

  Lemma rot_row (cp dg cp' dg' : Z -> R) bl (x z : Z -> R) :
    (forall a, (0 <= a < n)%Z -> x a = tri_row cp dg z a + bulge_row i bl z a) ->
    c * bl = s * cp (i + 1)%Z ->
    let r := (dg i - dg (i + 1)%Z) * s + 2 * c * cp i in
    (forall a, a <> i -> a <> (i + 1)%Z -> dg' a = dg a) -> dg' (i + 1)%Z = dg (i + 1)%Z + s * r -> dg' i = dg i - s * r ->
    (forall a, a <> (i - 1)%Z -> a <> i -> a <> (i + 1)%Z -> cp' a = cp a) ->
    cp' (i + 1)%Z = s * bl + c * cp (i + 1)%Z -> cp' i = c * r - cp i -> cp' (i - 1)%Z = c * cp (i - 1)%Z ->
    forall a, (0 <= a < n)%Z ->
      rotc i s c x a = tri_row cp' dg' (rotc i s c z) a + bulge_row (i - 1) (s * cp (i - 1)%Z) (rotc i s c z) a.
  Proof.
    intros E B r D1 D2 D3 C1 C2 C3 C4 a Ha.
    assert (X0 : x i = cp (i - 1)%Z * z (i - 1)%Z + dg i * z i + cp i * z (i + 1)%Z + bl * z (i + 2)%Z).
    { rewrite E by lia. unfold tri_row, bulge_row. rewrite Z.eqb_refl. reflexivity. }
    assert (X1 : x (i + 1)%Z = cp i * z i + dg (i + 1)%Z * z (i + 1)%Z + cp (i + 1)%Z * z (i + 2)%Z).
    { rewrite E by lia. unfold tri_row, bulge_row. rewrite (proj2 (Z.eqb_neq (i + 1) i)), (proj2 (Z.eqb_neq (i + 1) (i + 2))) by lia.
      replace (i + 1 - 1)%Z with i by lia. replace (i + 1 + 1)%Z with (i + 2)%Z by lia. ring. }
    assert (Zi : z i = c * rotc i s c z i + s * rotc i s c z (i + 1)%Z).
    { rewrite rotc_i, rotc_i1. transitivity ((s * s + c * c) * z i); [rewrite U; ring|ring]. }
    assert (Zi1 : z (i + 1)%Z = c * rotc i s c z (i + 1)%Z - s * rotc i s c z i).
    { rewrite rotc_i, rotc_i1. transitivity ((s * s + c * c) * z (i + 1)%Z); [rewrite U; ring|ring]. }
    assert (Zo : forall j, j <> i -> j <> (i + 1)%Z -> z j = rotc i s c z j) by (intros; now rewrite rotc_other).
    set (z' := rotc i s c z) in *. clearbody z'.
    destruct (Z.eq_dec a i) as [->|N0].
    - rewrite rotc_i, X0, X1. unfold tri_row, bulge_row. rewrite (proj2 (Z.eqb_neq i (i - 1))), (proj2 (Z.eqb_neq i (i - 1 + 2))) by lia.
      rewrite D3, C3, C4. rewrite (Zo (i - 1)%Z), (Zo (i + 2)%Z), Zi, Zi1 by lia.
      assert (K : (c * bl - s * cp (i + 1)%Z) * z' (i + 2)%Z = 0) by (rewrite B; ring).
      unfold r.
      transitivity (c * cp (i - 1)%Z * z' (i - 1)%Z + (c * bl - s * cp (i + 1)%Z) * z' (i + 2)%Z
        + (c * c * dg i - 2 * s * c * cp i + s * s * dg (i + 1)%Z) * z' i
        + (s * c * (dg i - dg (i + 1)%Z) + (c * c - s * s) * cp i) * z' (i + 1)%Z); [ring|].
      rewrite K.
      replace (c * c * dg i - 2 * s * c * cp i + s * s * dg (i + 1)%Z) with
        (dg i - s * ((dg i - dg (i + 1)%Z) * s + 2 * c * cp i)) by (replace (c * c) with (1 - s * s) by lra; ring).
      replace (s * c * (dg i - dg (i + 1)%Z) + (c * c - s * s) * cp i) with
        (c * ((dg i - dg (i + 1)%Z) * s + 2 * c * cp i) - cp i) by (replace (s * s) with (1 - c * c) by lra; ring).
      ring.
    - destruct (Z.eq_dec a (i + 1)) as [->|N1].
      + rewrite rotc_i1, X0, X1. unfold tri_row, bulge_row. rewrite (proj2 (Z.eqb_neq (i + 1) (i - 1))) by lia.
        replace (i - 1 + 2)%Z with (i + 1)%Z by lia. rewrite Z.eqb_refl.
        replace (i + 1 - 1)%Z with i by lia. replace (i + 1 + 1)%Z with (i + 2)%Z by lia.
        rewrite D2, C2, C3. rewrite (Zo (i - 1)%Z), (Zo (i + 2)%Z), Zi, Zi1 by lia. unfold r.
        transitivity (s * cp (i - 1)%Z * z' (i - 1)%Z + (s * bl + c * cp (i + 1)%Z) * z' (i + 2)%Z
          + (s * c * (dg i - dg (i + 1)%Z) + (c * c - s * s) * cp i) * z' i
          + (s * s * dg i + 2 * s * c * cp i + c * c * dg (i + 1)%Z) * z' (i + 1)%Z); [ring|].
        replace (s * s * dg i + 2 * s * c * cp i + c * c * dg (i + 1)%Z) with
          (dg (i + 1)%Z + s * ((dg i - dg (i + 1)%Z) * s + 2 * c * cp i)) by (replace (c * c) with (1 - s * s) by lra; ring).
        replace (s * c * (dg i - dg (i + 1)%Z) + (c * c - s * s) * cp i) with
          (c * ((dg i - dg (i + 1)%Z) * s + 2 * c * cp i) - cp i) by (replace (s * s) with (1 - c * c) by lra; ring).
        ring.
      + rewrite rotc_other by auto. rewrite E by lia. unfold tri_row, bulge_row.
        destruct (Z.eq_dec a (i + 2)) as [->|N2].
        * rewrite Z.eqb_refl, (proj2 (Z.eqb_neq (i + 2) i)), (proj2 (Z.eqb_neq (i + 2) (i - 1))), (proj2 (Z.eqb_neq (i + 2) (i - 1 + 2))) by lia.
          replace (i + 2 - 1)%Z with (i + 1)%Z by lia. rewrite D1, (C1 (i + 2)%Z), C2 by lia.
          rewrite (Zo (i + 2)%Z), (Zo (i + 2 + 1)%Z), Zi, Zi1 by lia.
          transitivity (cp (i + 2)%Z * z' (i + 2 + 1)%Z + dg (i + 2)%Z * z' (i + 2)%Z + (s * bl + c * cp (i + 1)%Z) * z' (i + 1)%Z
            + (c * bl - s * cp (i + 1)%Z) * z' i); [ring|]. rewrite B. ring.
        * rewrite (proj2 (Z.eqb_neq a i)), (proj2 (Z.eqb_neq a (i + 2))), (proj2 (Z.eqb_neq a (i - 1 + 2))) by lia.
          destruct (Z.eq_dec a (i - 1)) as [->|N3].
          -- rewrite Z.eqb_refl. replace (i - 1 + 1)%Z with i by lia. replace (i - 1 + 2)%Z with (i + 1)%Z by lia.
             rewrite D1, (C1 (i - 1 - 1)%Z), C4 by lia. rewrite (Zo (i - 1 - 1)%Z), (Zo (i - 1)%Z), Zi by lia. ring.
          -- rewrite (proj2 (Z.eqb_neq a (i - 1))) by lia. rewrite D1, (C1 (a - 1)%Z), (C1 a) by lia.
             rewrite (Zo (a - 1)%Z), (Zo a), (Zo (a + 1)%Z) by lia. ring.
  Qed.
End Rotation.

(** *** Frobenius norm *)
Definition frob2 (n m : Z) (x : Z -> Z -> R) : R := rsum n (fun k => rsum m (fun a => x k a * x k a)).
Notation frob := norm_F.

Lemma frob2_pos n m x : 0 <= frob2 n m x.
Proof. apply rsum_nonneg. intros. apply rsum_nonneg. intros. nra. Qed.
Lemma frob_pos n m x : 0 <= frob n m x.
Proof. apply sqrt_pos. Qed.
Lemma frob_frob2 n m x : frob n m x = sqrt (frob2 n m x).
Proof. reflexivity. Qed.
Lemma frob_sq n m x : frob n m x * frob n m x = frob2 n m x.
Proof. rewrite frob_frob2. apply sqrt_sqrt, frob2_pos. Qed.
Lemma frob_ext n m x y : (forall k a, (0 <= k < n)%Z -> (0 <= a < m)%Z -> x k a = y k a) -> frob n m x = frob n m y.
Proof. intros E. unfold norm_F. f_equal. apply rsum_ext. intros. apply rsum_ext. intros. now rewrite E. Qed.

Lemma disc a b c : 0 <= a -> 0 <= c -> (forall t, 0 <= a + 2 * b * t + c * (t * t)) -> b * b <= a * c.
Proof.
  intros Ha Hc H. destruct (Req_dec c 0) as [->|N].
  - rewrite Rmult_0_r. destruct (Req_dec b 0) as [->|Nb]; [lra|].
    specialize (H (- (a + 1) / (2 * b))). assert (E : 2 * b * (- (a + 1) / (2 * b)) = - (a + 1)) by (field; auto). nra.
  - specialize (H (- b / c)).
    assert (E : a + 2 * b * (- b / c) + c * (- b / c * (- b / c)) = (a * c - b * b) / c) by (field; auto). rewrite E in H.
    assert (0 <= (a * c - b * b) / c * c) by nra. replace ((a * c - b * b) / c * c) with (a * c - b * b) in H0 by (field; auto). lra.
Qed.
Lemma frob_triangle n m x y : frob n m (fun k a => x k a + y k a) <= frob n m x + frob n m y.
Proof.
  set (b := rsum n (fun k => rsum m (fun a => x k a * y k a))).
  assert (E : forall t, frob2 n m (fun k a => x k a + t * y k a) = frob2 n m x + 2 * b * t + frob2 n m y * (t * t)).
  { intros t. unfold frob2, b.
    transitivity (rsum n (fun k => rsum m (fun a => x k a * x k a)) + (2 * t) * rsum n (fun k => rsum m (fun a => x k a * y k a))
      + (t * t) * rsum n (fun k => rsum m (fun a => y k a * y k a))); [|ring].
    rewrite <- !rsum_scal, <- !rsum_plus. apply rsum_ext. intros k _.
    rewrite <- !rsum_scal, <- !rsum_plus. apply rsum_ext. intros; ring. }
  assert (C : b * b <= frob2 n m x * frob2 n m y).
  { apply disc; try apply frob2_pos. intros t. rewrite <- E. apply frob2_pos. }
  pose proof (frob_sq n m x) as Sx. pose proof (frob_sq n m y) as Sy.
  pose proof (frob_pos n m x) as Px. pose proof (frob_pos n m y) as Py.
  assert (B : b <= frob n m x * frob n m y).
  { apply Rsqr_incr_0_var; [|nra]. unfold Rsqr. nra. }
  rewrite (frob_frob2 n m (fun k a => x k a + y k a)). rewrite <- (sqrt_square (frob n m x + frob n m y)) by lra. apply sqrt_le_1_alt.
  replace (frob2 n m (fun k a => x k a + y k a)) with (frob2 n m (fun k a => x k a + 1 * y k a)).
  - rewrite E. nra.
  - unfold frob2. apply rsum_ext. intros. apply rsum_ext. intros. ring.
Qed.
Lemma frob_rot n m i s c x : (0 <= i)%Z -> (i + 1 < m)%Z -> s * s + c * c = 1 ->
  frob n m (fun k a => rotc i s c (x k) a) = frob n m x.
Proof.
  intros H0 H1 U. unfold norm_F. f_equal. apply rsum_ext. intros k _. apply (rot_dot m i s c H0 H1 U).
Qed.
(** An entry is bounded by the norm. *)
Lemma frob_entry n m x k a : (0 <= k < n)%Z -> (0 <= a < m)%Z -> Rabs (x k a) <= frob n m x.
Proof.
  intros Hk Ha. rewrite <- (sqrt_Rsqr_abs (x k a)). apply sqrt_le_1_alt. unfold Rsqr.
  apply Rle_trans with (rsum m (fun a => x k a * x k a)).
  - apply (rsum_term m (fun a => x k a * x k a)); auto. intros. nra.
  - apply (rsum_term n (fun k => rsum m (fun a => x k a * x k a))); auto. intros. apply rsum_nonneg. intros. nra.
Qed.
