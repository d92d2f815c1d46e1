(** Orthogonality of the cosine transform. *)
From Coq Require Import Reals ZArith Lia Lra List Bool Ring.
From Verif.Base Require Import Imp Sums RealOps Loops.
From Verif.Fft Require Import Cplx FftSpec.
Open Scope R_scope.

Definition ck (n k j : Z) : R := cos (PI * IZR k * IZR (2 * j + 1) / IZR (2 * n)).

Lemma ck_root n k j : (1 <= n)%Z -> ck n k j = fst (root (4 * n) (k * (2 * j + 1))).
Proof.
  intros Hn. unfold ck, root, cis. cbn [fst]. f_equal. rewrite !mult_IZR.
  assert (IZR n <> 0) by (apply not_0_IZR; lia). field. auto.
Qed.

Lemma cos_mul a b : 2 * (cos a * cos b) = cos (a + b) + cos (a - b).
Proof. rewrite cos_plus, cos_minus. ring. Qed.

Lemma rsum_fst_csum n f : rsum n (fun i => fst (f i)) = fst (csum n f).
Proof. reflexivity. Qed.

(** sum over k < 2n of cos(pi k d / n) *)
Lemma cos_full n d : (1 <= n)%Z ->
  rsum (2 * n) (fun k => cos (PI * IZR k * IZR d / IZR n)) = if (d mod (2 * n) =? 0)%Z then IZR (2 * n) else 0.
Proof.
  intros Hn. rewrite (rsum_ext _ _ (fun k => fst (root (2 * n) (k * d)))).
  2:{ intros k Hk. unfold root, cis. cbn [fst]. f_equal. rewrite !mult_IZR.
      assert (IZR n <> 0) by (apply not_0_IZR; lia). field. auto. }
  rewrite rsum_fst_csum. rewrite root_sum by lia. now destruct (d mod (2 * n) =? 0)%Z.
Qed.

Definition sgn1 (d : Z) : R := if Z.even d then 1 else -1.
Lemma cos_pi_Z d : cos (PI * IZR d) = sgn1 d.
Proof.
  unfold sgn1. destruct (Z.even d) eqn:E.
  - apply Z.even_spec in E. destruct E as (e & ->).
    pose proof (cis_2pi e) as H. apply (f_equal fst) in H. cbn in H. rewrite <- H. f_equal. rewrite mult_IZR. ring.
  - rewrite <- Z.negb_odd in E. apply negb_false_iff in E. apply Z.odd_spec in E. destruct E as (e & ->).
    pose proof (cis_2pi e) as H. apply (f_equal fst) in H. cbn in H.
    replace (PI * IZR (2 * e + 1)) with (2 * PI * IZR e + PI) by (rewrite plus_IZR, mult_IZR; ring).
    rewrite neg_cos, H. ring.
Qed.

(** The half sum: k = 1 .. n-1. *)
Lemma cos_half n d : (1 <= n)%Z ->
  2 * rsum (n - 1) (fun i => cos (PI * IZR (i + 1) * IZR d / IZR n)) =
  (if (d mod (2 * n) =? 0)%Z then IZR (2 * n) else 0) - 1 - sgn1 d.
Proof.
  intros Hn. rewrite <- cos_full by auto.
  assert (N : IZR n <> 0) by (apply not_0_IZR; lia).
  set (f := fun k : Z => cos (PI * IZR k * IZR d / IZR n)).
  replace (2 * n)%Z with (1 + (n - 1) + (1 + (n - 1)))%Z by lia.
  rewrite !rsum_split by lia.

  assert (S1 : forall g, rsum 1 g = g 0%Z).
  { intros g. change 1%Z with (0 + 1)%Z. rewrite rsum_S, rsum_0 by lia. lra. }
  rewrite !S1.
  assert (f0 : f 0%Z = 1).
  { unfold f. replace (PI * 0 * IZR d / IZR n) with 0 by (field; auto). apply cos_0. }
  assert (fn : f (1 + (n - 1) + 0)%Z = sgn1 d).
  { unfold f. replace (1 + (n - 1) + 0)%Z with n by lia. rewrite <- cos_pi_Z. f_equal. field. auto. }
  rewrite f0, fn.
  rewrite (rsum_ext (n - 1) (fun i => f (1 + i)%Z) (fun i => f (i + 1)%Z)) by (intros; f_equal; lia).
  rewrite (rsum_ext (n - 1) (fun i => f (1 + (n - 1) + (1 + i))%Z) (fun i => f ((n - 1) - 1 - i + 1)%Z)).
  2:{ intros i Hi. unfold f.
      replace (PI * IZR (1 + (n - 1) + (1 + i)) * IZR d / IZR n) with
        (- (PI * IZR (n - 1 - 1 - i + 1) * IZR d / IZR n) + 2 * PI * IZR d).
      2:{ repeat rewrite ?plus_IZR, ?minus_IZR. field. auto. }
      pose proof (cis_2pi d) as H. pose proof (f_equal fst H) as Hc. pose proof (f_equal snd H) as Hs. cbn in Hc, Hs.
      rewrite cos_plus, Hc, Hs, cos_neg. ring. }
  rewrite (rsum_rev (n - 1) (fun i => f (i + 1)%Z)).
  change (fun i : Z => cos (PI * IZR (i + 1) * IZR d / IZR n)) with (fun i : Z => f (i + 1)%Z). lra.
Qed.

(** sum over k of the products of two rows (k is the frequency). *)
Lemma ck_rows n i j : (1 <= n)%Z -> (0 <= i < n)%Z -> (0 <= j < n)%Z ->
  1 + 2 * rsum (n - 1) (fun k => ck n (k + 1) i * ck n (k + 1) j) = if (i =? j)%Z then IZR n else 0.
Proof.
  intros Hn Hi Hj.
  assert (N : IZR n <> 0) by (apply not_0_IZR; lia).
  rewrite <- rsum_scal.
  rewrite (rsum_ext (n - 1) _ (fun k => cos (PI * IZR (k + 1) * IZR (i + j + 1) / IZR n) + cos (PI * IZR (k + 1) * IZR (i - j) / IZR n))).
  2:{ intros k Hk. unfold ck. rewrite cos_mul. f_equal; f_equal; repeat rewrite ?plus_IZR, ?minus_IZR, ?mult_IZR; field; auto. }
  rewrite rsum_plus.
  pose proof (cos_half n (i + j + 1) Hn) as H1. pose proof (cos_half n (i - j) Hn) as H2.
  assert (P : sgn1 (i + j + 1) + sgn1 (i - j) = 0).
  { unfold sgn1. replace (i + j + 1)%Z with (Z.succ ((i - j) + 2 * j)) by lia. rewrite Z.even_succ, Z.odd_add_mul_2.
    rewrite <- Z.negb_even. destruct (Z.even (i - j)); cbn; ring. }
  replace ((i + j + 1) mod (2 * n) =? 0)%Z with false in H1.
  2:{ symmetry. apply Z.eqb_neq. rewrite Z.mod_small by lia. lia. }
  replace ((i - j) mod (2 * n) =? 0)%Z with (i =? j)%Z in H2.
  2:{ destruct (Z.eqb_spec i j) as [->|Ne].
      - rewrite Z.sub_diag, Z.mod_0_l by lia. reflexivity.
      - symmetry. apply Z.eqb_neq. intros E. apply Z.mod_divide in E; [|lia]. destruct E as (e & E).
        assert (e = 0 \/ e <= -1 \/ 1 <= e)%Z by lia. nia. }
  rewrite mult_IZR in H2. destruct (i =? j)%Z; lra.
Qed.

(** sum over j of the products of two columns. *)
Lemma ck_sum n d : (1 <= n)%Z -> (- (2 * n) < d < 2 * n)%Z ->
  rsum n (fun j => ck n d j) = if (d =? 0)%Z then IZR n else 0.
Proof.
  intros Hn Hd.
  assert (N : IZR n <> 0) by (apply not_0_IZR; lia).
  assert (Full : rsum (2 * n) (fun j => ck n d j) = if (d =? 0)%Z then IZR (2 * n) else 0).
  { rewrite (rsum_ext _ _ (fun j => fst (cmul (root (4 * n) d) (root (2 * n) (j * d))))).
    2:{ intros j Hj. rewrite ck_root by auto. replace (d * (2 * j + 1))%Z with (d + (j * d) * 2)%Z by lia.
        rewrite root_add. replace (4 * n)%Z with (2 * n * 2)%Z at 2 by lia. rewrite root_scale by lia. reflexivity. }
    rewrite rsum_fst_csum, csum_scal, root_sum by lia.
    destruct (Z.eqb_spec d 0) as [->|Ne].
    - rewrite Z.mod_0_l by lia. rewrite root_0. cbn [Z.eqb]. unfold cmul, c1, cre. cbn [fst snd]. ring.
    - destruct (Z.eqb_spec (d mod (2 * n)) 0) as [E|E].
      + exfalso. apply Z.mod_divide in E; [|lia]. destruct E as (e & E).
        assert (e = 0 \/ e <= -1 \/ 1 <= e)%Z by lia. nia.
      + unfold cmul, c0. cbn [fst snd]. ring. }
  assert (Sym : rsum (2 * n) (fun j => ck n d j) = 2 * rsum n (fun j => ck n d j)).
  { replace (2 * n)%Z with (n + n)%Z by lia. rewrite rsum_split by lia.
    rewrite (rsum_ext n (fun i => ck n d (n + i)) (fun i => ck n d (n - 1 - i))).
    - rewrite (rsum_rev n (fun j => ck n d j)). ring.
    - intros i Hi. unfold ck.
      replace (PI * IZR d * IZR (2 * (n + i) + 1) / IZR (2 * n)) with
        (- (PI * IZR d * IZR (2 * (n - 1 - i) + 1) / IZR (2 * n)) + 2 * PI * IZR d).
      2:{ repeat rewrite ?plus_IZR, ?minus_IZR, ?mult_IZR. field. auto. }
      pose proof (cis_2pi d) as H. pose proof (f_equal fst H) as Hc. pose proof (f_equal snd H) as Hs. cbn in Hc, Hs.
      rewrite cos_plus, Hc, Hs, cos_neg. ring. }
  rewrite Sym in Full. rewrite mult_IZR in Full. destruct (d =? 0)%Z; lra.
Qed.

Lemma ck_cols n k l : (1 <= n)%Z -> (0 <= k < n)%Z -> (0 <= l < n)%Z ->
  2 * rsum n (fun j => ck n k j * ck n l j) = if (k =? l)%Z then (if (k =? 0)%Z then 2 * IZR n else IZR n) else 0.
Proof.
  intros Hn Hk Hl.
  assert (N : IZR n <> 0) by (apply not_0_IZR; lia).
  rewrite <- rsum_scal. rewrite (rsum_ext n _ (fun j => ck n (k + l) j + ck n (k - l) j)).
  2:{ intros j Hj. unfold ck. rewrite cos_mul. f_equal; f_equal; repeat rewrite ?plus_IZR, ?minus_IZR, ?mult_IZR; field; auto. }
  rewrite rsum_plus, !ck_sum by lia.
  destruct (Z.eqb_spec k l) as [->|Ne].
  - rewrite Z.sub_diag. cbn [Z.eqb]. destruct (Z.eqb_spec l 0), (Z.eqb_spec (l + l) 0); try lia; lra.
  - destruct (Z.eqb_spec (k + l) 0), (Z.eqb_spec (k - l) 0); try lia; lra.
Qed.

(** The transforms undo each other. *)
Lemma rsum_single n f j : (0 <= j < n)%Z -> (forall i, (0 <= i < n)%Z -> i <> j -> f i = 0) -> rsum n f = f j.
Proof.
  intros Hj H. replace (rsum n f) with (fst (csum n (fun i => cre (f i)))) by reflexivity.
  rewrite (csum_single n _ j Hj); [reflexivity|]. intros i Hi Ne. rewrite H; auto.
Qed.

Lemma idct2_dct2 n x j : (1 <= n)%Z -> (0 <= j < n)%Z -> idct2 n (dct2 n x) j = x j.
Proof.
  intros Hn Hj. assert (N : IZR n <> 0) by (apply not_0_IZR; lia).
  unfold idct2. fold (ck n). change (fun i : Z => dct2 n x (i + 1) * cos (PI * IZR (i + 1) * IZR (2 * j + 1) / IZR (2 * n)))
    with (fun i : Z => dct2 n x (i + 1) * ck n (i + 1) j).
  assert (E : dct2 n x 0 / 2 + rsum (n - 1) (fun i => dct2 n x (i + 1) * ck n (i + 1) j) =
    rsum n (fun l => x l * (1 + 2 * rsum (n - 1) (fun k => ck n (k + 1) l * ck n (k + 1) j)))).
  { rewrite (rsum_ext n _ (fun l => x l + rsum (n - 1) (fun k => 2 * (x l * (ck n (k + 1) l * ck n (k + 1) j))))).
    2:{ intros l Hl. rewrite <- !rsum_scal. rewrite Rmult_plus_distr_l. f_equal; [ring|]. rewrite <- rsum_scal. apply rsum_ext. intros. ring. }
    rewrite rsum_plus. f_equal.
    - unfold dct2. replace (2 * rsum n (fun j0 => x j0 * cos (PI * 0 * IZR (2 * j0 + 1) / IZR (2 * n))) / 2)
        with (rsum n (fun j0 => x j0 * cos (PI * 0 * IZR (2 * j0 + 1) / IZR (2 * n)))) by lra.
      apply rsum_ext. intros i Hi. replace (PI * 0 * IZR (2 * i + 1) / IZR (2 * n)) with 0 by (unfold Rdiv; ring). rewrite cos_0. ring.
    - rewrite rsum_swap. apply rsum_ext. intros k Hk. unfold dct2. rewrite <- (rsum_scal n 2).
      rewrite Rmult_comm, <- rsum_scal. apply rsum_ext. intros l Hl. unfold ck. ring. }
  rewrite E. rewrite (rsum_single n _ j Hj).
  - rewrite ck_rows, Z.eqb_refl by lia. field. auto.
  - intros i Hi Ne. rewrite ck_rows by lia. destruct (Z.eqb_spec i j); [lia|]. ring.
Qed.

Lemma dct2_idct2 n y k : (1 <= n)%Z -> (0 <= k < n)%Z -> dct2 n (idct2 n y) k = y k.
Proof.
  intros Hn Hk. assert (N : IZR n <> 0) by (apply not_0_IZR; lia).
  set (w := fun l : Z => if (l =? 0)%Z then / 2 else 1).
  assert (I : forall j, idct2 n y j = rsum n (fun l => / IZR n * (w l * y l * ck n l j))).
  { intros j. unfold idct2. rewrite rsum_scal. rewrite (rsum_first n) by lia.
    replace (w 0%Z * y 0%Z * ck n 0 j) with (y 0%Z / 2).
    2:{ unfold w, ck. cbn [Z.eqb]. replace (PI * 0 * IZR (2 * j + 1) / IZR (2 * n)) with 0 by (unfold Rdiv; ring). rewrite cos_0. field. }
    unfold Rdiv at 1. rewrite Rmult_comm. f_equal. f_equal. apply rsum_ext. intros i Hi. unfold w.
    destruct (Z.eqb_spec (i + 1) 0); [lia|]. unfold ck. ring. }
  unfold dct2. rewrite (rsum_ext n _ (fun j => rsum n (fun l => / IZR n * w l * y l * (ck n l j * ck n k j)))).
  2:{ intros j Hj. rewrite I. rewrite Rmult_comm, <- rsum_scal. apply rsum_ext. intros l Hl. unfold ck. ring. }
  rewrite rsum_swap.
  rewrite (rsum_single n _ k Hk).
  - rewrite rsum_scal.
    replace (2 * (/ IZR n * w k * y k * rsum n (fun j => ck n k j * ck n k j)))
      with (/ IZR n * w k * y k * (2 * rsum n (fun j => ck n k j * ck n k j))) by ring.
    rewrite ck_cols, Z.eqb_refl by lia. unfold w. destruct (k =? 0)%Z; field; auto.
  - intros i Hi Ne. rewrite rsum_scal. pose proof (ck_cols n i k Hn Hi Hk) as C.
    destruct (Z.eqb_spec i k); [lia|]. replace (rsum n (fun j => ck n i j * ck n k j)) with 0 by lra. ring.
Qed.

Lemma dct2_unitary_scale n x k : (1 <= n)%Z ->
  dct2_unitary n x k = (let v := dct2 n x k / (IZR n * sqrt (2 / IZR n)) in if (k =? 0)%Z then v / sqrt 2 else v).
Proof.
  intros Hn. assert (N : 0 < IZR n) by (apply IZR_lt; lia).
  unfold dct2_unitary, dct2. set (S := rsum n _).
  assert (Q : 0 < sqrt (2 / IZR n)) by (apply sqrt_lt_R0; apply Rdiv_lt_0_compat; lra).
  assert (Q2 : sqrt (2 / IZR n) * sqrt (2 / IZR n) = 2 / IZR n) by (apply sqrt_sqrt; apply Rlt_le, Rdiv_lt_0_compat; lra).
  assert (T : 2 * S / (IZR n * sqrt (2 / IZR n)) = sqrt (2 / IZR n) * S).
  { apply Rmult_eq_reg_r with (IZR n * sqrt (2 / IZR n)); [|apply Rgt_not_eq; nra].
    replace (sqrt (2 / IZR n) * S * (IZR n * sqrt (2 / IZR n))) with (S * IZR n * (sqrt (2 / IZR n) * sqrt (2 / IZR n))) by ring.
    rewrite Q2. field. split; lra. }
  cbv zeta. rewrite T. destruct (k =? 0)%Z; [|reflexivity].
  assert (W : 0 < sqrt 2) by (apply sqrt_lt_R0; lra).
  assert (E : sqrt (2 / IZR n) = sqrt 2 * sqrt (1 / IZR n)).
  { rewrite <- sqrt_mult; [f_equal; field; lra|lra|]. apply Rlt_le, Rdiv_lt_0_compat; lra. }
  rewrite E. field. lra.
Qed.

(** The unitary transform preserves inner products. *)
Lemma dct2_unitary_energy n x : (1 <= n)%Z ->
  rsum n (fun k => dct2_unitary n x k * dct2_unitary n x k) = rsum n (fun j => x j * x j).
Proof.
  intros Hn. assert (N : 0 < IZR n) by (apply IZR_lt; lia).
  set (S := fun k => rsum n (fun j => x j * ck n k j)).
  set (c := fun k : Z => if (k =? 0)%Z then 1 / IZR n else 2 / IZR n).
  assert (P0 : 0 <= 1 / IZR n) by (apply Rlt_le, Rdiv_lt_0_compat; lra).
  assert (P1 : 0 <= 2 / IZR n) by (apply Rlt_le, Rdiv_lt_0_compat; lra).
  rewrite (rsum_ext n (fun k => dct2_unitary n x k * dct2_unitary n x k) (fun k => c k * (S k * S k))).
  2:{ intros k Hk. unfold dct2_unitary. fold (ck n k). change (rsum n (fun j => x j * cos (PI * IZR k * IZR (2 * j + 1) / IZR (2 * n)))) with (S k).
      unfold c. destruct (k =? 0)%Z.
      - rewrite <- (sqrt_sqrt (1 / IZR n)) at 3 by auto. ring.
      - rewrite <- (sqrt_sqrt (2 / IZR n)) at 3 by auto. ring. }
  assert (SS : forall k, S k * S k = rsum n (fun i => rsum n (fun j => x i * x j * (ck n k i * ck n k j)))).
  { intros k. unfold S at 1. rewrite Rmult_comm, <- rsum_scal. apply rsum_ext. intros i Hi. unfold S.
    rewrite Rmult_comm, <- rsum_scal. apply rsum_ext. intros j Hj. ring. }
  rewrite (rsum_ext n _ (fun k => rsum n (fun i => rsum n (fun j => x i * x j * (c k * (ck n k i * ck n k j)))))).
  2:{ intros k Hk. rewrite SS, <- rsum_scal. apply rsum_ext. intros i Hi. rewrite <- rsum_scal. apply rsum_ext. intros j Hj. ring. }
  rewrite rsum_swap. apply rsum_ext. intros i Hi. rewrite rsum_swap.
  rewrite (rsum_ext n _ (fun j => x i * x j * ((if (i =? j)%Z then IZR n else 0) / IZR n))).
  2:{ intros j Hj. rewrite rsum_scal. f_equal. rewrite <- ck_rows by auto. rewrite (rsum_first n) by lia.
      unfold c at 1. cbn [Z.eqb]. unfold ck at 1 2. replace (PI * 0 * IZR (2 * i + 1) / IZR (2 * n)) with 0 by (unfold Rdiv; ring).
      replace (PI * 0 * IZR (2 * j + 1) / IZR (2 * n)) with 0 by (unfold Rdiv; ring). rewrite cos_0.
      rewrite (rsum_ext (n - 1) _ (fun k => 2 / IZR n * (ck n (k + 1) i * ck n (k + 1) j))).
      2:{ intros k Hk. unfold c. destruct (Z.eqb_spec (k + 1) 0); [lia|]. reflexivity. }
      rewrite rsum_scal. field. lra. }
  rewrite (rsum_single n _ i Hi).
  - rewrite Z.eqb_refl. field. lra.
  - intros j Hj Ne. destruct (Z.eqb_spec i j); [lia|]. unfold Rdiv. ring.
Qed.
