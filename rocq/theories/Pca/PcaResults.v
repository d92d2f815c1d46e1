(** Consequences for the caller of pca_project. *)
From Coq Require Import List ZArith Reals Lia Lra Bool Psatz.
From Flocq Require Import Core Relative.
From Verif.Base Require Import Imp Sums RealOps Loops Matrix Tables.
From Verif.Pca Require Import PcaModel PcaSpec PcaMath PcaQl PcaHouse PcaTred2 PcaProofs.
Import ListNotations.
Open Scope Z_scope.

Lemma pca_components junk negligible eps data n m w nc : rounding_test negligible eps ->
  0 <= n -> 0 < m <= w -> 0 <= nc <= m -> shape n w data ->
  pca_project junk negligible data n m nc = Throw \/
  exists data' z lambda, pca_project junk negligible data n m nc = OK data' /\
    principal data data' n m w nc z /\
    eigenbasis m (scatter n (ent 0%R data)) z lambda (62 * IZR m * eps * norm_F m m (scatter n (ent 0%R data))).
Proof.
  intros (He & Hz & Hs) Hn Hm Hc Sh. set (x := ent 0%R data).
  assert (E : data = tab2 n w x) by (apply (shape_ext 0%R n w data x); auto; lia).
  destruct (pca_project_ok junk n m w x Hn ltac:(lia) ltac:(lia) negligible eps Hz Hs He nc Hc) as [T|(z & la & P & Eb)].
  - left. now rewrite <- E in T.
  - right. exists (tab2 n w (projected n m x nc z)), z, la. rewrite <- E in P. split; [exact P|]. split; [|exact Eb]. unfold principal. splits.
    + apply shape_tab2; lia.
    + intros i k Hi Hk. rewrite ent_tab2 by lia. unfold projected. zdec. reflexivity.
    + intros i k Hi Hk. rewrite ent_tab2 by lia. unfold projected, centred_cols. zdec. reflexivity.
    + intros i k Hi Hk. rewrite ent_tab2 by lia. unfold projected, centred_cols. zdec. reflexivity.
Qed.

(** Column means vanish after centring. *)
Lemma centred_mean n x j : 0 < n -> rsum n (fun i => centred n x i j) = 0%R.
Proof.
  intros Hn. unfold centred. rewrite rsum_minus.
  rewrite rsum_const by lia. unfold column_mean. field. apply not_0_IZR. lia.
Qed.

Lemma cauchy n f g : (rsum n (fun i => f i * g i) * rsum n (fun i => f i * g i) <= rsum n (fun i => f i * f i) * rsum n (fun i => g i * g i))%R.
Proof.
  apply disc; try (apply rsum_nonneg; intros; apply sq_nonneg). intros t.
  apply Rle_trans with (rsum n (fun i => (f i + t * g i) * (f i + t * g i))%R); [apply rsum_nonneg; intros; apply sq_nonneg|].
  apply Req_le. rewrite (Rmult_comm _ (t * t)), (Rmult_comm _ t), <- (Rmult_assoc t 2), <- !rsum_scal, <- !rsum_plus. apply rsum_ext. intros; ring.
Qed.

(** Scatter of two components. *)
Lemma component_scatter n m x (z : Z -> Z -> R) a b :
  rsum n (fun i => rsum m (fun j => centred n x i j * z j a) * rsum m (fun j => centred n x i j * z j b))%R =
  rsum m (fun j => z j a * rsum m (fun k => scatter n x j k * z k b))%R.
Proof.
  rewrite (rsum_ext n _ (fun i => rsum m (fun j => z j a * (centred n x i j * rsum m (fun k => centred n x i k * z k b)))%R)).
  2:{ intros i Hi. rewrite <- rsum_scal_r. apply rsum_ext. intros; ring. }
  rewrite rsum_swap. apply rsum_ext. intros j Hj. rewrite rsum_scal. f_equal.
  rewrite (rsum_ext n _ (fun i => rsum m (fun k => centred n x i j * centred n x i k * z k b)%R)).
  2:{ intros i Hi. rewrite <- rsum_scal. apply rsum_ext. intros; ring. }
  rewrite rsum_swap. apply rsum_ext. intros k Hk. rewrite rsum_scal_r. reflexivity.
Qed.

Lemma eigen_scatter n m x z la err a b : eigenbasis m (scatter n x) z la err -> 0 <= a < m -> 0 <= b < m ->
  (Rabs (rsum n (fun i => rsum m (fun j => centred n x i j * z j a) * rsum m (fun j => centred n x i j * z j b)) - la b * delta a b) <= err)%R.
Proof.
  intros ((Oc & Or) & E) Ha Hb. eapply Rle_trans; [|exact E]. rewrite component_scatter.
  set (D := fun k a => (rsum m (fun j => scatter n x k j * z j a) - la a * z k a)%R) in *.
  assert (Q : (rsum m (fun j => z j a * rsum m (fun k => scatter n x j k * z k b)) - la b * delta a b = rsum m (fun j => z j a * D j b))%R).
  { rewrite <- (Oc a b Ha Hb), <- rsum_scal, <- rsum_minus. apply rsum_ext. intros. unfold D. ring. }
  rewrite Q. rewrite frob_frob2, <- sqrt_Rsqr_abs. apply sqrt_le_1_alt. unfold Rsqr.
  eapply Rle_trans; [apply (cauchy m (fun j => z j a) (fun j => D j b))|]. cbv beta. rewrite (Oc a a Ha Ha), delta_eq, Rmult_1_l. unfold frob2. rewrite rsum_swap.
  apply (rsum_term m (fun b => rsum m (fun k => D k b * D k b)%R) b); auto. intros. apply rsum_nonneg. intros; apply sq_nonneg.
Qed.

Lemma pca_uncorrelated data data' n m w nc z la err : 0 < n -> 0 < m <= w -> 0 <= nc <= m ->
  principal data data' n m w nc z -> eigenbasis m (scatter n (ent 0%R data)) z la err ->
  let y := ent 0%R data' in
  (forall k, 0 <= k < nc -> rsum n (fun i => y i k) = 0%R) /\
  (forall k l, 0 <= k < nc -> 0 <= l < nc -> k <> l -> (Rabs (rsum n (fun i => y i k * y i l)) <= err)%R) /\
  (forall k, 0 <= k < nc -> (Rabs (rsum n (fun i => y i k * y i k) - la (m - 1 - k)%Z) <= err)%R).
Proof.
  intros Hn Hm Hc (Sh & P & _) Eb y. unfold y.
  assert (S : forall k l, 0 <= k < nc -> 0 <= l < nc ->
    (Rabs (rsum n (fun i => ent 0%R data' i k * ent 0%R data' i l) - la (m - 1 - l)%Z * delta (m - 1 - k) (m - 1 - l)) <= err)%R).
  { intros k l Hk Hl. rewrite (rsum_ext n _ (fun i => rsum m (fun j => centred n (ent 0%R data) i j * z j (m - 1 - k)%Z) *
      rsum m (fun j => centred n (ent 0%R data) i j * z j (m - 1 - l)%Z))%R) by (intros; now rewrite !P by lia).
    apply eigen_scatter; auto; lia. }
  splits.
  - intros k Hk. rewrite (rsum_ext n _ (fun i => rsum m (fun j => centred n (ent 0%R data) i j * z j (m - 1 - k)%Z)%R)) by (intros; now rewrite P by lia).
    rewrite rsum_swap. apply rsum_zero. intros j Hj. rewrite rsum_scal_r, centred_mean by auto. ring.
  - intros k l Hk Hl N. specialize (S k l Hk Hl). rewrite delta_ne in S by lia. now rewrite Rmult_0_r, Rminus_0_r in S.
  - intros k Hk. specialize (S k k Hk Hk). now rewrite delta_eq, Rmult_1_r in S.
Qed.

Lemma rsum_cut m nc f : 0 <= nc <= m -> (rsum m f = rsum nc f + rsum (m - nc) (fun i => f (nc + i)%Z))%R.
Proof. intros H. rewrite <- rsum_split by lia. f_equal. lia. Qed.

Lemma pca_distances data data' n m w nc z : 0 < m <= w -> 0 <= nc <= m ->
  principal data data' n m w nc z -> orthonormal m z -> forall i i', 0 <= i < n -> 0 <= i' < n ->
  let dist := fun c x => rsum c (fun j => (x i j - x i' j) * (x i j - x i' j))%R in
  (dist nc (ent 0%R data') <= dist m (ent 0%R data))%R /\ (nc = m -> dist nc (ent 0%R data') = dist m (ent 0%R data)).
Proof.
  intros Hm Hc (Sh & P & _) (Oc & Or) i i' Hi Hi' dist.
  set (x := ent 0%R data) in *.
  set (v := fun a => rsum m (fun j => (x i j - x i' j) * z j a)%R).
  assert (E1 : dist nc (ent 0%R data') = rsum nc (fun k => v (m - 1 - k)%Z * v (m - 1 - k)%Z)%R).
  { unfold dist. apply rsum_ext. intros k Hk. rewrite !P by lia.
    assert (Q : (rsum m (fun j => centred n x i j * z j (m - 1 - k)%Z) - rsum m (fun j => centred n x i' j * z j (m - 1 - k)%Z) = v (m - 1 - k)%Z)%R).
    { unfold v. rewrite <- rsum_minus. apply rsum_ext. intros. unfold centred. ring. }
    now rewrite Q. }
  assert (E2 : rsum m (fun k => v (m - 1 - k)%Z * v (m - 1 - k)%Z)%R = dist m x).
  { rewrite (rsum_rev m (fun a => v a * v a)%R). unfold v, dist.
    rewrite (ortho_comb m m z (fun j => x i j - x i' j)%R (fun j => x i j - x i' j)%R) by auto. reflexivity. }
  split.
  - rewrite E1, <- E2. rewrite (rsum_cut m nc) by lia.
    rewrite <- (Rplus_0_r (rsum nc _)) at 1. apply Rplus_le_compat_l, rsum_nonneg. intros; apply sq_nonneg.
  - intros ->. now rewrite E1, E2.
Qed.

(** *** The test in double arithmetic (unbounded exponents) *)
Definition rnd (x : R) : R := round radix2 (FLX_exp 53) ZnearestE x.
Definition double_test (x dd : R) : bool := Reqb (rnd (rnd x + rnd dd)) (rnd dd).

Lemma rnd_err x : (Rabs (rnd x - x) <= bpow radix2 (-53) * Rabs x)%R.
Proof.
  pose proof (relative_error_N_FLX radix2 53 ltac:(reflexivity) (fun x => negb (Z.even x)) x) as H.
  replace (bpow radix2 (-53)) with (/ 2 * bpow radix2 (- 53 + 1))%R; [exact H|]. 
  change (- 53 + 1)%Z with (-53 + 1)%Z. rewrite bpow_plus. change (bpow radix2 1) with 2%R. field.
Qed.
Lemma rnd_0 : rnd 0 = 0%R.
Proof. apply round_0. apply valid_rnd_N. Qed.
Lemma rnd_idem x : rnd (rnd x) = rnd x.
Proof. apply round_generic; [apply valid_rnd_N|]. apply generic_format_round; [|apply valid_rnd_N]. apply FLX_exp_valid. reflexivity. Qed.
Lemma rnd_pos x : (0 <= x)%R -> (0 <= rnd x)%R.
Proof. intros H. rewrite <- rnd_0. apply round_le; auto; [apply FLX_exp_valid; reflexivity|apply valid_rnd_N]. Qed.

Lemma double_test_ok : rounding_test double_test (bpow radix2 (-52)).
Proof.
  split; [apply bpow_ge_0|]. split.
  - intros dd H. apply Reqb_true. rewrite rnd_0, Rplus_0_l. apply rnd_idem.
  - intros x dd Hx Hd T. apply Reqb_true in T.
    pose proof (rnd_pos x Hx) as Px. pose proof (rnd_pos dd Hd) as Pd.
    pose proof (rnd_err x) as Ex. pose proof (rnd_err dd) as Ed. pose proof (rnd_err (rnd x + rnd dd)) as Es. rewrite T in Es.
    rewrite (Rabs_right x) in Ex by lra. rewrite (Rabs_right dd) in Ed by lra. rewrite (Rabs_right (rnd x + rnd dd)) in Es by lra.
    replace (rnd dd - (rnd x + rnd dd))%R with (- rnd x)%R in Es by ring. rewrite Rabs_Ropp, Rabs_right in Es by lra.
    apply Rabs_le_inv in Ex, Ed.
    assert (E : (bpow radix2 (-52) = 2 * bpow radix2 (-53))%R) by (change (-52)%Z with (1 + -53)%Z; rewrite bpow_plus; reflexivity).
    rewrite E. assert (B : (0 < bpow radix2 (-53) <= / 8)%R).
    { split; [apply bpow_gt_0|]. change (/ 8)%R with (bpow radix2 (-3)). apply bpow_le. lia. }
    set (t := bpow radix2 (-53)) in *. clearbody t.
    (* rnd x (1-t) <= t rnd dd, x (1-t) <= rnd x, rnd dd <= dd (1+t) *)
    assert (L1 : (rnd x * (1 - t) <= t * rnd dd)%R) by lra.
    assert (L2 : (x * (1 - t) <= rnd x)%R) by lra.
    assert (L3 : (rnd dd <= dd * (1 + t))%R) by lra.
    assert (L4 : (x * (1 - t) * (1 - t) <= t * (dd * (1 + t)))%R).
    { apply Rle_trans with (rnd x * (1 - t))%R; [apply Rmult_le_compat_r; lra|]. eapply Rle_trans; [exact L1|]. apply Rmult_le_compat_l; lra. }
    assert (L5 : (t * (dd * (1 + t)) <= 2 * t * dd * ((1 - t) * (1 - t)))%R).
    { replace (2 * t * dd * ((1 - t) * (1 - t)))%R with (t * (dd * (2 * ((1 - t) * (1 - t)))))%R by ring.
      apply Rmult_le_compat_l; [lra|]. apply Rmult_le_compat_l; [lra|]. nra. }
    apply Rmult_le_reg_r with ((1 - t) * (1 - t))%R; [nra|]. lra.
Qed.
