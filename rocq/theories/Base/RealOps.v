(** Exact real arithmetic standing for double: decidable comparisons, floor, sums. *)
From Coq Require Import Reals ZArith Lia Lra List.
From Verif.Base Require Import Imp Sums.
Open Scope R_scope.

Definition Rltb (x y : R) : bool := if Rlt_dec x y then true else false.
Definition Rleb (x y : R) : bool := if Rle_dec x y then true else false.
Definition Reqb (x y : R) : bool := if Req_EM_T x y then true else false.

Lemma Rltb_true x y : Rltb x y = true <-> x < y.
Proof. unfold Rltb. destruct (Rlt_dec x y); split; auto; discriminate. Qed.
Lemma Rltb_false x y : Rltb x y = false <-> y <= x.
Proof. unfold Rltb. destruct (Rlt_dec x y); split; auto; try discriminate; lra. Qed.
Lemma Rleb_true x y : Rleb x y = true <-> x <= y.
Proof. unfold Rleb. destruct (Rle_dec x y); split; auto; discriminate. Qed.
Lemma Rleb_false x y : Rleb x y = false <-> y < x.
Proof. unfold Rleb. destruct (Rle_dec x y); split; auto; try discriminate; lra. Qed.
Lemma Reqb_true x y : Reqb x y = true <-> x = y.
Proof. unfold Reqb. destruct (Req_EM_T x y); split; auto; discriminate. Qed.
Lemma Reqb_false x y : Reqb x y = false <-> x <> y.
Proof. unfold Reqb. destruct (Req_EM_T x y); split; auto; try discriminate; congruence. Qed.

Lemma Rltb_spec x y : BoolSpec (x < y) (y <= x) (Rltb x y).
Proof. unfold Rltb. destruct (Rlt_dec x y); constructor; lra. Qed.
Lemma Rleb_spec x y : BoolSpec (x <= y) (y < x) (Rleb x y).
Proof. unfold Rleb. destruct (Rle_dec x y); constructor; lra. Qed.
Lemma Reqb_spec x y : BoolSpec (x = y) (x <> y) (Reqb x y).
Proof. unfold Reqb. destruct (Req_EM_T x y); constructor; auto. Qed.

(** floor() as an integer. *)
Definition Zfloor (x : R) : Z := (up x - 1)%Z.
Lemma Zfloor_bounds x : IZR (Zfloor x) <= x < IZR (Zfloor x) + 1.
Proof. unfold Zfloor. rewrite minus_IZR. destruct (archimed x). lra. Qed.
Lemma Zfloor_unique x n : IZR n <= x < IZR n + 1 -> Zfloor x = n.
Proof.
  intros [H1 H2]. destruct (Zfloor_bounds x) as [H3 H4].
  assert (IZR (Zfloor x) < IZR (n + 1)) by (rewrite plus_IZR; lra).
  assert (IZR n < IZR (Zfloor x + 1)) by (rewrite plus_IZR; lra).
  apply lt_IZR in H. apply lt_IZR in H0. lia.
Qed.
Lemma Zfloor_IZR n : Zfloor (IZR n) = n.
Proof. apply Zfloor_unique. lra. Qed.
Lemma Zfloor_le x y : x <= y -> (Zfloor x <= Zfloor y)%Z.
Proof.
  intros H. destruct (Zfloor_bounds x), (Zfloor_bounds y).
  assert (IZR (Zfloor x) < IZR (Zfloor y + 1)) by (rewrite plus_IZR; lra).
  apply lt_IZR in H4. lia.
Qed.

(** ceil() as an integer. *)
Definition Zceil (x : R) : Z := (- Zfloor (- x))%Z.
Lemma Zceil_bounds x : IZR (Zceil x) - 1 < x <= IZR (Zceil x).
Proof. unfold Zceil. rewrite opp_IZR. destruct (Zfloor_bounds (- x)). lra. Qed.

(** Sums. *)
Definition rsum (n : Z) (f : Z -> R) : R := fsum 0 Rplus n f.

Lemma rsum_0 n f : (n <= 0)%Z -> rsum n f = 0.
Proof. apply fsum_0. Qed.
Lemma rsum_S n f : (0 <= n)%Z -> rsum (n + 1) f = rsum n f + f n.
Proof. apply fsum_S. Qed.
Lemma rsum_ext n f g : (forall i, (0 <= i < n)%Z -> f i = g i) -> rsum n f = rsum n g.
Proof. apply fsum_ext. Qed.

Lemma rsum_ind (P : Z -> Prop) : P 0%Z -> (forall n, (0 <= n)%Z -> P n -> P (n + 1)%Z) ->
  forall n, (0 <= n)%Z -> P n.
Proof. intros H0 HS n Hn. apply natlike_ind; auto. Qed.

Ltac sum_ind n := pattern n; apply rsum_ind; [ | | try lia].

Lemma rsum_neg (n : Z) (f : Z -> R) : (n <= 0)%Z \/ (0 <= n)%Z.
Proof. lia. Qed.

Lemma rsum_scal n c f : rsum n (fun i => c * f i) = c * rsum n f.
Proof.
  destruct (rsum_neg n f) as [H|H]; [rewrite !rsum_0 by auto; lra|].
  sum_ind n; [rewrite !rsum_0 by lia; lra|].
  intros k Hk IH. rewrite !rsum_S, IH by lia. lra.
Qed.
Lemma rsum_plus n f g : rsum n (fun i => f i + g i) = rsum n f + rsum n g.
Proof.
  destruct (rsum_neg n f) as [H|H]; [rewrite !rsum_0 by auto; lra|].
  sum_ind n; [rewrite !rsum_0 by lia; lra|].
  intros k Hk IH. rewrite !rsum_S, IH by lia. lra.
Qed.
Lemma rsum_minus n f g : rsum n (fun i => f i - g i) = rsum n f - rsum n g.
Proof.
  destruct (rsum_neg n f) as [H|H]; [rewrite !rsum_0 by auto; lra|].
  sum_ind n; [rewrite !rsum_0 by lia; lra|].
  intros k Hk IH. rewrite !rsum_S, IH by lia. lra.
Qed.
Lemma rsum_const n c : (0 <= n)%Z -> rsum n (fun _ => c) = IZR n * c.
Proof.
  intros H. sum_ind n; [rewrite rsum_0 by lia; lra|].
  intros k Hk IH. rewrite rsum_S, IH by lia. rewrite plus_IZR. lra.
Qed.
Lemma rsum_zero n f : (forall i, (0 <= i < n)%Z -> f i = 0) -> rsum n f = 0.
Proof.
  intros H. rewrite (rsum_ext n f (fun _ => 0)) by auto.
  destruct (rsum_neg n f) as [Hn|Hn]; [now apply rsum_0|]. rewrite rsum_const by auto. lra.
Qed.
Lemma rsum_le n f g : (forall i, (0 <= i < n)%Z -> f i <= g i) -> rsum n f <= rsum n g.
Proof.
  destruct (rsum_neg n f) as [Hn|Hn]; [intros _; rewrite !rsum_0 by auto; lra|].
  sum_ind n; [intros _; rewrite !rsum_0 by lia; lra|].
  intros k Hk IH H. rewrite !rsum_S by lia. pose proof (H k ltac:(lia)).
  specialize (IH ltac:(intros; apply H; lia)). lra.
Qed.
Lemma rsum_nonneg n f : (forall i, (0 <= i < n)%Z -> 0 <= f i) -> 0 <= rsum n f.
Proof. intros H. rewrite <- (rsum_zero n (fun _ => 0)) by auto. apply rsum_le; auto. Qed.
Lemma rsum_abs n f : Rabs (rsum n f) <= rsum n (fun i => Rabs (f i)).
Proof.
  destruct (rsum_neg n f) as [Hn|Hn]; [rewrite !rsum_0 by auto; rewrite Rabs_R0; lra|].
  sum_ind n; [rewrite !rsum_0 by lia; rewrite Rabs_R0; lra|].
  intros k Hk IH. rewrite !rsum_S by lia. pose proof (Rabs_triang (rsum k f) (f k)). lra.
Qed.
(** One nonnegative term is at most the sum. *)
Lemma rsum_term n f j : (forall i, (0 <= i < n)%Z -> 0 <= f i) -> (0 <= j < n)%Z -> f j <= rsum n f.
Proof.
  intros H Hj. assert (G : forall m, (0 <= m)%Z -> (m <= n)%Z -> (j < m)%Z -> f j <= rsum m f).
  { intros m Hm. sum_ind m; [lia|].
    intros k Hk IH Hkn Hjk. rewrite rsum_S by lia. pose proof (H k ltac:(lia)).
    destruct (Z.eq_dec j k) as [->|].
    - pose proof (rsum_nonneg k f ltac:(intros; apply H; lia)). lra.
    - specialize (IH ltac:(lia) ltac:(lia)). lra. }
  apply G; lia.
Qed.
Lemma rsum_first n f : (0 < n)%Z -> rsum n f = f 0%Z + rsum (n - 1) (fun i => f (i + 1)%Z).
Proof.
  intros H. assert (G : forall m, (0 <= m)%Z -> rsum (m + 1) f = f 0%Z + rsum m (fun i => f (i + 1)%Z)).
  { intros m Hm. sum_ind m; [rewrite rsum_S by lia; rewrite !rsum_0 by lia; lra|].
    intros k Hk IH. rewrite rsum_S by lia. rewrite IH. rewrite rsum_S by lia. lra. }
  replace n with (n - 1 + 1)%Z at 1 by lia. apply G. lia.
Qed.
(** Exchange of summations. *)
Lemma rsum_swap n m f : rsum n (fun i => rsum m (fun j => f i j)) = rsum m (fun j => rsum n (fun i => f i j)).
Proof.
  destruct (rsum_neg n (fun _ => 0%R)) as [Hn|Hn].
  - rewrite rsum_0 by auto. symmetry. apply rsum_zero. intros. now apply rsum_0.
  - sum_ind n; [rewrite rsum_0 by lia; symmetry; apply rsum_zero; intros; now apply rsum_0|].
    intros k Hk IH. rewrite rsum_S, IH by lia. rewrite <- rsum_plus.
    apply rsum_ext. intros j Hj. now rewrite rsum_S by lia.
Qed.
