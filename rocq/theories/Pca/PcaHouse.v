(** Householder reflections and orthonormal matrices. *)
From Coq Require Import List ZArith Reals Lia Lra Bool Psatz.
From Verif.Base Require Import Imp Sums RealOps Loops.
From Verif.Pca Require Import PcaSpec PcaMath.
Open Scope R_scope.

Definition mul (m : Z) (x y : Z -> Z -> R) (k a : Z) : R := rsum m (fun j => x k j * y j a).

Lemma mul_assoc m n (x y z : Z -> Z -> R) k a : rsum n (fun j => rsum m (fun i => x k i * y i j) * z j a) = rsum m (fun i => x k i * rsum n (fun j => y i j * z j a)).
Proof.
  rewrite (rsum_ext n _ (fun j => rsum m (fun i => x k i * y i j * z j a))) by (intros; now rewrite rsum_scal_r).
  rewrite rsum_swap. apply rsum_ext. intros i Hi. rewrite <- rsum_scal. apply rsum_ext. intros; ring.
Qed.

(** A linear combination of orthonormal vectors z j . *)
Lemma ortho_comb m n (z : Z -> Z -> R) (x y : Z -> R) :
  (forall k j, (0 <= k < m)%Z -> (0 <= j < m)%Z -> rsum n (fun a => z k a * z j a) = delta k j) ->
  rsum n (fun a => rsum m (fun j => x j * z j a) * rsum m (fun j => y j * z j a)) = rsum m (fun j => x j * y j).
Proof.
  intros O.
  rewrite (rsum_ext n _ (fun a => rsum m (fun j => x j * (z j a * rsum m (fun i => y i * z i a))))).
  2:{ intros a Ha. rewrite <- rsum_scal_r. apply rsum_ext. intros; ring. }
  rewrite rsum_swap. apply rsum_ext. intros j Hj. rewrite rsum_scal. f_equal.
  rewrite (rsum_ext n _ (fun a => rsum m (fun i => y i * (z j a * z i a)))).
  2:{ intros a Ha. rewrite <- rsum_scal. apply rsum_ext. intros; ring. }
  rewrite rsum_swap. rewrite (rsum_ext m _ (fun i => delta j i * y i)).
  2:{ intros i Hi. rewrite rsum_scal, O by auto. ring. }
  now rewrite rsum_delta' by auto.
Qed.

Lemma ortho_mul m z w : orthonormal m z -> orthonormal m w -> orthonormal m (mul m z w).
Proof.
  intros (Zc & Zr) (Wc & Wr). split.
  - intros a b Ha Hb. unfold mul.
    rewrite (rsum_ext m _ (fun k => rsum m (fun j => w j a * z k j) * rsum m (fun j => w j b * z k j)))
      by (intros; f_equal; apply rsum_ext; intros; ring).
    rewrite (ortho_comb m m (fun j k => z k j) (fun j => w j a) (fun j => w j b)) by auto. auto.
  - intros k j Hk Hj. unfold mul. rewrite (ortho_comb m m w (z k) (z j)) by auto. auto.
Qed.

(** Multiplying by an orthonormal matrix keeps the Frobenius norm. *)
Lemma frob2_mul m A z : orthonormal m z -> frob2 m m (mul m A z) = frob2 m m A.
Proof. intros (_ & Zr). unfold frob2. apply rsum_ext. intros k Hk. unfold mul. apply (ortho_comb m m z (A k) (A k)). auto. Qed.

Definition border (i : Z) (z : Z -> Z -> R) (x y : Z) : R := if ((x =? i) || (y =? i))%Z then delta x y else z x y.
Lemma border_in i z x y : x <> i -> y <> i -> border i z x y = z x y.
Proof. intros Nx Ny. unfold border. apply Z.eqb_neq in Nx, Ny. now rewrite Nx, Ny. Qed.
Lemma border_r i z x : border i z x i = delta x i.
Proof. unfold border. rewrite Z.eqb_refl. now rewrite orb_true_r. Qed.
Lemma border_l i z y : border i z i y = delta i y.
Proof. unfold border. now rewrite Z.eqb_refl. Qed.
Lemma ortho_border i z : (0 <= i)%Z -> orthonormal i z -> orthonormal (i + 1) (border i z).
Proof.
  intros Hi (Zc & Zr). split.
  - intros a b Ha Hb. rewrite rsum_S by lia. rewrite !border_l.
    destruct (Z.eq_dec a i) as [->|Na]; destruct (Z.eq_dec b i) as [->|Nb].
    + rewrite rsum_zero by (intros k Hk; rewrite border_r, delta_ne by lia; ring). rewrite delta_eq. ring.
    + rewrite rsum_zero by (intros k Hk; rewrite border_r, delta_ne by lia; ring). rewrite delta_eq. ring.
    + rewrite rsum_zero by (intros k Hk; rewrite (border_r i z k), (delta_ne k) by lia; ring). rewrite delta_eq, (delta_sym i a). ring.
    + rewrite (rsum_ext i _ (fun k => z k a * z k b)) by (intros k Hk; now rewrite !border_in by lia).
      rewrite Zc, (delta_ne i) by lia. ring.
  - intros k j Hk Hj. rewrite rsum_S by lia. rewrite !border_r.
    destruct (Z.eq_dec k i) as [->|Na]; destruct (Z.eq_dec j i) as [->|Nb].
    + rewrite rsum_zero by (intros a Ha; rewrite border_l, delta_ne by lia; ring). rewrite delta_eq. ring.
    + rewrite rsum_zero by (intros a Ha; rewrite border_l, delta_ne by lia; ring). rewrite delta_eq, (delta_sym i j). ring.
    + rewrite rsum_zero by (intros a Ha; rewrite (border_l i z a), (delta_ne i) by lia; ring). rewrite delta_eq. ring.
    + rewrite (rsum_ext i _ (fun a => z k a * z j a)) by (intros a Ha; now rewrite !border_in by lia).
      rewrite Zr, (delta_ne k i) by lia. ring.
Qed.

(** I - u u^T / h, the identity if h = 0. *)
Definition refl (u : Z -> R) (h : R) (k j : Z) : R := delta k j - (if Reqb h 0 then 0 else u k * u j / h).

Lemma refl_sym u h k j : refl u h k j = refl u h j k.
Proof. unfold refl. rewrite delta_sym. destruct (Reqb h 0); [ring|]. unfold Rdiv. ring. Qed.
Lemma refl_0 u k j : refl u 0 k j = delta k j.
Proof. unfold refl. rewrite (proj2 (Reqb_true 0 0) eq_refl). ring. Qed.
Lemma refl_ne u h k j : h <> 0 -> refl u h k j = delta k j - u k * u j / h.
Proof. intros N. unfold refl. now rewrite (proj2 (Reqb_false h 0) N). Qed.

Lemma refl_dot m u h x k : (0 <= k < m)%Z -> h <> 0 -> rsum m (fun j => refl u h k j * x j) = x k - u k / h * rsum m (fun j => u j * x j).
Proof.
  intros Hk N. rewrite <- rsum_scal. rewrite <- (rsum_delta' m k x Hk), <- rsum_minus. apply rsum_ext. intros j Hj.
  rewrite refl_ne by auto. field. auto.
Qed.
Lemma refl_dot_0 m u x k : (0 <= k < m)%Z -> rsum m (fun j => refl u 0 k j * x j) = x k.
Proof. intros Hk. rewrite <- (rsum_delta' m k x Hk). apply rsum_ext. intros. now rewrite refl_0. Qed.

Lemma refl_ortho m u h : (h <> 0 -> rsum m (fun j => u j * u j) = 2 * h) -> orthonormal m (refl u h).
Proof.
  intros H. assert (E : forall k j, (0 <= k < m)%Z -> (0 <= j < m)%Z -> rsum m (fun a => refl u h k a * refl u h j a) = delta k j).
  { intros k j Hk Hj. destruct (Req_dec h 0) as [->|N].
    - rewrite refl_dot_0 by auto. rewrite refl_0. apply delta_sym.
    - rewrite refl_dot by auto. specialize (H N).
      rewrite (rsum_ext m (fun a => u a * refl u h j a) (fun a => refl u h j a * u a)) by (intros; ring).
      rewrite refl_dot, H by auto. rewrite refl_ne by auto. rewrite delta_sym. field. auto. }
  split; auto. intros a b Ha Hb. rewrite <- E by auto. apply rsum_ext. intros. now rewrite (refl_sym u h _ a), (refl_sym u h _ b).
Qed.

(** One step of the reduction: B P = P B'. *)
Lemma house_similar m B u h p q K B' : h <> 0 ->
  (forall k j, (0 <= k < m)%Z -> (0 <= j < m)%Z -> B k j = B j k) ->
  rsum m (fun j => u j * u j) = 2 * h ->
  (forall k, (0 <= k < m)%Z -> p k = rsum m (fun j => B k j * u j) / h) ->
  K = rsum m (fun j => p j * u j) / (2 * h) ->
  (forall k, (0 <= k < m)%Z -> q k = p k - K * u k) ->
  (forall k j, (0 <= k < m)%Z -> (0 <= j < m)%Z -> B' k j = B k j - (u k * q j + q k * u j)) ->
  forall k j, (0 <= k < m)%Z -> (0 <= j < m)%Z ->
  rsum m (fun x => B k x * refl u h x j) = rsum m (fun x => refl u h k x * B' x j).
Proof.
  intros N S U P HK Q E k j Hk Hj.
  rewrite (rsum_ext m (fun x => B k x * refl u h x j) (fun x => refl u h j x * B k x)) by (intros; rewrite (refl_sym u h _ j); ring).
  rewrite !refl_dot by auto.
  assert (Pk : rsum m (fun x => u x * B k x) = h * p k).
  { rewrite P by auto. rewrite (rsum_ext m _ (fun x => B k x * u x)) by (intros; ring). field. auto. }
  assert (Pj : rsum m (fun x => u x * B x j) = h * p j).
  { rewrite P by auto. rewrite (rsum_ext m _ (fun x => B j x * u x)) by (intros; rewrite (S j) by auto; ring). field. auto. }
  assert (Uq : rsum m (fun x => u x * q x) = 0).
  { rewrite (rsum_ext m _ (fun x => p x * u x - K * (u x * u x))) by (intros; rewrite Q by auto; ring).
    rewrite rsum_minus, rsum_scal, U, HK. field. auto. }
  assert (UB : rsum m (fun x => u x * B' x j) = h * p j - 2 * h * q j).
  { rewrite (rsum_ext m _ (fun x => u x * B x j - (q j * (u x * u x) + u j * (u x * q x)))) by (intros; rewrite E by auto; ring).
    rewrite rsum_minus, rsum_plus, !rsum_scal, U, Uq, Pj. ring. }
  rewrite Pk, UB, E, !Q by auto. field. auto.
Qed.

(** The reflection maps b to g e_l. *)
Lemma house_vector m b u scale g h0 h : (0 < m)%Z -> scale <> 0 ->
  h0 = rsum m (fun k => b k / scale * (b k / scale)) -> 0 < h0 -> g * g = h0 -> b (m - 1)%Z / scale * g <= 0 ->
  h = h0 - b (m - 1)%Z / scale * g ->
  (forall k, (0 <= k < m)%Z -> u k = b k / scale - g * delta k (m - 1)) ->
  0 < h /\ rsum m (fun j => u j * u j) = 2 * h /\
  forall k, (0 <= k < m)%Z -> b k = scale * g * refl u h k (m - 1).
Proof.
  intros Hm Ns H0 Hp G2 Sg Hh U. assert (Hp' : 0 < h) by lra. split; [auto|].
  set (f := b (m - 1)%Z / scale) in *.
  assert (UU : rsum m (fun j => u j * u j) = 2 * h).
  { rewrite (rsum_ext m _ (fun k => b k / scale * (b k / scale) + delta k (m - 1) * (g * g * delta k (m - 1) - 2 * g * (b k / scale))))
      by (intros; rewrite U by auto; ring).
    rewrite rsum_plus, <- H0, (rsum_delta m (m - 1)) by lia. rewrite delta_eq. fold f. rewrite G2. lra. }
  split; [auto|]. intros k Hk. rewrite refl_ne by lra.
  assert (Ul : u (m - 1)%Z = f - g) by (rewrite U, delta_eq by lia; unfold f; ring).
  assert (Uk : b k / scale = u k + g * delta k (m - 1)) by (rewrite U by auto; ring).
  replace (b k) with (scale * (b k / scale)) by (field; auto). rewrite Uk, Ul.
  assert (Gh : g * (f - g) = - h) by lra.
  transitivity (scale * (g * delta k (m - 1) - u k * (g * (f - g)) / h)); [rewrite Gh; field; lra|field; lra].
Qed.
