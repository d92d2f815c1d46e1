(** Complex numbers as pairs of reals, complex sums, and roots of unity. *)
From Coq Require Import Reals ZArith Lia Lra Ring List.
From Verif.Base Require Import Imp Sums RealOps Loops.
Open Scope R_scope.

Definition cplx : Type := (R * R)%type.
Definition c0 : cplx := (0, 0).
Definition c1 : cplx := (1, 0).
Definition cadd (x y : cplx) : cplx := (fst x + fst y, snd x + snd y).
Definition csub (x y : cplx) : cplx := (fst x - fst y, snd x - snd y).
Definition copp (x : cplx) : cplx := (- fst x, - snd x).
Definition cmul (x y : cplx) : cplx := (fst x * fst y - snd x * snd y, fst x * snd y + snd x * fst y).
Definition cconj (x : cplx) : cplx := (fst x, - snd x).
Definition cre (a : R) : cplx := (a, 0).

Lemma cplx_eq (x y : cplx) : fst x = fst y -> snd x = snd y -> x = y.
Proof. destruct x, y; simpl; congruence. Qed.

Lemma cplx_ring : ring_theory c0 c1 cadd cmul csub copp eq.
Proof. constructor; intros; apply cplx_eq; simpl; ring. Qed.
Add Ring cplx_ring : cplx_ring.

Lemma cmul_zero a b : cmul a b = c0 -> a <> c0 -> b = c0.
Proof.
  intros H N.
  assert (E : cmul (cconj a) (cmul a b) = cmul (cre (fst a * fst a + snd a * snd a)) b).
  { apply cplx_eq; simpl; ring. }
  rewrite H in E.
  assert (P : fst a * fst a + snd a * snd a <> 0).
  { intros P. apply N. apply cplx_eq; simpl; nra. }
  set (q := fst a * fst a + snd a * snd a) in *.
  apply (f_equal fst) in E as E1. apply (f_equal snd) in E as E2. simpl in E1, E2.
  apply cplx_eq; simpl.
  - apply Rmult_eq_reg_l with q; auto. lra.
  - apply Rmult_eq_reg_l with q; auto. lra.
Qed.

Lemma cconj_mul a b : cconj (cmul a b) = cmul (cconj a) (cconj b).
Proof. apply cplx_eq; simpl; ring. Qed.
Lemma cconj_add a b : cconj (cadd a b) = cadd (cconj a) (cconj b).
Proof. apply cplx_eq; simpl; ring. Qed.
Lemma cconj_invol a : cconj (cconj a) = a.
Proof. apply cplx_eq; simpl; ring. Qed.

(** *** Sums *)
Definition csum (n : Z) (f : Z -> cplx) : cplx := (rsum n (fun i => fst (f i)), rsum n (fun i => snd (f i))).

Lemma csum_0 n f : (n <= 0)%Z -> csum n f = c0.
Proof. intros. unfold csum. now rewrite !rsum_0. Qed.
Lemma csum_S n f : (0 <= n)%Z -> csum (n + 1) f = cadd (csum n f) (f n).
Proof. intros. unfold csum, cadd. now rewrite !rsum_S. Qed.
Lemma csum_ext n f g : (forall i, (0 <= i < n)%Z -> f i = g i) -> csum n f = csum n g.
Proof. intros H. unfold csum. f_equal; apply rsum_ext; intros; now rewrite H. Qed.

Lemma csum_ind (P : Z -> Prop) n : (0 <= n)%Z -> P 0%Z -> (forall k, (0 <= k < n)%Z -> P k -> P (k + 1)%Z) -> P n.
Proof.
  intros Hn H0 HS.
  assert (G : forall k, (0 <= k)%Z -> (k <= n)%Z -> P k).
  { apply (natlike_ind (fun k => (k <= n)%Z -> P k)); [auto|]. intros k Hk IH Hl.
    replace (Z.succ k) with (k + 1)%Z by lia. apply HS; [lia|]. apply IH; lia. }
  apply G; lia.
Qed.

Lemma csum_scal n c f : csum n (fun i => cmul c (f i)) = cmul c (csum n f).
Proof.
  destruct (Z.le_gt_cases n 0). { rewrite !csum_0 by lia. ring. }
  apply (csum_ind (fun n => csum n (fun i => cmul c (f i)) = cmul c (csum n f))); [lia| |].
  - rewrite !csum_0 by lia. ring.
  - intros k Hk IH. rewrite !csum_S, IH by lia. ring.
Qed.
Lemma csum_scal_r n c f : csum n (fun i => cmul (f i) c) = cmul (csum n f) c.
Proof.
  rewrite (csum_ext n (fun i => cmul (f i) c) (fun i => cmul c (f i))) by (intros; ring).
  rewrite csum_scal. ring.
Qed.
Lemma csum_plus n f g : csum n (fun i => cadd (f i) (g i)) = cadd (csum n f) (csum n g).
Proof.
  destruct (Z.le_gt_cases n 0). { rewrite !csum_0 by lia. ring. }
  apply (csum_ind (fun n => csum n (fun i => cadd (f i) (g i)) = cadd (csum n f) (csum n g))); [lia| |].
  - rewrite !csum_0 by lia. ring.
  - intros k Hk IH. rewrite !csum_S, IH by lia. ring.
Qed.
Lemma csum_minus n f g : csum n (fun i => csub (f i) (g i)) = csub (csum n f) (csum n g).
Proof.
  destruct (Z.le_gt_cases n 0). { rewrite !csum_0 by lia. ring. }
  apply (csum_ind (fun n => csum n (fun i => csub (f i) (g i)) = csub (csum n f) (csum n g))); [lia| |].
  - rewrite !csum_0 by lia. ring.
  - intros k Hk IH. rewrite !csum_S, IH by lia. ring.
Qed.
Lemma csum_conj n f : csum n (fun i => cconj (f i)) = cconj (csum n f).
Proof.
  destruct (Z.le_gt_cases n 0). { rewrite !csum_0 by lia. apply cplx_eq; simpl; ring. }
  apply (csum_ind (fun n => csum n (fun i => cconj (f i)) = cconj (csum n f))); [lia| |].
  - rewrite !csum_0 by lia. apply cplx_eq; simpl; ring.
  - intros k Hk IH. rewrite !csum_S, IH, cconj_add by lia. ring.
Qed.
Lemma csum_zero n : csum n (fun _ => c0) = c0.
Proof.
  rewrite (csum_ext n (fun _ => c0) (fun _ => cmul c0 c0)) by (intros; ring).
  rewrite csum_scal. ring.
Qed.
Lemma csum_split n m f : (0 <= n)%Z -> (0 <= m)%Z ->
  csum (n + m) f = cadd (csum n f) (csum m (fun i => f (n + i)%Z)).
Proof. intros. unfold csum, cadd. now rewrite !rsum_split by lia. Qed.
Lemma csum_first n f : (0 < n)%Z -> csum n f = cadd (f 0%Z) (csum (n - 1) (fun i => f (i + 1)%Z)).
Proof.
  intros. replace n with (1 + (n - 1))%Z at 1 by lia. rewrite csum_split by lia.
  change 1%Z with (0 + 1)%Z at 1. rewrite csum_S, csum_0 by lia.
  rewrite (csum_ext (n - 1) (fun i => f (1 + i)%Z) (fun i => f (i + 1)%Z)); [ring|]. intros; f_equal; lia.
Qed.
Lemma csum_swap n m (f : Z -> Z -> cplx) :
  csum n (fun i => csum m (fun j => f i j)) = csum m (fun j => csum n (fun i => f i j)).
Proof. unfold csum; simpl. f_equal; apply rsum_swap. Qed.

(** Decimation: an index below [p * m] is [j * p + q]. *)
Lemma csum_decim p m f : (0 <= p)%Z -> (0 <= m)%Z ->
  csum (p * m) f = csum p (fun q => csum m (fun j => f (j * p + q)%Z)).
Proof.
  intros Hp Hm.
  apply (csum_ind (fun m => csum (p * m) f = csum p (fun q => csum m (fun j => f (j * p + q)%Z)))); [lia| |].
  - rewrite Z.mul_0_r, csum_0 by lia.
    rewrite (csum_ext p (fun q => csum 0 (fun j => f (j * p + q)%Z)) (fun _ => c0)), csum_zero; auto.
  - intros k Hk IH. rewrite Z.mul_add_distr_l, Z.mul_1_r, csum_split, IH by nia.
    rewrite <- csum_plus. apply csum_ext. intros q Hq. rewrite csum_S by lia. do 2 f_equal. lia.
Qed.

(** Only one term is not zero. *)
Lemma csum_single n f j : (0 <= j < n)%Z -> (forall i, (0 <= i < n)%Z -> i <> j -> f i = c0) -> csum n f = f j.
Proof.
  intros Hj H. replace n with (j + (1 + (n - j - 1)))%Z by lia.
  rewrite csum_split, csum_split by lia.
  rewrite (csum_ext j f (fun _ => c0)) by (intros; apply H; lia). rewrite csum_zero.
  change 1%Z with (0 + 1)%Z at 1. rewrite csum_S, csum_0 by lia.
  rewrite (csum_ext (n - j - 1) _ (fun _ => c0)) by (intros; apply H; lia). rewrite csum_zero.
  replace (j + 0)%Z with j by lia. ring.
Qed.

(** *** The unit circle *)
Definition cis (t : R) : cplx := (cos t, sin t).
Lemma cis_add a b : cis (a + b) = cmul (cis a) (cis b).
Proof. apply cplx_eq; simpl; [rewrite cos_plus | rewrite sin_plus]; ring. Qed.
Lemma cis_0 : cis 0 = c1.
Proof. unfold cis. now rewrite cos_0, sin_0. Qed.
Lemma cis_opp a : cis (- a) = cconj (cis a).
Proof. unfold cis, cconj. simpl. now rewrite cos_neg, sin_neg. Qed.
Lemma cis_norm a : cmul (cis a) (cconj (cis a)) = c1.
Proof. rewrite <- cis_opp, <- cis_add. replace (a + - a) with 0 by ring. apply cis_0. Qed.

Lemma cis_2pi (k : Z) : cis (2 * PI * IZR k) = c1.
Proof.
  assert (G : forall n : nat, cis (2 * PI * INR n) = c1).
  { intros n. unfold cis, c1.
    replace (2 * PI * INR n) with (0 + 2 * INR n * PI) by ring.
    now rewrite cos_period, sin_period, cos_0, sin_0. }
  destruct (Z.le_gt_cases 0 k).
  - rewrite <- (Z2Nat.id k), <- INR_IZR_INZ by lia. apply G.
  - replace (2 * PI * IZR k) with (- (2 * PI * IZR (- k))) by (rewrite opp_IZR; ring).
    rewrite cis_opp, <- (Z2Nat.id (- k)), <- INR_IZR_INZ by lia. rewrite G. apply cplx_eq; simpl; ring.
Qed.

(** [root n k] is exp(2 pi i k / n). *)
Definition root (n k : Z) : cplx := cis (2 * PI * IZR k / IZR n).

Lemma root_0 n : root n 0 = c1.
Proof. unfold root. replace (2 * PI * 0 / IZR n) with 0 by (unfold Rdiv; ring). apply cis_0. Qed.
Lemma root_add n a b : root n (a + b) = cmul (root n a) (root n b).
Proof. unfold root. rewrite <- cis_add. f_equal. rewrite plus_IZR. unfold Rdiv. ring. Qed.
Lemma root_opp n a : root n (- a) = cconj (root n a).
Proof. unfold root. rewrite <- cis_opp. f_equal. rewrite opp_IZR. unfold Rdiv. ring. Qed.
Lemma root_norm n a : cmul (root n a) (cconj (root n a)) = c1.
Proof. apply cis_norm. Qed.
Lemma root_full n k : n <> 0%Z -> root n (n * k) = c1.
Proof.
  intros H. unfold root. rewrite mult_IZR.
  replace (2 * PI * (IZR n * IZR k) / IZR n) with (2 * PI * IZR k).
  - apply cis_2pi.
  - field. now apply not_0_IZR.
Qed.
Lemma root_period n a k : n <> 0%Z -> root n (a + n * k) = root n a.
Proof. intros. rewrite root_add, root_full by auto. ring. Qed.
Lemma root_mod n a : n <> 0%Z -> root n (a mod n) = root n a.
Proof. intros. rewrite (Z.div_mod a n) at 2 by auto. now rewrite Z.add_comm, root_period. Qed.
Lemma root_scale n k c : n <> 0%Z -> c <> 0%Z -> root (n * c) (k * c) = root n k.
Proof.
  intros. unfold root. f_equal. rewrite !mult_IZR. field. split; now apply not_0_IZR.
Qed.

Lemma root_neq_1 n d : (0 < n)%Z -> (d mod n <> 0)%Z -> root n d <> c1.
Proof.
  intros Hn Hd H. rewrite <- root_mod in H by lia.
  pose proof (Z.mod_pos_bound d n Hn) as B. set (r := (d mod n)%Z) in *.
  apply (f_equal fst) in H. unfold root in H. simpl in H.
  set (t := 2 * PI * IZR r / IZR n) in *.
  assert (Pn : 0 < IZR n) by now apply IZR_lt.
  assert (Pr : 0 < IZR r) by (apply IZR_lt; lia).
  assert (Hr : IZR r < IZR n) by (apply IZR_lt; lia).
  pose proof PI_RGT_0.
  assert (E : t / 2 = PI * (IZR r / IZR n)) by (unfold t; field; lra).
  assert (Q : 0 < IZR r / IZR n < 1).
  { split; [now apply Rdiv_lt_0_compat|]. apply Rmult_lt_reg_r with (IZR n); auto.
    unfold Rdiv. rewrite Rmult_assoc, Rinv_l by lra. lra. }
  assert (0 < sin (t / 2)) by (apply sin_gt_0; rewrite E; nra).
  replace t with (2 * (t / 2)) in H by field. rewrite cos_2a_sin in H. nra.
Qed.


Lemma root_sum_0 n d : (0 < n)%Z -> (d mod n <> 0)%Z -> csum n (fun k => root n (k * d)) = c0.
Proof.
  intros Hn Hd.
  apply cmul_zero with (a := csub c1 (root n d)).
  - assert (G : cmul (csub c1 (root n d)) (csum n (fun k => root n (k * d))) = csub c1 (root n (n * d))).
    { apply (csum_ind (fun m => cmul (csub c1 (root n d)) (csum m (fun k => root n (k * d))) = csub c1 (root n (m * d)))); [lia| |].
      - rewrite csum_0, Z.mul_0_l, root_0 by lia. ring.
      - intros k Hk IH. rewrite csum_S by lia.
        replace ((k + 1) * d)%Z with (k * d + d)%Z by lia. rewrite root_add.
        transitivity (cadd (cmul (csub c1 (root n d)) (csum k (fun i => root n (i * d))))
          (cmul (csub c1 (root n d)) (root n (k * d)))); [ring|]. rewrite IH. ring. }
    rewrite G, root_full by lia. ring.
  - intros E. apply (root_neq_1 n d Hn Hd).
    transitivity (csub c1 (csub c1 (root n d))); [ring|]. rewrite E. ring.
Qed.

Lemma csum_const n c : (0 <= n)%Z -> csum n (fun _ => c) = cmul (cre (IZR n)) c.
Proof.
  intros Hn. apply (csum_ind (fun n => csum n (fun _ => c) = cmul (cre (IZR n)) c)); [lia| |].
  - rewrite csum_0 by lia. apply cplx_eq; simpl; ring.
  - intros k Hk IH. rewrite csum_S, IH, plus_IZR by lia. apply cplx_eq; simpl; ring.
Qed.

Lemma root_sum n d : (0 < n)%Z ->
  csum n (fun k => root n (k * d)) = if (d mod n =? 0)%Z then cre (IZR n) else c0.
Proof.
  intros Hn. destruct (Z.eqb_spec (d mod n) 0) as [H|H].
  - rewrite (csum_ext n _ (fun _ => c1)).
    + rewrite csum_const by lia. ring.
    + intros i Hi. apply Z.mod_divide in H; [|lia]. destruct H as (e & ->).
      replace (i * (e * n))%Z with (n * (i * e))%Z by lia. apply root_full. lia.
  - now apply root_sum_0.
Qed.

Lemma csum_rev n f : csum n (fun i => f (n - 1 - i)%Z) = csum n f.
Proof. unfold csum. f_equal; [apply (rsum_rev n (fun i => fst (f i))) | apply (rsum_rev n (fun i => snd (f i)))]. Qed.

(** Over a whole period the sum of f(n - k) is that of f(k) when f(n) = f(0). *)
Lemma csum_neg n f : (0 < n)%Z -> f n = f 0%Z -> csum n (fun k => f (n - k)%Z) = csum n f.
Proof.
  intros Hn H. rewrite (csum_first n f), (csum_first n (fun k => f (n - k)%Z)) by lia.
  replace (n - 0)%Z with n by lia. rewrite H. f_equal.
  rewrite <- (csum_rev (n - 1) (fun i => f (i + 1)%Z)). apply csum_ext. intros i Hi. f_equal. lia.
Qed.

Lemma root_half n m : (n = 2 * m)%Z -> m <> 0%Z -> root n m = copp c1.
Proof.
  intros -> Hm. unfold root. rewrite mult_IZR.
  replace (2 * PI * IZR m / (2 * IZR m)) with PI by (field; now apply not_0_IZR).
  unfold cis, copp, c1. rewrite cos_PI, sin_PI. cbn. f_equal; ring.
Qed.
