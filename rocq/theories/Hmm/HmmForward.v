(** forward_backwards computes the posterior probabilities. *)
From Coq Require Import List ZArith Reals Lia Lra Bool.
From Verif.Base Require Import Imp RealOps Sums Loops Matrix.
From Verif.Hmm Require Import HmmModel HmmSpec.
Import ListNotations.
Open Scope Z_scope.

(** *** Sums over sequences *)
Lemma psum_ext N n f g : (forall q, f q = g q) -> psum N n f = psum N n g.
Proof.
  revert f g. induction n as [|n IH]; intros f g H; cbn [psum]; [apply H|].
  apply rsum_ext. intros i Hi. apply IH. intros q. apply H.
Qed.
(** Only sequences of the right length with states in range matter. *)
Lemma psum_ext_in N n f g : (forall q, zlen q = Z.of_nat n -> Forall (fun i => 0 <= i < N) q -> f q = g q) ->
  psum N n f = psum N n g.
Proof.
  revert f g. induction n as [|n IH]; intros f g H; cbn [psum]; [apply H; [reflexivity|constructor]|].
  apply rsum_ext. intros i Hi. apply IH. intros q Lq Fq. apply H; [zl; lia|]. constructor; auto.
Qed.
Lemma psum_scal N n c f : psum N n (fun q => c * f q)%R = (c * psum N n f)%R.
Proof.
  revert f. induction n as [|n IH]; intros f; cbn [psum]; [reflexivity|].
  rewrite <- rsum_scal. apply rsum_ext. intros i Hi. apply (IH (fun q => f (i :: q))).
Qed.
Lemma psum_plus N n f g : psum N n (fun q => f q + g q)%R = (psum N n f + psum N n g)%R.
Proof.
  revert f g. induction n as [|n IH]; intros f g; cbn [psum]; [reflexivity|].
  rewrite <- rsum_plus. apply rsum_ext. intros i Hi. apply (IH (fun q => f (i :: q)) (fun q => g (i :: q))).
Qed.
Lemma psum_zero N n f : (forall q, f q = 0%R) -> psum N n f = 0%R.
Proof.
  revert f. induction n as [|n IH]; intros f H; cbn [psum]; [apply H|].
  apply rsum_zero. intros i Hi. apply IH. intros; apply H.
Qed.
Lemma psum_le N n f g : (forall q, zlen q = Z.of_nat n -> Forall (fun i => 0 <= i < N) q -> (f q <= g q)%R) ->
  (psum N n f <= psum N n g)%R.
Proof.
  revert f g. induction n as [|n IH]; intros f g H; cbn [psum]; [apply H; [reflexivity|constructor]|].
  apply rsum_le. intros i Hi. apply IH. intros q Lq Fq. apply H; [zl; lia|]. constructor; auto.
Qed.
Lemma psum_rsum N n m f : psum N n (fun q => rsum m (f q)) = rsum m (fun i => psum N n (fun q => f q i)).
Proof.
  revert f. induction n as [|n IH]; intros f; cbn [psum]; [reflexivity|].
  rewrite rsum_swap. apply rsum_ext. intros i Hi. apply (IH (fun q => f (i :: q))).
Qed.
(** Picking one term of a sum. *)
Lemma rsum_pick n k f : 0 <= k < n -> rsum n (fun i => if i =? k then f i else 0)%R = f k.
Proof.
  intros Hk. replace n with (k + 1 + (n - k - 1)) by lia. rewrite rsum_split by lia. rewrite rsum_S by lia.
  rewrite (rsum_zero k) by (intros i Hi; zcase; reflexivity).
  rewrite (rsum_zero (n - k - 1)) by (intros i Hi; zcase; reflexivity). zcase. lra.
Qed.

Section Model.
  Variables (p0 : Z -> R) (a b : Z -> Z -> R) (N T : Z).
  Hypothesis HN : 1 <= N.
  Hypothesis HT : 1 <= T.
  Local Notation joint := (joint a b).
  Local Notation weight := (weight p0 a b).

  (** Unscaled forward and backward probabilities. *)
  Fixpoint fwd (n : nat) (j : Z) : R :=
    match n with
    | O => p0 j * b 0%Z j
    | S k => rsum N (fun i => fwd k i * a i j) * b (Z.of_nat (S k)) j
    end%R.
  Definition F (t : Z) : Z -> R := fwd (Z.to_nat t).
  Lemma F_0 j : F 0 j = (p0 j * b 0 j)%R.
  Proof. reflexivity. Qed.
  Lemma F_S t j : 0 <= t -> F (t + 1) j = (rsum N (fun i => F t i * a i j) * b (t + 1)%Z j)%R.
  Proof.
    intros Ht. unfold F. replace (Z.to_nat (t + 1)) with (S (Z.to_nat t)) by lia. cbn [fwd].
    replace (Z.of_nat (S (Z.to_nat t))) with (t + 1) by lia. reflexivity.
  Qed.
  Definition B (t i : Z) : R := psum N (Z.to_nat (T - 1 - t)) (joint i (t + 1)).
  Lemma B_last i : B (T - 1) i = 1%R.
  Proof. unfold B. replace (T - 1 - (T - 1)) with 0 by lia. reflexivity. Qed.
  Lemma B_S t i : t < T - 1 -> B t i = rsum N (fun j => a i j * b (t + 1)%Z j * B (t + 1) j)%R.
  Proof.
    intros Ht. unfold B. replace (Z.to_nat (T - 1 - t)) with (S (Z.to_nat (T - 1 - (t + 1)))) by lia. cbn [psum HmmSpec.joint].
    apply rsum_ext. intros j Hj. now rewrite psum_scal.
  Qed.
  Definition SF (t : Z) : R := rsum N (F t).

  (** The density of all sequences with a given start, at time t0, weighted by v. *)
  Definition from (v : Z -> R) (t0 : Z) (q : list Z) : R :=
    match q with [] => 1%R | i :: r => (v i * joint i (t0 + 1) r)%R end.
  Definition next (v : Z -> R) (t0 j : Z) : R := (rsum N (fun i => v i * a i j) * b (t0 + 1)%Z j)%R.

  Lemma from_next v t0 n : forall (sel : list Z -> bool),
    psum N (S (S n)) (fun q => if sel (tl q) then from v t0 q else 0)%R =
    psum N (S n) (fun q => if sel q then from (next v t0) (t0 + 1) q else 0)%R.
  Proof.
    intros sel. change (psum N (S (S n)) ?f) with (rsum N (fun i => psum N (S n) (fun q => f (i :: q)))).
    cbn [tl]. cbv beta. rewrite <- (psum_rsum N (S n) N (fun q i => if sel q then from v t0 (i :: q) else 0)%R).
    cbn [psum]. apply rsum_ext. intros j Hj. apply psum_ext. intros q. destruct (sel (j :: q)).
    - cbn [from HmmSpec.joint]. unfold next.
      rewrite (rsum_ext N _ (fun i => (b (t0 + 1)%Z j * joint j (t0 + 1 + 1) q) * (v i * a i j))%R) by (intros; ring).
      rewrite rsum_scal. ring.
    - apply rsum_zero. auto.
  Qed.

  Lemma weight_from q : q <> [] -> weight q = from (F 0) 0 q.
  Proof. destruct q; [congruence|]. intros _. reflexivity. Qed.

  (** Selecting by the states from time t on: sum of the suffix densities, weighted by F t. *)
  Lemma select_from t (sel : list Z -> bool) : 0 <= t < T ->
    psum N (Z.to_nat T) (fun q => if sel (skipn (Z.to_nat t) q) then weight q else 0)%R =
    psum N (Z.to_nat (T - t)) (fun q => if sel q then from (F t) t q else 0)%R.
  Proof.
    intros Ht. assert (G : forall k, (k < Z.to_nat T)%nat ->
      psum N (Z.to_nat T) (fun q => if sel (skipn k q) then weight q else 0)%R =
      psum N (Z.to_nat T - k) (fun q => if sel q then from (F (Z.of_nat k)) (Z.of_nat k) q else 0)%R).
    { clear t Ht. intros k. revert sel. induction k as [|k IH]; intros sel Hk.
      - rewrite Nat.sub_0_r. apply psum_ext_in. intros q Lq _. cbn [skipn]. rewrite weight_from; auto.
        intros ->. change (zlen []) with 0 in Lq. lia.
      - rewrite (psum_ext N (Z.to_nat T) _ (fun q => if sel (tl (skipn k q)) then weight q else 0)%R).
        2: { intros q. replace (skipn (S k) q) with (tl (skipn k q)); auto.
             clear. revert q. induction k as [|k IH]; intros [|x q]; cbn; auto. apply (IH q). }
        rewrite (IH (fun q => sel (tl q))) by lia.
        replace (Z.to_nat T - k)%nat with (S (S (Z.to_nat T - S k - 1))) by lia. rewrite from_next.
        replace (S (Z.to_nat T - S k - 1)) with (Z.to_nat T - S k)%nat by lia. apply psum_ext. intros q. destruct (sel q); auto.
        replace (Z.of_nat (S k)) with (Z.of_nat k + 1) by lia. destruct q as [|j q]; [reflexivity|].
        cbn [from]. f_equal. unfold next. now rewrite F_S by lia. }
    rewrite G by lia. replace (Z.to_nat T - Z.to_nat t)%nat with (Z.to_nat (T - t)) by lia. now rewrite Z2Nat.id by lia.
  Qed.

  Lemma zn_skipn0 (q : list Z) t k : 0 <= t -> 0 <= k -> zn 0%Z (skipn (Z.to_nat t) q) k = zn 0 q (t + k).
  Proof. intros. rewrite zn_skipn by lia. f_equal. lia. Qed.

  Lemma occupied t i : 0 <= t < T -> 0 <= i < N ->
    psum N (Z.to_nat T) (fun q => if zn 0%Z q t =? i then weight q else 0)%R = (F t i * B t i)%R.
  Proof.
    intros Ht Hi. transitivity (psum N (Z.to_nat T) (fun q => if (zn 0%Z (skipn (Z.to_nat t) q) 0 =? i) then weight q else 0)%R).
    { apply psum_ext. intros q. rewrite zn_skipn0 by lia. now rewrite Z.add_0_r. }
    rewrite (select_from t (fun q => zn 0 q 0 =? i)) by lia.
    replace (Z.to_nat (T - t)) with (S (Z.to_nat (T - 1 - t))) by lia. cbn [psum].
    rewrite (rsum_ext N _ (fun j => if j =? i then F t j * B t j else 0)%R).
    - now rewrite (rsum_pick N i (fun j => F t j * B t j)%R).
    - intros j Hj. unfold B.
      rewrite <- (psum_scal N _ (F t j)). 
      destruct (Z.eqb_spec j i).
      + apply psum_ext. intros q. change (zn 0 (j :: q) 0) with j. destruct (Z.eqb_spec j i); [reflexivity|contradiction].
      + apply psum_zero. intros q. change (zn 0 (j :: q) 0) with j. destruct (Z.eqb_spec j i); [contradiction|reflexivity].
  Qed.

  Lemma moved t i j : 0 <= t < T - 1 -> 0 <= i < N -> 0 <= j < N ->
    psum N (Z.to_nat T) (fun q => if (zn 0%Z q t =? i) && (zn 0%Z q (t + 1) =? j) then weight q else 0)%R =
    (F t i * a i j * b (t + 1)%Z j * B (t + 1) j)%R.
  Proof.
    intros Ht Hi Hj. transitivity (psum N (Z.to_nat T) (fun q =>
      if (zn 0%Z (skipn (Z.to_nat t) q) 0 =? i) && (zn 0%Z (skipn (Z.to_nat t) q) 1 =? j) then weight q else 0)%R).
    { apply psum_ext. intros q. rewrite !zn_skipn0 by lia. now rewrite Z.add_0_r. }
    rewrite (select_from t (fun q => (zn 0 q 0 =? i) && (zn 0 q 1 =? j))) by lia.
    replace (Z.to_nat (T - t)) with (S (S (Z.to_nat (T - 1 - (t + 1))))) by lia. cbn [psum].
    rewrite (rsum_ext N _ (fun k => if k =? i then F t i * a i j * b (t + 1)%Z j * B (t + 1) j else 0)%R).
    - now rewrite (rsum_pick N i (fun k => F t i * a i j * b (t + 1)%Z j * B (t + 1) j)%R).
    - intros k Hk. rewrite (rsum_ext N _ (fun l => if l =? j then (if k =? i then F t i * a i j * b (t + 1)%Z j * B (t + 1) j else 0) else 0)%R).
      + now rewrite (rsum_pick N j (fun l => if k =? i then F t i * a i j * b (t + 1)%Z j * B (t + 1) j else 0)%R).
      + intros l Hl. unfold B. rewrite <- (psum_scal N _ (F t i * a i j * b (t + 1)%Z j)%R).
        rewrite (psum_ext N _ _ (fun q => if (k =? i) && (l =? j) then from (F t) t (k :: l :: q) else 0)%R) by reflexivity.
        destruct (Z.eqb_spec k i), (Z.eqb_spec l j); cbn [andb]; try (apply psum_zero; reflexivity).
        subst. apply psum_ext. intros q. cbn [from HmmSpec.joint]. ring.
  Qed.

  (** The density of the observations. *)
  Local Notation lik := (likelihood p0 a b N T).
  Lemma likelihood_sum t : 0 <= t < T -> lik = rsum N (fun i => F t i * B t i)%R.
  Proof.
    intros Ht. unfold likelihood.
    rewrite <- (psum_ext N _ (fun q => if (fun _ => true) (skipn (Z.to_nat t) q) then weight q else 0)%R) by reflexivity.
    rewrite (select_from t (fun _ => true)) by lia.
    replace (Z.to_nat (T - t)) with (S (Z.to_nat (T - 1 - t))) by lia. cbn [psum from]. apply rsum_ext.
    intros i Hi. unfold B. now rewrite psum_scal.
  Qed.
  Lemma likelihood_last : lik = SF (T - 1).
  Proof. rewrite (likelihood_sum (T - 1)) by lia. apply rsum_ext. intros i Hi. rewrite B_last. ring. Qed.

  Lemma in_state_eq t i : 0 <= t < T -> 0 <= i < N -> in_state p0 a b N T t i = (F t i * B t i / lik)%R.
  Proof. intros. unfold in_state. now rewrite occupied. Qed.
  Lemma in_states_eq t i j : 0 <= t < T - 1 -> 0 <= i < N -> 0 <= j < N ->
    in_states p0 a b N T t i j = (F t i * a i j * b (t + 1)%Z j * B (t + 1) j / lik)%R.
  Proof. intros. unfold in_states. now rewrite moved. Qed.

  (** Nonnegative entries and a positive likelihood. *)
  Hypothesis P0 : nonneg N p0.
  Hypothesis PA : nonneg2 N N a.
  Hypothesis PB : nonneg2 T N b.

  Lemma F_nonneg t i : 0 <= t < T -> 0 <= i < N -> (0 <= F t i)%R.
  Proof.
    intros Ht. destruct Ht as [H0 H1]. revert i. revert t H0 H1.
    apply (natlike_ind (fun t => t < T -> forall i, 0 <= i < N -> (0 <= F t i)%R)).
    - intros _ i Hi. rewrite F_0. apply Rmult_le_pos; [apply P0|apply PB]; lia.
    - intros t Ht IH Hlt i Hi. unfold Z.succ in *. rewrite F_S by lia. apply Rmult_le_pos; [|apply PB; lia].
      apply rsum_nonneg. intros k Hk. apply Rmult_le_pos; [apply IH; lia|apply PA; lia].
  Qed.
  Lemma joint_nonneg q i t : 0 <= i < N -> 0 <= t -> t + zlen q <= T -> Forall (fun i => 0 <= i < N) q -> (0 <= joint i t q)%R.
  Proof.
    revert i t. induction q as [|j q IH]; intros i t Hi Ht Hl Hq; cbn [HmmSpec.joint]; [lra|].
    inversion Hq; subst. revert Hl. zl. intros Hl. pose proof (zlen_nonneg q).
    apply Rmult_le_pos; [apply Rmult_le_pos; [apply PA|apply PB]; lia|]. apply IH; auto; lia.
  Qed.
  Lemma B_nonneg t i : 0 <= t < T -> 0 <= i < N -> (0 <= B t i)%R.
  Proof.
    intros Ht Hi. unfold B. rewrite <- (psum_zero N (Z.to_nat (T - 1 - t)) (fun _ => 0%R)) by auto.
    apply psum_le. intros q Lq Fq. apply joint_nonneg; auto; lia.
  Qed.
  Lemma weight_nonneg q : zlen q = T -> Forall (fun i => 0 <= i < N) q -> (0 <= weight q)%R.
  Proof.
    intros Lq Fq. destruct q as [|i q]; [cbn; lra|]. assert (0 <= i < N) by exact (Forall_inv Fq). pose proof (Forall_inv_tail Fq). revert Lq. zl. intros Lq. cbn [HmmSpec.weight].
    pose proof (zlen_nonneg q).
    apply Rmult_le_pos; [apply Rmult_le_pos; [apply P0|apply PB]; lia|]. apply joint_nonneg; auto; lia.
  Qed.

  Hypothesis PL : (0 < lik)%R.
  Lemma SF_pos t : 0 <= t < T -> (0 < SF t)%R.
  Proof.
    intros Ht. assert (0 <= SF t)%R by (apply rsum_nonneg; intros; now apply F_nonneg).
    destruct H; auto. exfalso. rewrite (likelihood_sum t) in PL by lia.
    rewrite rsum_zero in PL; [lra|]. intros i Hi.
    pose proof (rsum_term N (F t) i ltac:(intros; now apply F_nonneg) Hi). unfold SF in H. pose proof (F_nonneg t i Ht Hi).
    assert (F t i = 0)%R as -> by lra. ring.
  Qed.

  Lemma in_state_nonneg t i : 0 <= t < T -> 0 <= i < N -> (0 <= in_state p0 a b N T t i)%R.
  Proof.
    intros. rewrite in_state_eq by auto. apply Rmult_le_pos; [|left; now apply Rinv_0_lt_compat].
    apply Rmult_le_pos; [now apply F_nonneg|now apply B_nonneg].
  Qed.
  Lemma in_states_nonneg t i j : 0 <= t < T - 1 -> 0 <= i < N -> 0 <= j < N -> (0 <= in_states p0 a b N T t i j)%R.
  Proof.
    intros. rewrite in_states_eq by auto. apply Rmult_le_pos; [|left; now apply Rinv_0_lt_compat].
    repeat apply Rmult_le_pos; [apply F_nonneg; lia|apply PA; lia|apply PB; lia|apply B_nonneg; lia].
  Qed.
  Lemma in_state_sum t : 0 <= t < T -> rsum N (in_state p0 a b N T t) = 1%R.
  Proof.
    intros Ht. rewrite (rsum_ext N _ (fun i => / lik * (F t i * B t i))%R).
    - rewrite rsum_scal, <- likelihood_sum by lia. field. lra.
    - intros i Hi. rewrite in_state_eq by lia. unfold Rdiv. ring.
  Qed.
  Lemma in_states_row t i : 0 <= t < T - 1 -> 0 <= i < N -> rsum N (in_states p0 a b N T t i) = in_state p0 a b N T t i.
  Proof.
    intros Ht Hi. rewrite in_state_eq by lia. rewrite B_S by lia.
    rewrite (rsum_ext N _ (fun j => (F t i / lik) * (a i j * b (t + 1)%Z j * B (t + 1) j))%R).
    - rewrite rsum_scal. unfold Rdiv. ring.
    - intros j Hj. rewrite in_states_eq by lia. unfold Rdiv. ring.
  Qed.
  Lemma in_states_col t j : 0 <= t < T - 1 -> 0 <= j < N ->
    rsum N (fun i => in_states p0 a b N T t i j) = in_state p0 a b N T (t + 1) j.
  Proof.
    intros Ht Hj. rewrite in_state_eq by lia. rewrite F_S by lia.
    rewrite (rsum_ext N _ (fun i => (b (t + 1)%Z j * B (t + 1) j / lik) * (F t i * a i j))%R).
    - rewrite rsum_scal. unfold Rdiv. ring.
    - intros i Hi. rewrite in_states_eq by lia. unfold Rdiv. ring.
  Qed.
End Model.
