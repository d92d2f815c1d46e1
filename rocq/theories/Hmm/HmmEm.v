(** Re-estimation does not lower the likelihood (expectation maximisation). *)
From Coq Require Import List ZArith Reals Lia Lra Bool.
From Verif.Base Require Import Imp RealOps Sums Loops.
From Verif.Hmm Require Import HmmSpec HmmForward.
Import ListNotations.
Open Scope Z_scope.

Lemma psum_term N n f q : (forall q, zlen q = Z.of_nat n -> Forall (fun i => 0 <= i < N) q -> (0 <= f q)%R) ->
  zlen q = Z.of_nat n -> Forall (fun i => 0 <= i < N) q -> (f q <= psum N n f)%R.
Proof.
  revert f q. induction n as [|n IH]; intros f q H Lq Fq.
  - destruct q; [cbn; lra|]. revert Lq. zl. pose proof (zlen_nonneg q). lia.
  - destruct q as [|i q]; [revert Lq; zl; lia|]. assert (Hi : 0 <= i < N) by exact (Forall_inv Fq).
    pose proof (Forall_inv_tail Fq) as Fr. revert Lq. zl. intros Lq. cbn [psum].
    assert (G : forall k, 0 <= k < N -> (0 <= psum N n (fun q => f (k :: q)))%R).
    { intros k Hk. rewrite <- (psum_zero N n (fun _ => 0%R)) by auto. apply psum_le. intros r Lr Fr'. apply H; [zl; lia|]. now constructor. }
    pose proof (rsum_term N (fun k => psum N n (fun q => f (k :: q))) i G Hi) as HT. cbv beta in HT.
    refine (Rle_trans _ _ _ _ HT). apply (IH (fun q => f (i :: q))); auto; [|lia].
    intros r Lr Fr'. apply H; [zl; lia|]. now constructor.
Qed.
Lemma path_nth N (q : list Z) t : Forall (fun i => 0 <= i < N) q -> 0 <= t < zlen q -> 0 <= zn 0 q t < N.
Proof.
  revert t. induction q as [|i q IH]; intros t Fq Ht; [revert Ht; zl; lia|]. revert Ht. zl. intros Ht. rewrite zn_cons.
  zcase; subst; try lia; [exact (Forall_inv Fq)|]. apply IH; [exact (Forall_inv_tail Fq)|lia].
Qed.

Lemma zn_tail {A} (d x : A) l k : 0 <= k -> zn d (x :: l) (k + 1) = zn d l k.
Proof. intros. rewrite zn_cons. zcase; try lia. f_equal. lia. Qed.

Section Em.
  Variables (p0 p0' : Z -> R) (a a' b b' : Z -> Z -> R) (N T : Z).
  Variables (g0 : Z -> R) (ga gb : Z -> Z -> R).
  Hypothesis HN : 1 <= N.
  Hypothesis HT : 1 <= T.
  Hypothesis P0 : nonneg N p0.
  Hypothesis PA : nonneg2 N N a.
  Hypothesis PB : nonneg2 T N b.
  Hypothesis P0' : nonneg N p0'.
  Hypothesis PA' : nonneg2 N N a'.
  Hypothesis PB' : nonneg2 T N b'.
  Local Notation lik := (likelihood p0 a b N T).
  Local Notation w := (weight p0 a b).
  Local Notation w' := (weight p0' a' b').
  Local Notation gamma := (in_state p0 a b N T).
  Local Notation xi := (in_states p0 a b N T).
  Hypothesis PL : (0 < lik)%R.

  (** The new parameters are the old ones times an exponential, wherever that matters. *)
  Hypothesis E0 : forall i, 0 <= i < N -> (0 < gamma 0 i -> p0' i = p0 i * exp (g0 i))%R.
  Hypothesis EA : forall i j t, 0 <= i < N -> 0 <= j < N -> 0 <= t < T - 1 -> (0 < xi t i j -> a' i j = a i j * exp (ga i j))%R.
  Hypothesis EB : forall t j, 0 <= t < T -> 0 <= j < N -> (b' t j = b t j * exp (gb t j))%R.

  Fixpoint ellj (i t : Z) (q : list Z) : R :=
    match q with [] => 0 | j :: r => ga i j + gb t j + ellj j (t + 1)%Z r end%R.
  Definition ell (q : list Z) : R := match q with [] => 0 | i :: r => g0 i + gb 0%Z i + ellj i 1 r end%R.

  Lemma joint_exp r : forall i t, 0 <= i < N -> 0 <= t -> t + zlen r <= T -> Forall (fun i => 0 <= i < N) r ->
    (forall k, 0 <= k < zlen r -> (a' (zn 0%Z (i :: r) k) (zn 0%Z r k) = a (zn 0%Z (i :: r) k) (zn 0%Z r k) * exp (ga (zn 0%Z (i :: r) k) (zn 0%Z r k)))%R) ->
    (joint a' b' i t r = joint a b i t r * exp (ellj i t r))%R.
  Proof.
    induction r as [|j r IH]; intros i t Hi Ht Hl Fr H; cbn [joint ellj]; [rewrite exp_0; ring|].
    assert (Hj : 0 <= j < N) by exact (Forall_inv Fr). pose proof (Forall_inv_tail Fr) as Fr'. revert Hl. zl. intros Hl.
    pose proof (zlen_nonneg r).
    rewrite (IH j (t + 1)); auto; try lia.
    - assert (a' i j = a i j * exp (ga i j))%R as -> by (apply (H 0); zl; lia). rewrite EB by lia. rewrite !exp_plus. ring.
    - intros k Hk. specialize (H (k + 1) ltac:(zl; lia)).
      now rewrite (zn_tail 0 i), (zn_tail 0 j r) in H by lia.
  Qed.

  Lemma weight_exp q : zlen q = T -> Forall (fun i => 0 <= i < N) q -> (0 < w q)%R -> (w' q = w q * exp (ell q))%R.
  Proof.
    intros Lq Fq W.
    assert (NN : forall q, zlen q = Z.of_nat (Z.to_nat T) -> Forall (fun i => 0 <= i < N) q -> (0 <= w q)%R)
      by (intros r Lr Fr; eapply weight_nonneg; eauto; lia).
    assert (G0 : (0 < gamma 0 (zn 0%Z q 0))%R).
    { unfold in_state. apply Rdiv_lt_0_compat; auto.
      eapply Rlt_le_trans; [|apply (psum_term N _ (fun r => if zn 0%Z r 0 =? zn 0%Z q 0 then w r else 0)%R q); auto; try lia].
      - now rewrite Z.eqb_refl.
      - intros r Lr Fr. destruct (_ =? _); [auto|lra]. }
    assert (GA : forall t, 0 <= t < T - 1 -> (0 < xi t (zn 0%Z q t) (zn 0%Z q (t + 1)))%R).
    { intros t Ht. unfold in_states. apply Rdiv_lt_0_compat; auto.
      eapply Rlt_le_trans; [|apply (psum_term N _ (fun r => if (zn 0%Z r t =? zn 0%Z q t) && (zn 0%Z r (t + 1) =? zn 0%Z q (t + 1)) then w r else 0)%R q); auto; try lia].
      - now rewrite !Z.eqb_refl.
      - intros r Lr Fr. destruct (_ && _); [auto|lra]. }
    destruct q as [|i r]; [revert Lq; zl; lia|]. assert (Hi : 0 <= i < N) by exact (Forall_inv Fq).
    pose proof (Forall_inv_tail Fq) as Fr. revert Lq. zl. intros Lq. cbn [weight ell].
    rewrite E0; auto. rewrite (EB 0) by lia. rewrite joint_exp; auto; try lia.
    - rewrite !exp_plus. ring.
    - intros k Hk. assert (Ek : zn 0 r k = zn 0 (i :: r) (k + 1)).
      { now rewrite zn_tail by lia. }
      rewrite Ek. apply (EA _ _ k); [| |lia|apply GA; lia].
      + apply path_nth; auto. zl. lia.
      + rewrite <- Ek. apply path_nth; auto.
  Qed.

  Lemma weight_bound q : zlen q = T -> Forall (fun i => 0 <= i < N) q -> (w q * (1 + ell q) <= w' q)%R.
  Proof.
    intros Lq Fq. assert (W : (0 <= w q)%R) by (eapply weight_nonneg; eauto). destruct W as [W|W].
    - rewrite weight_exp by auto. apply Rmult_le_compat_l; [lra|]. apply exp_ineq1_le.
    - rewrite <- W. rewrite Rmult_0_l. eapply weight_nonneg with (N := N) (T := T); eauto.
  Qed.

  (** The exponent as a sum over times. *)
  Lemma ellj_sum r : forall i t,
    ellj i t r = (rsum (zlen r) (fun k => ga (zn 0%Z (i :: r) k) (zn 0%Z (i :: r) (k + 1))) + rsum (zlen r) (fun k => gb (t + k)%Z (zn 0%Z r k)))%R.
  Proof.
    induction r as [|j r IH]; intros i t; cbn [ellj]; [rewrite !rsum_0 by (zl; lia); lra|].
    rewrite IH. pose proof (zlen_nonneg r). zl. rewrite !(rsum_first (zlen r + 1)) by lia. replace (zlen r + 1 - 1) with (zlen r) by lia.
    rewrite !Z.add_0_r. change (zn 0 (i :: j :: r) 0) with i. change (zn 0 (i :: j :: r) (0 + 1)) with j. change (zn 0 (j :: r) 0) with j.
    rewrite (rsum_ext (zlen r) (fun k => ga (zn 0%Z (i :: j :: r) (k + 1)) (zn 0%Z (i :: j :: r) (k + 1 + 1)))
      (fun k => ga (zn 0%Z (j :: r) k) (zn 0%Z (j :: r) (k + 1)))).
    - rewrite (rsum_ext (zlen r) (fun k => gb (t + (k + 1))%Z (zn 0%Z (j :: r) (k + 1))) (fun k => gb (t + 1 + k)%Z (zn 0%Z r k))); [lra|].
      intros k Hk. rewrite zn_tail by lia. f_equal. lia.
    - intros k Hk. now rewrite !(zn_tail 0 i) by lia.
  Qed.
  Lemma ell_sum q : zlen q = T ->
    ell q = (g0 (zn 0%Z q 0) + rsum (T - 1) (fun t => ga (zn 0%Z q t) (zn 0%Z q (t + 1))) + rsum T (fun t => gb t (zn 0%Z q t)))%R.
  Proof.
    destruct q as [|i r]; zl; intros Lq; [lia|]. cbn [ell]. rewrite ellj_sum. rewrite (rsum_first T) by lia.
    replace (zlen r) with (T - 1) by lia. change (zn 0 (i :: r) 0) with i.
    rewrite (rsum_ext (T - 1) (fun k => gb (1 + k)%Z (zn 0%Z r k)) (fun k => gb (k + 1)%Z (zn 0%Z (i :: r) (k + 1)))); [lra|].
    intros k Hk. rewrite zn_tail by lia. f_equal. lia.
  Qed.

  (** Expectations over paths. *)
  Lemma expect_state f t : 0 <= t < T ->
    psum N (Z.to_nat T) (fun q => w q * f (zn 0%Z q t))%R = (lik * rsum N (fun i => gamma t i * f i))%R.
  Proof.
    intros Ht. rewrite (psum_ext_in N _ _ (fun q => rsum N (fun i => f i * (if zn 0%Z q t =? i then w q else 0)))%R).
    - rewrite psum_rsum, <- rsum_scal. apply rsum_ext. intros i Hi. rewrite psum_scal. unfold in_state. field. lra.
    - intros q Lq Fq. rewrite (rsum_ext N _ (fun i => if i =? zn 0%Z q t then f i * w q else 0)%R).
      + rewrite rsum_pick by (apply path_nth; auto; lia). ring.
      + intros i Hi. rewrite (Z.eqb_sym i). destruct (_ =? _); ring.
  Qed.
  Lemma expect_states f t : 0 <= t < T - 1 ->
    psum N (Z.to_nat T) (fun q => w q * f (zn 0%Z q t) (zn 0%Z q (t + 1)))%R = (lik * rsum N (fun i => rsum N (fun j => xi t i j * f i j)))%R.
  Proof.
    intros Ht. rewrite (psum_ext_in N _ _ (fun q => rsum N (fun i => rsum N (fun j =>
      f i j * (if (zn 0%Z q t =? i) && (zn 0%Z q (t + 1) =? j) then w q else 0))))%R).
    - rewrite psum_rsum, <- rsum_scal. apply rsum_ext. intros i Hi. rewrite psum_rsum, <- rsum_scal. apply rsum_ext. intros j Hj.
      rewrite psum_scal. unfold in_states. field. lra.
    - intros q Lq Fq.
      rewrite (rsum_ext N _ (fun i => if i =? zn 0%Z q t then w q * f i (zn 0%Z q (t + 1)) else 0)%R).
      + now rewrite rsum_pick by (apply path_nth; auto; lia).
      + intros i Hi. rewrite (Z.eqb_sym i). destruct (_ =? _); cbn [andb].
        * rewrite (rsum_ext N _ (fun j => if j =? zn 0%Z q (t + 1) then f i j * w q else 0)%R).
          -- rewrite rsum_pick by (apply path_nth; auto; lia). ring.
          -- intros j Hj. rewrite (Z.eqb_sym j). destruct (_ =? _); ring.
        * apply rsum_zero. intros; ring.
  Qed.

  Theorem em_bound :
    (lik * (1 + rsum N (fun i => gamma 0 i * g0 i) + rsum (T - 1) (fun t => rsum N (fun i => rsum N (fun j => xi t i j * ga i j))) +
      rsum T (fun t => rsum N (fun j => gamma t j * gb t j))) <= likelihood p0' a' b' N T)%R.
  Proof.
    unfold likelihood at 2. eapply Rle_trans; [|apply psum_le; intros q Lq Fq; apply weight_bound; auto; lia].
    right. rewrite (psum_ext_in N _ _ (fun q => (w q + w q * g0 (zn 0%Z q 0)) +
      (rsum (T - 1) (fun t => w q * ga (zn 0%Z q t) (zn 0%Z q (t + 1))) + rsum T (fun t => w q * gb t (zn 0%Z q t))))%R).
    - rewrite !psum_plus, !psum_rsum. rewrite (expect_state g0) by lia.
      rewrite (rsum_ext (T - 1) (fun i => psum _ _ _) (fun t => lik * rsum N (fun i => rsum N (fun j => xi t i j * ga i j)))%R) by (intros; now apply expect_states).
      rewrite (rsum_ext T (fun i => psum _ _ _) (fun t => lik * rsum N (fun j => gamma t j * gb t j))%R) by (intros t Ht; now apply (expect_state (gb t))).
      rewrite !rsum_scal. unfold likelihood at 1. change (psum N (Z.to_nat T) (fun q => w q)) with lik.
      fold (likelihood p0 a b N T). ring.
    - intros q Lq Fq. rewrite ell_sum by lia. rewrite !rsum_scal. ring.
  Qed.
End Em.

(** ln y >= 1 - 1/y. *)
Lemma ln_lower y : (0 < y)%R -> (1 - / y <= ln y)%R.
Proof.
  intros Hy. pose proof (exp_ineq1_le (- ln y)) as H. rewrite exp_Ropp, exp_ln in H by auto. lra.
Qed.
Lemma gibbs_term x y : (0 < x)%R -> (0 < y)%R -> (x - y <= x * ln (x / y))%R.
Proof.
  intros Hx Hy. pose proof (ln_lower (x / y) ltac:(now apply Rdiv_lt_0_compat)) as H.
  assert (x * (1 - / (x / y)) <= x * ln (x / y))%R by (apply Rmult_le_compat_l; lra).
  replace (x * (1 - / (x / y)))%R with (x - y)%R in H0 by (field; lra). lra.
Qed.

Section Reestimate.
  Variables (p0 : Z -> R) (a b b' : Z -> Z -> R) (N T : Z) (gb : Z -> Z -> R).
  Hypothesis HN : 1 <= N.
  Hypothesis HT : 1 <= T.
  Hypothesis P0 : nonneg N p0.
  Hypothesis PA : nonneg2 N N a.
  Hypothesis PB : nonneg2 T N b.
  Hypothesis S0 : (rsum N p0 <= 1)%R.
  Hypothesis SA : forall i, 0 <= i < N -> (rsum N (a i) <= 1)%R.
  Local Notation lik := (likelihood p0 a b N T).
  Local Notation gamma := (in_state p0 a b N T).
  Local Notation xi := (in_states p0 a b N T).
  Local Notation moves := (expected_moves p0 a b N T).
  Local Notation visits := (expected_visits p0 a b N T).
  Hypothesis PL : (0 < lik)%R.
  Hypothesis EB : forall t j, 0 <= t < T -> 0 <= j < N -> (b' t j = b t j * exp (gb t j))%R.
  Hypothesis GB : (0 <= rsum T (fun t => rsum N (fun j => gamma t j * gb t j)))%R.

  (** Re-estimated transition probabilities. *)
  Definition new_a (i j : Z) : R := if Reqb (visits i) 0 then 0%R else (moves i j / visits i)%R.

  Let gammaN t i : 0 <= t < T -> 0 <= i < N -> (0 <= gamma t i)%R.
  Proof. intros. eapply in_state_nonneg; eauto. Qed.
  Let xiN t i j : 0 <= t < T - 1 -> 0 <= i < N -> 0 <= j < N -> (0 <= xi t i j)%R.
  Proof. intros. eapply in_states_nonneg; eauto. Qed.
  Lemma visits_nonneg i : 0 <= i < N -> (0 <= visits i)%R.
  Proof. intros. apply rsum_nonneg. intros. apply gammaN; lia. Qed.
  Lemma moves_nonneg i j : 0 <= i < N -> 0 <= j < N -> (0 <= moves i j)%R.
  Proof. intros. apply rsum_nonneg. intros. apply xiN; lia. Qed.
  Lemma moves_sum i : 0 <= i < N -> rsum N (moves i) = visits i.
  Proof.
    intros Hi. unfold expected_moves, expected_visits. rewrite rsum_swap. apply rsum_ext. intros t Ht.
    eapply in_states_row; eauto.
  Qed.
  Lemma new_a_nonneg : nonneg2 N N new_a.
  Proof.
    intros i j Hi Hj. unfold new_a. destruct (Reqb_spec (visits i) 0); [lra|]. pose proof (visits_nonneg i Hi).
    apply Rmult_le_pos; [now apply moves_nonneg|]. left. apply Rinv_0_lt_compat. lra.
  Qed.
  Lemma new_a_sum i : 0 <= i < N -> visits i <> 0%R -> rsum N (new_a i) = 1%R.
  Proof.
    intros Hi V. unfold new_a. destruct (Reqb_spec (visits i) 0); [contradiction|].
    rewrite (rsum_ext N _ (fun j => / visits i * moves i j)%R) by (intros; unfold Rdiv; ring).
    rewrite rsum_scal, moves_sum by auto. now field.
  Qed.
  (** A transition never taken is not taken later. *)
  Lemma xi_zero t i j : 0 <= t < T - 1 -> 0 <= i < N -> 0 <= j < N -> a i j = 0%R -> xi t i j = 0%R.
  Proof. intros Ht Hi Hj E. rewrite in_states_eq by auto. rewrite E. unfold Rdiv. ring. Qed.
  Lemma moves_zero i j : 0 <= i < N -> 0 <= j < N -> a i j = 0%R -> moves i j = 0%R.
  Proof. intros Hi Hj E. apply rsum_zero. intros t Ht. now apply xi_zero. Qed.
  Lemma xi_le t i j : 0 <= t < T - 1 -> 0 <= i < N -> 0 <= j < N -> (xi t i j <= moves i j)%R.
  Proof. intros Ht Hi Hj. apply (rsum_term (T - 1) (fun t => xi t i j)); auto. Qed.
  Lemma moves_le i j : 0 <= i < N -> 0 <= j < N -> (moves i j <= visits i)%R.
  Proof. intros Hi Hj. rewrite <- moves_sum by auto. apply (rsum_term N (moves i)); auto. intros; now apply moves_nonneg. Qed.

  Theorem reestimate_increases : (lik <= likelihood (gamma 0) new_a b' N T)%R.
  Proof.
    set (g0 := fun i => ln (gamma 0 i / p0 i)). set (ga := fun i j => ln (new_a i j / a i j)).
    assert (X : forall t i j, 0 <= t < T - 1 -> 0 <= i < N -> 0 <= j < N -> (0 < xi t i j)%R -> (0 < a i j /\ 0 < moves i j /\ 0 < visits i)%R).
    { intros t i j Ht Hi Hj H. pose proof (xi_le t i j Ht Hi Hj). pose proof (moves_le i j Hi Hj). splits; try lra.
      destruct (PA i j Hi Hj) as [G|G]; auto. rewrite (xi_zero t i j) in H by auto. lra. }
    eapply Rle_trans; [|apply (em_bound p0 (gamma 0) a new_a b b' N T g0 ga gb)]; auto.
    - rewrite <- (Rmult_1_r lik) at 1. apply Rmult_le_compat_l; [lra|].
      assert (G0 : (0 <= rsum N (fun i => gamma 0 i * g0 i))%R).
      { apply Rle_trans with (rsum N (fun i => gamma 0 i - p0 i)%R).
        - rewrite rsum_minus. assert (rsum N (gamma 0) = 1)%R as -> by (eapply in_state_sum; eauto; lia). lra.
        - apply rsum_le. intros i Hi. unfold g0. pose proof (P0 i Hi) as [Hp|Hp].
          + destruct (gammaN 0 i ltac:(lia) Hi) as [Hg|Hg]; [now apply gibbs_term|]. rewrite <- Hg. lra.
          + assert (gamma 0 i = 0)%R as ->; [|lra]. rewrite in_state_eq by lia. rewrite F_0, <- Hp. unfold Rdiv. ring. }
      assert (G1 : (0 <= rsum (T - 1) (fun t => rsum N (fun i => rsum N (fun j => xi t i j * ga i j))))%R).
      { rewrite rsum_swap. apply rsum_nonneg. intros i Hi. rewrite rsum_swap.
        rewrite (rsum_ext N _ (fun j => moves i j * ga i j)%R).
        2: { intros j Hj. rewrite (rsum_ext (T - 1) _ (fun t => ga i j * xi t i j)%R) by (intros; ring). rewrite rsum_scal.
             unfold expected_moves. ring. }
        apply Rle_trans with (rsum N (fun j => moves i j - visits i * a i j)%R).
        - rewrite rsum_minus, rsum_scal, moves_sum by auto. specialize (SA i Hi). pose proof (visits_nonneg i Hi). nra.
        - apply rsum_le. intros j Hj. pose proof (moves_le i j Hi Hj) as ML. pose proof (visits_nonneg i Hi) as VN. pose proof (PA i j Hi Hj) as [Ha|Ha].
          + destruct (moves_nonneg i j Hi Hj) as [Hm|Hm]; [|rewrite <- Hm; nra].
            unfold ga, new_a. destruct (Reqb_spec (visits i) 0) as [Z|Z]; [lra|].
            pose proof (gibbs_term (moves i j) (visits i * a i j) Hm ltac:(apply Rmult_lt_0_compat; lra)) as G.
            replace (moves i j / visits i / a i j)%R with (moves i j / (visits i * a i j))%R by (field; lra). exact G.
          + rewrite moves_zero by auto. rewrite <- Ha. lra. }
      lra.
    - intros i Hi. apply gammaN; lia.
    - apply new_a_nonneg.
    - intros t j Ht Hj. rewrite EB by auto. apply Rmult_le_pos; [auto|]. left. apply exp_pos.
    - intros i Hi H. unfold g0. assert (0 < p0 i)%R.
      { destruct (P0 i Hi) as [G|G]; auto. rewrite in_state_eq in H by lia. rewrite F_0, <- G in H. unfold Rdiv in H. lra. }
      rewrite exp_ln by (now apply Rdiv_lt_0_compat). field. lra.
    - intros i j t Hi Hj Ht H. destruct (X t i j Ht Hi Hj H) as (H1 & H2 & H3). unfold ga.
      unfold new_a. destruct (Reqb_spec (visits i) 0); [lra|].
      rewrite exp_ln; [field; lra|]. apply Rdiv_lt_0_compat; auto. now apply Rdiv_lt_0_compat.
  Qed.
End Reestimate.
