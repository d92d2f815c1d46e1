(** Training does not lower the likelihood: the part of means and covariance. *)
From Coq Require Import List ZArith Reals Lia Lra Bool.
From Verif.Base Require Import Imp RealOps Sums Loops Matrix.
From Verif.Lapack Require Import LapackSpec LapackResults LogDet.
From Verif.Hmm Require Import HmmModel HmmSpec HmmForward HmmFb HmmBaum HmmEm HmmTrain HmmTrainProofs HmmInit HmmResults HmmPosdef HmmLikSpec.
Import ListNotations.
Open Scope Z_scope.

Section Gauss.
  Variables (N T L : Z) (g x mu : Z -> Z -> R).
  Hypothesis HN : 1 <= N.
  Hypothesis HT : 1 <= T.
  Hypothesis HL : 1 <= L.
  Hypothesis G1 : forall t, 0 <= t < T -> rsum N (g t) = 1%R.
  Hypothesis GP : forall j, 0 <= j < N -> (0 < rsum T (fun t => g t j))%R.

  Definition ncov (d e : Z) : R := (rsum N (fun j => rsum T (fun t => g t j * (x t d - mu j d) * (x t e - mu j e))) / IZR T)%R.
  Definition nmu (j d : Z) : R := (rsum T (fun t => g t j * x t d) / rsum T (fun t => g t j))%R.

  Lemma mahal_sum B : rsum T (fun t => rsum N (fun j => g t j * mahal L (x t) (mu j) B))%R = (IZR T * trace2 L B ncov)%R.
  Proof.
    assert (T0 : IZR T <> 0%R) by (apply not_0_IZR; lia).
    unfold trace2. rewrite <- rsum_scal.
    rewrite (rsum_ext L _ (fun i => rsum T (fun t => rsum N (fun j => rsum L (fun k => g t j * (B i k * (x t k - mu j k) * (x t i - mu j i)))))))%R.
    2: { intros i Hi. rewrite <- rsum_scal.
         rewrite (rsum_ext L _ (fun k => rsum T (fun t => rsum N (fun j => g t j * (B i k * (x t k - mu j k) * (x t i - mu j i))))))%R.
         - rewrite rsum_swap. apply rsum_ext. intros t Ht. rewrite rsum_swap. reflexivity.
         - intros k Hk. unfold ncov. transitivity (B i k * rsum N (fun j => rsum T (fun t => g t j * (x t k - mu j k) * (x t i - mu j i))))%R; [field; auto|].
           rewrite <- rsum_scal. rewrite (rsum_swap T N). apply rsum_ext. intros j Hj. rewrite <- rsum_scal. apply rsum_ext. intros t Ht. ring. }
    symmetry. rewrite rsum_swap. apply rsum_ext. intros t Ht. rewrite rsum_swap. apply rsum_ext. intros j Hj. symmetry.
    unfold mahal. rewrite <- rsum_scal. apply rsum_ext. intros i Hi.
    transitivity (g t j * (x t i - mu j i) * rsum L (fun k => B i k * (x t k - mu j k)))%R; [ring|]. rewrite <- rsum_scal. apply rsum_ext. intros k Hk. ring.
  Qed.
  Lemma trace_inverse C B : inverse_of L C B -> trace2 L B C = IZR L.
  Proof.
    intros I. unfold trace2. rewrite (rsum_ext L _ (fun _ => 1%R)).
    - rewrite rsum_const by lia. ring.
    - intros i Hi. rewrite (proj2 (I i i Hi Hi)). unfold delta. now rewrite Z.eqb_refl.
  Qed.

  (** The weighted mean minimises the weighted sum of distances. *)
  Lemma mahal_shift y m m' B : mahal L y m B =
    (mahal L y m' B + rsum L (fun i => rsum L (fun k => B i k * (m' k - m k) * (y i - m' i))) +
     rsum L (fun i => rsum L (fun k => B i k * (m' i - m i) * (y k - m' k))) + quadratic L B (fun i => m' i - m i))%R.
  Proof.
    unfold mahal, quadratic. rewrite <- !rsum_plus. apply rsum_ext. intros i Hi.
    rewrite (Rmult_comm (rsum L _)), (Rmult_comm (rsum L _) (y i - m' i)%R), <- !rsum_scal, <- !rsum_plus. apply rsum_ext. intros k Hk. ring.
  Qed.
  Lemma centred j d : 0 <= j < N -> rsum T (fun t => g t j * (x t d - nmu j d))%R = 0%R.
  Proof.
    intros Hj. pose proof (GP j Hj). rewrite (rsum_ext T _ (fun t => g t j * x t d - nmu j d * g t j)%R) by (intros; ring).
    rewrite rsum_minus, rsum_scal. unfold nmu. field. lra.
  Qed.
  Lemma mahal_mean B j : posdef L B -> 0 <= j < N ->
    (rsum T (fun t => g t j * mahal L (x t) (nmu j) B) <= rsum T (fun t => g t j * mahal L (x t) (mu j) B))%R.
  Proof.
    intros P Hj. rewrite (rsum_ext T (fun t => g t j * mahal L (x t) (mu j) B)%R
      (fun t => (g t j * mahal L (x t) (nmu j) B + rsum L (fun i => rsum L (fun k => B i k * (nmu j k - mu j k) * (g t j * (x t i - nmu j i))))) +
        (rsum L (fun i => rsum L (fun k => B i k * (nmu j i - mu j i) * (g t j * (x t k - nmu j k)))) + quadratic L B (fun i => nmu j i - mu j i) * g t j))%R).
    2: { intros t Ht. rewrite (mahal_shift (x t) (mu j) (nmu j) B). rewrite !Rmult_plus_distr_l, <- !rsum_scal.
         rewrite (rsum_ext L (fun i => g t j * rsum L (fun k => B i k * (nmu j k - mu j k) * (x t i - nmu j i)))%R
           (fun i => rsum L (fun k => B i k * (nmu j k - mu j k) * (g t j * (x t i - nmu j i))))%R).
         2: { intros i Hi. rewrite <- rsum_scal. apply rsum_ext. intros k Hk. ring. }
         rewrite (rsum_ext L (fun i => g t j * rsum L (fun k => B i k * (nmu j i - mu j i) * (x t k - nmu j k)))%R
           (fun i => rsum L (fun k => B i k * (nmu j i - mu j i) * (g t j * (x t k - nmu j k))))%R).
         2: { intros i Hi. rewrite <- rsum_scal. apply rsum_ext. intros k Hk. ring. }
         ring. }
    rewrite !rsum_plus, rsum_scal.
    rewrite (rsum_swap T L (fun t i => rsum L (fun k => B i k * (nmu j k - mu j k) * (g t j * (x t i - nmu j i)))%R)).
    rewrite (rsum_swap T L (fun t i => rsum L (fun k => B i k * (nmu j i - mu j i) * (g t j * (x t k - nmu j k)))%R)).
    rewrite (rsum_zero L (fun i => rsum T (fun t => rsum L (fun k => B i k * (nmu j k - mu j k) * (g t j * (x t i - nmu j i)))))%R).
    2: { intros i Hi. rewrite rsum_swap. apply rsum_zero. intros k Hk. rewrite rsum_scal, centred by auto. ring. }
    rewrite (rsum_zero L (fun i => rsum T (fun t => rsum L (fun k => B i k * (nmu j i - mu j i) * (g t j * (x t k - nmu j k)))))%R).
    2: { intros i Hi. rewrite rsum_swap. apply rsum_zero. intros k Hk. rewrite rsum_scal, centred by auto. ring. }
    assert (0 <= quadratic L B (fun i => nmu j i - mu j i))%R.
    { destruct (Z_lt_dec 0 L) as [HL'|]; [|lia]. 
      assert (D : (exists i, 0 <= i < L /\ (nmu j i - mu j i)%R <> 0%R) \/ (forall i, 0 <= i < L -> (nmu j i - mu j i)%R = 0%R)).
      { assert (Q : forall m, 0 <= m -> (exists i, 0 <= i < m /\ (nmu j i - mu j i)%R <> 0%R) \/ (forall i, 0 <= i < m -> (nmu j i - mu j i)%R = 0%R)).
        { apply (natlike_ind (fun m => (exists i, 0 <= i < m /\ (nmu j i - mu j i)%R <> 0%R) \/ (forall i, 0 <= i < m -> (nmu j i - mu j i)%R = 0%R))).
          - right. intros; lia.
          - intros m Hm [(i & Hi & Ni)|H]; [left; exists i; split; auto; lia|].
            destruct (Req_dec (nmu j m - mu j m) 0) as [E|E]; [right|left; exists m; split; auto; lia].
            intros i Hi. destruct (Z.eq_dec i m) as [->|]; auto. apply H. lia. }
        apply Q. lia. }
      destruct D as [D|D]; [left; now apply P|]. right. symmetry. apply rsum_zero. intros i Hi. apply rsum_zero. intros k Hk. rewrite (D i), (D k) by auto. ring. }
    pose proof (GP j Hj). pose proof (Rmult_le_pos _ _ H (Rlt_le _ _ H0)). lra.
  Qed.

  Variables (C ic ic' : Z -> Z -> R).
  Hypothesis Sy : symmetric L C.
  Hypothesis PC : posdef L C.
  Hypothesis I : inverse_of L C ic.
  Hypothesis PC' : posdef L ncov.
  Hypothesis I' : inverse_of L ncov ic'.
  Local Notation D := (det (Z.to_nat L) C).
  Local Notation D' := (det (Z.to_nat L) ncov).
  Definition gain (t j : Z) : R := (log_density L (x t) (nmu j) ic' D' - log_density L (x t) (mu j) ic D)%R.

  Lemma ncov_sym : symmetric L ncov.
  Proof. intros d e Hd He. unfold ncov. f_equal. apply rsum_ext. intros j Hj. apply rsum_ext. intros t Ht. ring. Qed.

  Theorem gain_nonneg : (0 <= rsum T (fun t => rsum N (fun j => g t j * gain t j)))%R.
  Proof.
    assert (TP : (0 < IZR T)%R) by (apply IZR_lt; lia).
    pose proof (log_det_trace L C ic ncov ltac:(lia) Sy PC I ncov_sym PC') as LD.
    set (c := (ln D' - ln D)%R).
    rewrite (rsum_ext T _ (fun t => / 2 * (rsum N (fun j => g t j * mahal L (x t) (mu j) ic) - rsum N (fun j => g t j * mahal L (x t) (nmu j) ic') - c))%R).
    2: { intros t Ht. rewrite (rsum_ext N _ (fun j => / 2 * (g t j * mahal L (x t) (mu j) ic - g t j * mahal L (x t) (nmu j) ic' - c * g t j))%R).
         - rewrite rsum_scal, !rsum_minus, rsum_scal, G1 by auto. now rewrite Rmult_1_r.
         - intros j Hj. unfold gain, log_density, c. lra. }
    rewrite rsum_scal, !rsum_minus, rsum_const, mahal_sum by lia.
    assert (M : (rsum T (fun t => rsum N (fun j => g t j * mahal L (x t) (nmu j) ic')) <= IZR T * IZR L)%R).
    { rewrite <- (trace_inverse ncov ic' I'), <- mahal_sum. rewrite (rsum_swap T N), (rsum_swap T N). apply rsum_le. intros j Hj.
      apply mahal_mean; auto. apply (posdef_inverse L ncov); auto. }
    fold c in LD. pose proof (Rmult_le_compat_l (IZR T) _ _ (Rlt_le _ _ TP) LD) as LD'. lra.
  Qed.
End Gauss.

Lemma likelihood_ext p0 p0' a a' b b' N T :
  (forall i, 0 <= i < N -> p0 i = p0' i) -> (forall i j, 0 <= i < N -> 0 <= j < N -> a i j = a' i j) ->
  (forall t i, 0 <= t < T -> 0 <= i < N -> b t i = b' t i) -> 0 <= T -> likelihood p0 a b N T = likelihood p0' a' b' N T.
Proof.
  intros E0 EA EB HT. unfold likelihood. apply psum_ext_in. rewrite Z2Nat.id by lia.
  assert (J : forall r i t, 0 <= t -> t + zlen r <= T -> 0 <= i < N -> Forall (fun i => 0 <= i < N) r -> joint a b i t r = joint a' b' i t r).
  { induction r as [|j r IH]; intros i t Ht Hl Hi Fr; cbn [joint]; auto. assert (0 <= j < N) by exact (Forall_inv Fr).
    revert Hl. zl. intros Hl. pose proof (zlen_nonneg r). rewrite IH by (try exact (Forall_inv_tail Fr); lia). now rewrite EB, EA by lia. }
  intros [|i r] Lq Fq; auto. cbn [weight]. assert (0 <= i < N) by exact (Forall_inv Fq). revert Lq. zl. intros Lq. pose proof (zlen_nonneg r).
  rewrite E0, EB, J; auto; try lia. exact (Forall_inv_tail Fq).
Qed.
Lemma data_likelihood_unique x T m l l' : 0 <= T -> data_likelihood x T m l -> data_likelihood x T m l' -> l = l'.
Proof.
  intros HT (ic & I & ->) (ic' & I' & ->). pose proof (inverse_unique _ _ _ _ I I') as U. apply likelihood_ext; auto.
  intros t i Ht Hi. f_equal. unfold log_density, mahal. do 3 f_equal. apply rsum_ext. intros a Ha. f_equal. apply rsum_ext. intros b Hb. now rewrite U.
Qed.

Section Increase.
  Variables (x : list (list R)) (T L N : Z).
  Hypothesis HN : 1 <= N.
  Hypothesis HT : 1 <= T.
  Hypothesis HL : 1 <= L.
  Hypothesis Sx : shape T L x.
  Hypothesis Sp : spread T L x.
  Variables junk sfmin : R.
  Local Notation good := (good T L N).

  Lemma good_likelihood m : model_ok L N m -> positive_model N m -> cov_ok L m -> exists l, data_likelihood x T m l /\ (0 < l)%R.
  Proof.
    intros M P (Sy & Pd). assert (Sc : shape L L (mcov m)) by apply M.
    destruct (invert_cov_ok junk sfmin L HL _ Sc) as (ic & _ & _ & I).
    pose proof M as (EN & EL & _). eexists. split.
    - exists (ent 0%R ic). rewrite EL. split; [|reflexivity]. apply I. now apply posdef_det.
    - rewrite EN. apply lik_pos; auto; [apply P|apply P|]. intros; apply exp_pos.
  Qed.

  (** One iteration: the likelihood of the model before is what is recorded, and that of the new model is no smaller. *)
  Theorem step_increases s s' : good s -> train_step junk sfmin x T s = OK s' ->
    forall l, data_likelihood x T (s_model s) l -> s_ll s' = ln l /\ s_ll1 s' = s_ll s /\
      forall l', data_likelihood x T (s_model s') l' -> (l <= l')%R.
  Proof.
    intros Gs E l Dl. pose proof Gs as (M & P & Sg & Sxi & (Sy & Pd) & Nan). assert (Sc : shape L L (mcov (s_model s))) by apply M.
    destruct (invert_cov_ok junk sfmin L HL _ Sc) as (ic & EI & _ & Iv).
    pose proof (posdef_det L _ HL Pd) as D0. specialize (Iv D0). pose proof (posdef_det_pos L _ ltac:(lia) Sy Pd) as DP.
    destruct (good_step x T L N HN HT HL Sx Sp junk sfmin s Gs) as (s2 & E2 & G2 & _). rewrite E in E2. injection E2 as <-.
    destruct G2 as (M' & P' & _ & _ & (Sy' & Pd') & _).
    pose proof (Rabs_no_R0 _ D0) as D0a.
    destruct (train_step_ok junk sfmin x T L N HN HT HL Sx s M P Sg Sxi ic _ EI D0a) as (s3 & E3 & _ & _ & _ & _ & LL & LL1 & _ & V0 & V1 & V2 & V3).
    rewrite E in E3. injection E3 as <-. rewrite (Rabs_pos_eq _ (Rlt_le _ _ DP)) in *.
    set (b := probs x L (s_model s) ic (det (Z.to_nat L) (ent 0%R (mcov (s_model s))))) in *.
    set (p := zn 0%R (mp0 (s_model s))) in *. set (A := ent 0%R (ma (s_model s))) in *.
    pose proof M as (EN & EL & _). pose proof M' as (EN' & EL' & _).
    assert (El : l = likelihood p A b N T).
    { apply (data_likelihood_unique x T (s_model s)); auto; [lia|]. exists (ent 0%R ic). rewrite EL, EN. split; [exact Iv|reflexivity]. }
    split; [rewrite LL, El; reflexivity|]. split; [exact LL1|].
    intros l' (ic' & I' & ->). rewrite El. rewrite EN', EL' in *.
    set (gam := in_state p A b N T) in *.
    assert (PB : forall t j, 0 <= t < T -> 0 <= j < N -> (0 < b t j)%R) by (intros; apply exp_pos).
    destruct P as (P1 & P2 & P3 & P4). fold p in P1, P2. fold A in P3, P4.
    assert (PL : (0 < likelihood p A b N T)%R) by (apply lik_pos; auto).
    assert (Gp : forall t j, 0 <= t < T -> 0 <= j < N -> (0 < gam t j)%R) by (intros; apply in_state_pos; auto).
    assert (N0 : nonneg N p) by (intros i Hi; left; now apply P1).
    assert (NA : nonneg2 N N A) by (intros i j Hi Hj; left; now apply P3).
    assert (NB : nonneg2 T N b) by (intros i j Hi Hj; left; now apply PB).
    assert (GS : forall j, 0 <= j < N -> (0 < rsum T (fun t => gam t j))%R) by (intros j Hj; apply rsum_pos; [lia|]; intros t Ht; now apply Gp).
    set (X := ent 0%R x). set (mu := ent 0%R (mmu (s_model s))).
    set (C' := ncov N T gam X mu).
    assert (EC : forall d e, 0 <= d < L -> 0 <= e < L -> ent 0%R (mcov (s_model s')) d e = C' d e) by (intros; rewrite V3; now rewrite ent_tab2 by lia).
    assert (EM : forall j d, 0 <= j < N -> 0 <= d < L -> ent 0%R (mmu (s_model s')) j d = nmu T gam X j d) by (intros; rewrite V2; now rewrite ent_tab2 by lia).
    assert (ED : det (Z.to_nat L) (ent 0%R (mcov (s_model s'))) = det (Z.to_nat L) C') by (apply DetFacts.det_ext; rewrite Z2Nat.id by lia; exact EC).
    assert (PC' : posdef L C') by (eapply posdef_ext; eauto).
    assert (IC' : inverse_of L C' ic') by (eapply inverse_of_ext; eauto).
    refine (Rle_trans _ _ _ (reestimate_increases p A b (fun t j => b t j * exp (gain N T L gam X mu (ent 0%R (mcov (s_model s))) (ent 0%R ic) ic' t j))%R N T
      (gain N T L gam X mu (ent 0%R (mcov (s_model s))) (ent 0%R ic) ic') HT N0 NA NB _ _ PL _ _) _); auto.
    - lra.
    - intros i Hi. rewrite P4 by auto. lra.
    - apply gain_nonneg; auto. intros t Ht. apply in_state_sum; auto.
    - right. apply likelihood_ext; try lia.
      + intros i Hi. rewrite V0. now rewrite zn_ztab by lia.
      + intros i j Hi Hj. rewrite V1. now rewrite ent_tab2 by lia.
      + intros t j Ht Hj. unfold b, probs, density. rewrite <- exp_plus. f_equal. unfold gain. fold C'. rewrite ED.
        change (zn 0%R (zn [] x t)) with (X t). change (zn 0%R (zn [] (mmu (s_model s)) j)) with (mu j).
        assert (EMh : forall B, mahal L (X t) (ent 0%R (mmu (s_model s')) j) B = mahal L (X t) (nmu T gam X j) B).
        { intros B. unfold mahal. apply rsum_ext. intros i Hi. rewrite EM by auto. f_equal. apply rsum_ext. intros k Hk. now rewrite EM by auto. }
        unfold log_density. rewrite EMh. lra.
  Qed.

  Theorem trains_increases s s' : good s -> trains junk sfmin x T s s' ->
    forall l l', data_likelihood x T (s_model s) l -> data_likelihood x T (s_model s') l' -> (l <= l')%R.
  Proof.
    intros G Tr. induction Tr as [|s1 s2 Tr IH On E]; intros l l' H H'.
    - right. eapply data_likelihood_unique; eauto. lia.
    - pose proof (trains_good x T L N HN HT HL Sx Sp junk sfmin _ _ G Tr) as G1. pose proof G1 as (M1 & P1 & _ & _ & C1 & _).
      destruct (good_likelihood (s_model s1) M1 P1 C1) as (l1 & H1 & _).
      apply Rle_trans with l1; [now apply IH|]. destruct (step_increases s1 s2 G1 E l1 H1) as (_ & _ & S). now apply S.
  Qed.
End Increase.

(** When training stops. *)
Section Stop.
  Variables (x : list (list R)) (T L N : Z).
  Hypothesis HN : 1 <= N.
  Hypothesis HT : 1 <= T.
  Hypothesis HL : 1 <= L.
  Hypothesis Sx : shape T L x.
  Hypothesis Sp : spread T L x.
  Variables junk sfmin : R.
  Local Notation good := (good T L N).

  (** *loglik2 is set in the second iteration, to the logarithm of the density of the first observation alone. *)
  Lemma step_ll2 s s' : good s -> train_step junk sfmin x T s = OK s' ->
    forall l, data_likelihood x 1 (s_model s) l -> s_ll2 s' = if s_iter s + 1 =? 2 then ln l else s_ll2 s.
  Proof.
    intros (M & P & Sg & Sxi & (Sy & Pd) & Nan) E l Dl. assert (Sc : shape L L (mcov (s_model s))) by apply M.
    destruct (invert_cov_ok junk sfmin L HL _ Sc) as (ic & EI & Si & Iv).
    pose proof (posdef_det L _ HL Pd) as D0. specialize (Iv D0). pose proof (posdef_det_pos L _ ltac:(lia) Sy Pd) as DP.
    pose proof (Rabs_no_R0 _ D0) as D0a. set (m := s_model s) in *.
    pose proof M as (EN & EL & Lp & Sa & Sm & _).
    unfold train_step in E. fold m in E. rewrite EN, EL, EI in E. cbn [bind] in E. destruct (Reqb_spec (Rabs (det (Z.to_nat L) (ent 0%R (mcov m)))) 0) as [C|_]; [contradiction|].
    rewrite (obs_probs_ok junk x T L N HN HT HL Sx) in E; auto; [|unfold new2, new1; apply shape_repeat; lia]. cbn [bind] in E.
    rewrite (Rabs_pos_eq _ (Rlt_le _ _ DP)) in E.
    set (bl := tab2 T N (fun t i => exp (density x L (mmu m) ic (det (Z.to_nat L) (ent 0%R (mcov m))) t i))) in E.
    destruct P as (P1 & P2 & P3 & P4).
    assert (PB : forall t j, 0 <= t < T -> 0 <= j < N -> (0 < ent 0%R bl t j)%R) by (intros; unfold bl; rewrite ent_tab2 by lia; apply exp_pos).
    assert (PL : (0 < likelihood (zn 0%R (mp0 m)) (ent 0%R (ma m)) (ent 0%R bl) N T)%R) by (apply lik_pos; auto).
    assert (Sb : shape T N bl) by (apply shape_tab2; lia).
    destruct (forward_backwards_ok junk N T (mp0 m) (ma m) bl HN HT Lp Sa Sb) with (gamma := s_gamma s) (xi := s_xi s) (ll := s_ll s) (ll1 := s_ll1 s) (ll2 := s_ll2 s) (iter := s_iter s + 1)
      as (xi' & EF & _); auto.
    { intros i Hi. left. now apply P1. }
    { intros i j Hi Hj. left. now apply P3. }
    { intros t j Ht Hj. left. now apply PB. }
    rewrite EF in E. cbn [bind] in E. apply bind_OK in E. destruct E as ((((p' & a') & mu') & cov') & _ & E). injection E as <-. cbn [s_ll2].
    destruct (s_iter s + 1 =? 2); auto. f_equal. symmetry.
    apply (data_likelihood_unique x 1 m); auto; [lia|]. exists (ent 0%R ic). rewrite EL, EN. split; [exact Iv|].
    unfold likelihood. change (Z.to_nat 1) with 1%nat. cbn [psum weight joint].
    apply rsum_ext. intros i Hi. rewrite F_0. unfold bl. rewrite ent_tab2 by lia. rewrite Rmult_1_r. reflexivity.
  Qed.

  Definition run (m : model_t) (s : train_state) : Prop := trains junk sfmin x T (start T N junk m) s.
  Lemma run_inv m s1 f : model_ok L N m -> positive_model N m -> cov_ok L m ->
    train_step junk sfmin x T (start T N junk m) = OK s1 -> data_likelihood x 1 (s_model s1) f ->
    forall s, run m s -> good s /\ 0 <= s_iter s <= 50 /\ (s_iter s = 0 -> s = start T N junk m) /\ (s_iter s = 1 -> s = s1) /\
      (1 <= s_iter s -> forall l, data_likelihood x T (s_model s) l -> (s_ll s <= ln l)%R) /\
      (2 <= s_iter s -> (s_ll1 s <= s_ll s)%R /\ s_ll2 s = ln f).
  Proof.
    intros M P C E1 Df s R. induction R as [|s2 s3 R IH On E].
    - split; [apply (start_good T L N); auto|]. cbn [start s_iter]. splits; auto; intros; lia.
    - destruct IH as (G & I & I0 & I1 & I2 & I3).
      destruct (good_step x T L N HN HT HL Sx Sp junk sfmin s2 G) as (s' & E' & G' & Ei). rewrite E in E'. injection E' as <-.
      pose proof G as (Mg & Pg & _ & _ & Cg & _).
      destruct (good_likelihood x T L N HN HT HL junk sfmin (s_model s2) Mg Pg Cg) as (l & Dl & Lp).
      destruct (step_increases x T L N HN HT HL Sx Sp junk sfmin s2 s3 G E l Dl) as (LL & LL1 & Inc).
      assert (B : s_iter s2 < 50).
      { unfold train_on in On. apply andb_prop in On. destruct On as [On _]. apply andb_prop in On. destruct On as [On _]. now apply Z.ltb_lt in On. }
      split; [exact G'|]. split; [lia|]. split; [lia|]. split; [|split].
      + intros H. rewrite I0 in E by lia. rewrite E1 in E. now injection E.
      + intros _ l' Dl'. rewrite LL. specialize (Inc l' Dl'). destruct Inc as [Inc|Inc]; [left; now apply ln_increasing|right; now rewrite Inc].
      + intros H. split.
        * rewrite LL1, LL. apply I2; auto. lia.
        * destruct (Z.eq_dec (s_iter s2) 1) as [H1|H1].
          -- assert (s2 = s1) by auto. subst s2. rewrite (step_ll2 s1 s3 G E f Df). rewrite H1. reflexivity.
          -- destruct (good_likelihood x 1 L N HN ltac:(lia) HL junk sfmin (s_model s2) Mg Pg Cg) as (f2 & Df2 & _).
             rewrite (step_ll2 s2 s3 G E f2 Df2). destruct (Z.eqb_spec (s_iter s2 + 1) 2); [lia|]. apply I3. lia.
  Qed.

  (** The recorded likelihood of all observations is compared with that of the first: unless it exceeds it, training does not
      stop before the fiftieth iteration. *)
  Theorem stops_late m s1 f s l : model_ok L N m -> positive_model N m -> cov_ok L m ->
    train_step junk sfmin x T (start T N junk m) = OK s1 -> data_likelihood x 1 (s_model s1) f ->
    run m s -> train_on s = false -> data_likelihood x T (s_model s) l -> (l <= f)%R -> s_iter s = 50.
  Proof.
    intros M P C E1 Df R Off Dl Hl. destruct (run_inv m s1 f M P C E1 Df s R) as (G & I & _ & _ & I2 & I3).
    destruct (Z.eq_dec (s_iter s) 50) as [|H]; auto. exfalso.
    pose proof G as (Mg & Pg & _ & _ & Cg & Nan).
    destruct (good_likelihood x T L N HN HT HL junk sfmin (s_model s) Mg Pg Cg) as (l' & Dl' & Lp).
    rewrite (data_likelihood_unique x T (s_model s) l' l) in Lp by (auto; lia).
    unfold train_on in Off. rewrite Nan in Off. destruct (Z.ltb_spec (s_iter s) 50); [|lia]. cbn [negb andb] in Off.
    destruct (Z.ltb_spec 1 (s_iter s)); cbn [andb negb] in Off; [|discriminate].
    destruct (I3 ltac:(lia)) as (A & B). specialize (I2 ltac:(lia) l Dl). rewrite B in Off.
    assert (ln l <= ln f)%R by (destruct Hl as [Hl|Hl]; [left; now apply ln_increasing|right; now rewrite Hl]).
    destruct (Rltb (s_ll s - s_ll1 s) (1 / 10000 * (s_ll1 s - ln f))) eqn:Q; [|discriminate]. apply Rltb_true in Q. lra.
  Qed.
End Stop.
