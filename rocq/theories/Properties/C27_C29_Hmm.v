(** C27-C29, C55-C57: hidden Markov models (hmm/hmm.c).  Exact reals; logarithms of zero are minus
    infinity in decoding.  The covariance is inverted by the LAPACK code, as modelled in Lapack/. *)
From Coq Require Import List ZArith Reals Lia Lra Bool.
From Verif.Base Require Import Imp RealOps Matrix.
From Verif.Lapack Require Import LapackSpec LapackResults.
From Verif.Hmm Require Import HmmModel HmmSpec HmmFb HmmTrain HmmTrainProofs HmmViterbi HmmInit HmmResults.
Import ListNotations.
Open Scope Z_scope.

(** viterbi_decode writes, in the first T places of q and nowhere else, a state sequence whose joint
    probability with the observations is largest, for every regular covariance.  Probabilities may be zero. *)
Theorem C27_viterbi_most_probable :
  forall (junk : R) (junkZ : Z) (sfmin : R) (x : list (list R)) (T L N : Z),
    1 <= N -> 1 <= T -> 1 <= L -> shape T L x ->
    forall m, model_ok L N m -> nonneg N (zn 0%R (mp0 m)) -> nonneg2 N N (ent 0%R (ma m)) ->
    forall q, T <= zlen q -> let d := det (Z.to_nat L) (ent 0%R (mcov m)) in d <> 0%R ->
    exists q' ic, viterbi_decode junk sfmin junkZ x T m q = OK q' /\ zlen q' = zlen q /\
      Forall (fun i => 0 <= i < N) (firstn (Z.to_nat T) q') /\ skipn (Z.to_nat T) q' = skipn (Z.to_nat T) q /\
      inverse_of L (ent 0%R (mcov m)) (ent 0%R ic) /\
      let w := weight (zn 0%R (mp0 m)) (ent 0%R (ma m)) (probs x L m ic (Rabs d)) in
      forall s, zlen s = T -> Forall (fun i => 0 <= i < N) s -> (w s <= w (firstn (Z.to_nat T) q'))%R.
Proof. exact viterbi_decode_best. Qed.
Print Assumptions C27_viterbi_most_probable.
(** With a singular covariance every observation is decoded as state 0. *)
Theorem C27_viterbi_singular :
  forall junk junkZ sfmin x T L N m q, 1 <= N -> 1 <= T -> 1 <= L -> model_ok L N m -> positive_model N m ->
  T <= zlen q -> det (Z.to_nat L) (ent 0%R (mcov m)) = 0%R ->
  exists q', viterbi_decode junk sfmin junkZ x T m q = OK q' /\ zlen q' = zlen q /\
    (forall t, 0 <= t < T -> zn 0 q' t = 0) /\ (forall t, T <= t -> zn 0 q' t = zn 0 q t).
Proof. exact viterbi_decode_singular. Qed.
Print Assumptions C27_viterbi_singular.
Ltac ev := cbn; change (Pos.to_nat 1) with 1%nat; cbn.
(** Two dimensions which are always equal. *)
Example C27_singular_case : exists q', viterbi_decode 0%R 0%R 7 [[1%R; 1%R]; [5%R; 5%R]] 2
    (Model 2 2 [1 / 2; 1 / 2]%R [[1 / 3; 2 / 3]; [1 / 2; 1 / 2]]%R [[1; 1]; [5; 5]]%R [[4; 4]; [4; 4]]%R) [9; 9; 9] = OK q' /\
  zn 0 q' 0 = 0 /\ zn 0 q' 1 = 0 /\ zn 0 q' 2 = 9.
Proof.
  assert (Two : forall f : Z -> R, rsum 2 f = (f 0%Z + f 1%Z)%R).
  { intros f. change 2 with (1 + 1). rewrite rsum_S by lia. change 1 with (0 + 1) at 1. rewrite rsum_S by lia. rewrite rsum_0 by lia. lra. }
  assert (Cs : forall i, 0 <= i < 2 -> i = 0 \/ i = 1) by (intros; lia).
  assert (Sh : forall a b c d : R, shape 2 2 [[a; b]; [c; d]]) by (intros; split; [reflexivity|]; intros i Hi; destruct (Cs i Hi) as [->| ->]; reflexivity).
  edestruct (C27_viterbi_singular 0%R 7 0%R [[1%R; 1%R]; [5%R; 5%R]] 2 2 2) as (q' & E & _ & V & O).
  8: { exists q'. split; [exact E|]. split; [apply V; lia|]. split; [apply V; lia|]. rewrite O by lia. reflexivity. }
  all: try lia; try reflexivity.
  - unfold model_ok. repeat split; try reflexivity; try apply Sh.
  - unfold positive_model. cbn [mp0 ma]. repeat split.
    + intros i Hi. destruct (Cs i Hi) as [->| ->]; ev; lra.
    + rewrite Two. ev; lra.
    + intros i j Hi Hj. destruct (Cs i Hi) as [->| ->], (Cs j Hj) as [->| ->]; ev; lra.
    + intros i Hi. rewrite Two. destruct (Cs i Hi) as [->| ->]; ev; lra.
  - zl. lia.
  - refine (eq_trans (det_2 _) _). ev; lra.
Qed.

(** The same for any arithmetic whose addition is monotone in its first argument (so for rounded addition):
    the sequence has the largest score, added up from left to right. *)
Theorem C27_viterbi_any_arithmetic :
  forall (P S : Type) (lg : P -> S) (add : S -> S -> S) (gtb : S -> S -> bool) (le : S -> S -> Prop),
    (forall x, le x x) -> (forall x y z, le x y -> le y z -> le x z) ->
    (forall x y, gtb x y = true -> le y x) -> (forall x y, gtb x y = false -> le x y) ->
    (forall x y z, le x y -> le (add x z) (add y z)) ->
    forall (low junk : S) (junkZ : Z) (dP : P) (N T : Z) (p0 : list P) (a : list (list P)) (logb : list (list S)),
    1 <= N -> 1 <= T -> zlen p0 = N -> shape N N a -> shape T N logb ->
    forall q, T <= zlen q ->
    exists q', viterbi_core lg add gtb low junk junkZ N T p0 a logb q = OK q' /\ zlen q' = zlen q /\
      states N T (zn 0 q') /\ (forall t, T <= t -> zn 0 q' t = zn 0 q t) /\
      let score := fun s => value add (fun i => lg (zn dP p0 i)) (fun i j => lg (ent dP a i j)) (ent junk logb) s (Z.to_nat (T - 1)) in
      forall s, states N T s -> le (score s) (score (zn 0 q')).
Proof. exact @viterbi_best. Qed.
Print Assumptions C27_viterbi_any_arithmetic.

(** Two states which cannot be left, started in the second: integer scores. *)
Example C27_case : viterbi_core (fun z : Z => z) Z.add Z.gtb (-1000000) 0 0 2 3 [0; 0] [[0; -5]; [-5; 0]]
  [[0; -1]; [-4; 0]; [-3; -2]] [9; 9; 9; 9] = OK [1; 1; 1; 9].
Proof. reflexivity. Qed.

(** forward_backwards leaves exactly the posterior probabilities of the states and of the transitions given
    all observations, and the logarithm of the likelihood; so they are distributions with the right marginals. *)
Theorem C28_posteriors :
  forall junk N T p0 a b gamma xi ll ll1 ll2 iter, 1 <= N -> 1 <= T ->
    zlen p0 = N -> shape N N a -> shape T N b -> shape T N gamma -> xi_ok N T xi ->
    nonneg N (zn 0%R p0) -> nonneg2 N N (ent 0%R a) -> nonneg2 T N (ent 0%R b) ->
    let P := in_state (zn 0%R p0) (ent 0%R a) (ent 0%R b) N T in
    let PP := in_states (zn 0%R p0) (ent 0%R a) (ent 0%R b) N T in
    let lik := likelihood (zn 0%R p0) (ent 0%R a) (ent 0%R b) N T in
    (0 < lik)%R ->
    exists xi' gamma' l1 l2, forward_backwards junk xi gamma ll ll1 ll2 iter N T p0 a b = OK (xi', gamma', (ln lik, l1, l2)) /\
      shape T N gamma' /\ xi_ok N T xi' /\ l1 = ll /\
      (forall t i, 0 <= t < T -> 0 <= i < N -> ent 0%R gamma' t i = P t i) /\
      (forall t i j, 0 <= t < T - 1 -> 0 <= i < N -> 0 <= j < N -> ent 0%R (zn [] xi' t) i j = PP t i j) /\
      (forall t, 0 <= t < T -> distribution_on N (ent 0%R gamma' t)) /\
      (forall t, 0 <= t < T - 1 -> rsum N (fun i => rsum N (ent 0%R (zn [] xi' t) i)) = 1%R) /\
      (forall t i j, 0 <= t < T - 1 -> 0 <= i < N -> 0 <= j < N -> (0 <= ent 0%R (zn [] xi' t) i j)%R) /\
      (forall t i, 0 <= t < T - 1 -> 0 <= i < N -> rsum N (ent 0%R (zn [] xi' t) i) = ent 0%R gamma' t i) /\
      (forall t j, 0 <= t < T - 1 -> 0 <= j < N -> rsum N (fun i => ent 0%R (zn [] xi' t) i j) = ent 0%R gamma' (t + 1) j).
Proof. exact posteriors_of_states. Qed.
Print Assumptions C28_posteriors.

(** Two states, two observations, the first one possible only in state 0. *)
Lemma two2 (f : Z -> R) : rsum 2 f = (f 0%Z + f 1%Z)%R.
Proof. change 2 with (1 + 1). rewrite rsum_S by lia. change 1 with (0 + 1) at 1. rewrite rsum_S by lia. rewrite rsum_0 by lia. lra. Qed.
Lemma range2 i : 0 <= i < 2 -> i = 0 \/ i = 1.
Proof. lia. Qed.
Definition ex_p : list R := [1 / 2; 1 / 2]%R.
Definition ex_a : list (list R) := [[3 / 4; 1 / 4]; [1 / 4; 3 / 4]]%R.
Definition ex_b : list (list R) := [[1; 0]; [1; 2]]%R.
Lemma ex_shape (r1 r2 : list R) : zlen r1 = 2 -> zlen r2 = 2 -> shape 2 2 [r1; r2].
Proof. intros H1 H2. split; [reflexivity|]. intros i Hi. destruct (range2 i Hi) as [->| ->]; auto. Qed.
Lemma ex_xi : xi_ok 2 2 [ex_a; ex_a].
Proof. split; [reflexivity|]. intros i Hi. destruct (range2 i Hi) as [->| ->]; now apply ex_shape. Qed.
Example C28_case : exists xi' gamma' ls, forward_backwards 0%R [ex_a; ex_a] ex_b 0%R 0%R 0%R 1 2 2 ex_p ex_a ex_b = OK (xi', gamma', ls) /\
  ent 0%R gamma' 0 0 = 1%R /\ ent 0%R gamma' 1 1 = (2 / 5)%R.
Proof.
  assert (W : forall q0 q1, weight (zn 0%R ex_p) (ent 0%R ex_a) (ent 0%R ex_b) [q0; q1] =
    (zn 0 ex_p q0 * ent 0 ex_b 0 q0 * (ent 0 ex_a q0 q1 * ent 0 ex_b 1 q1 * 1))%R) by reflexivity.
  assert (EL : likelihood (zn 0%R ex_p) (ent 0%R ex_a) (ent 0%R ex_b) 2 2 = (5 / 8)%R).
  { unfold likelihood. change (Z.to_nat 2) with 2%nat. cbn [psum]. rewrite !two2, !W. ev; lra. }
  destruct (C28_posteriors 0%R 2 2 ex_p ex_a ex_b ex_b [ex_a; ex_a] 0%R 0%R 0%R 1) as (xi' & gamma' & l1 & l2 & E & _ & _ & _ & G & _).
  all: try lia; try reflexivity; try (now apply ex_shape); try exact ex_xi.
  - intros i Hi. destruct (range2 i Hi) as [->| ->]; ev; lra.
  - intros i j Hi Hj. destruct (range2 i Hi) as [->| ->], (range2 j Hj) as [->| ->]; ev; lra.
  - intros i j Hi Hj. destruct (range2 i Hi) as [->| ->], (range2 j Hj) as [->| ->]; ev; lra.
  - rewrite EL. lra.
  - exists xi', gamma'. eexists. split; [exact E|]. split; rewrite G by lia; unfold in_state; rewrite EL;
      change (Z.to_nat 2) with 2%nat; cbn [psum]; rewrite !two2, !W; ev; lra.
Qed.

(** baum_welch: from posteriors with the marginals of C28, new initial probabilities are a distribution and
    so is every new row of the transition matrix, for each state possible before the last observation; rows
    of other states become zero. *)
Theorem C29_baum_welch_stochastic :
  forall junk N T L p0 a mu cov x xi gamma, 1 <= N -> 1 <= T -> 0 <= L ->
    zlen p0 = N -> shape N N a -> shape N L mu -> shape L L cov -> shape T L x -> xi_ok N T xi -> shape T N gamma ->
    (forall t, 0 <= t < T -> distribution_on N (ent 0%R gamma t)) ->
    (forall t i j, 0 <= t < T - 1 -> 0 <= i < N -> 0 <= j < N -> (0 <= ent 0%R (zn [] xi t) i j)%R) ->
    (forall t i, 0 <= t < T - 1 -> 0 <= i < N -> rsum N (ent 0%R (zn [] xi t) i) = ent 0%R gamma t i) ->
    exists p0' a' mu' cov', baum_welch junk p0 a mu cov N T L x xi gamma = OK (p0', a', mu', cov') /\
      zlen p0' = N /\ shape N N a' /\ shape N L mu' /\ shape L L cov' /\
      distribution_on N (zn 0%R p0') /\
      (forall i, 0 <= i < N -> (exists t, 0 <= t < T - 1 /\ ent 0%R gamma t i <> 0%R) -> distribution_on N (ent 0%R a' i)) /\
      (forall i, 0 <= i < N -> (forall t, 0 <= t < T - 1 -> ent 0%R gamma t i = 0%R) -> forall j, 0 <= j < N -> ent 0%R a' i j = 0%R).
Proof.
  intros junk N T L p0 a mu cov x xi gamma H1 H2 H3 H4 H5 H6 H7 H8 H9 H10 H11 H12 H13.
  destruct (baum_welch_stochastic junk N T L p0 a mu cov x xi gamma H1 H2 H3 H4 H5 H6 H7 H8 H9 H10 H11 H12 H13)
    as (p0' & a' & mu' & cov' & A1 & A2 & A3 & A4 & A5 & A6 & A7 & A8 & _).
  exists p0', a', mu', cov'. exact (conj A1 (conj A2 (conj A3 (conj A4 (conj A5 (conj A6 (conj A7 A8))))))).
Qed.
Print Assumptions C29_baum_welch_stochastic.

(** A single observation: every row becomes zero. *)
Theorem C29_zero_occupancy_refuted : exists p0 a mu cov x xi gamma p0' a' mu' cov',
  baum_welch 0%R p0 a mu cov 1 1 1 x xi gamma = OK (p0', a', mu', cov') /\ distribution_on 1 (ent 0%R gamma 0) /\
  ~ distribution_on 1 (ent 0%R a' 0).
Proof.
  assert (One : forall f : Z -> R, rsum 1 f = f 0%Z) by (intros f; change 1 with (0 + 1) at 1; rewrite rsum_S by lia; rewrite rsum_0 by lia; lra).
  assert (S1 : forall v : R, shape 1 1 [[v]]) by (intros v; split; [reflexivity|]; intros i Hi; now replace i with 0 by lia).
  assert (D1 : forall t, 0 <= t < 1 -> distribution_on 1 (ent 0%R [[1%R]] t)).
  { intros t Ht. replace t with 0 by lia. split; [|rewrite One; reflexivity]. intros i Hi. replace i with 0 by lia. cbn. lra. }
  destruct (C29_baum_welch_stochastic 0%R 1 1 1 [1%R] [[1%R]] [[0%R]] [[1%R]] [[3%R]] [[[1%R]]] [[1%R]])
    as (p0' & a' & mu' & cov' & E & _ & _ & _ & _ & _ & _ & Z); auto; try lia.
  - split; [reflexivity|]. intros t Ht. replace t with 0 by lia. apply S1.
  - do 7 eexists. exists p0', a', mu', cov'. split; [exact E|]. split; [apply D1; lia|].
    intros [_ H]. rewrite One in H. rewrite Z in H by (try lia; intros; lia). lra.
Qed.
Print Assumptions C29_zero_occupancy_refuted.

(** C55: one round of forward_backwards and baum_welch does not lower the likelihood of the observations, with the
    densities b fixed: the new initial and transition probabilities explain them at least as well. *)
Theorem C55_reestimation_no_worse :
  forall junk N T L p0 a b mu cov x gamma xi ll ll1 ll2 iter, 1 <= N -> 1 <= T -> 0 <= L ->
    zlen p0 = N -> shape N N a -> shape T N b -> shape N L mu -> shape L L cov -> shape T L x -> shape T N gamma -> xi_ok N T xi ->
    distribution_on N (zn 0%R p0) -> nonneg2 N N (ent 0%R a) -> (forall i, 0 <= i < N -> (rsum N (ent 0%R a i) <= 1)%R) -> nonneg2 T N (ent 0%R b) ->
    (0 < likelihood (zn 0%R p0) (ent 0%R a) (ent 0%R b) N T)%R ->
    exists xi' gamma' ls p0' a' mu' cov',
      forward_backwards junk xi gamma ll ll1 ll2 iter N T p0 a b = OK (xi', gamma', ls) /\
      baum_welch junk p0 a mu cov N T L x xi' gamma' = OK (p0', a', mu', cov') /\
      (likelihood (zn 0%R p0) (ent 0%R a) (ent 0%R b) N T <= likelihood (zn 0%R p0') (ent 0%R a') (ent 0%R b) N T)%R.
Proof. exact reestimation_no_worse. Qed.
Print Assumptions C55_reestimation_no_worse.

(** C56: hmm_init returns a model with positive probabilities summing to one, whatever rand() returns; means within
    a quarter of a standard deviation of the mean of the data; diagonal covariance of sample variances. *)
Theorem C56_hmm_init :
  forall (junk : R) (rnd : Z -> R) (x : list (list R)) (T L N : Z), 1 <= T -> 0 <= L -> 1 <= N -> shape T L x ->
    (forall k, (0 <= rnd k <= 1)%R) ->
    exists m, hmm_init junk rnd x T L N = OK m /\ model_ok L N m /\ positive_model N m /\
      (forall i d, 0 <= i < N -> 0 <= d < L -> (Rabs (ent 0 (mmu m) i d - mean x T d) <= sqrt (variance x T d) / 4)%R) /\
      (forall d e, 0 <= d < L -> 0 <= e < L -> ent 0%R (mcov m) d e = if d =? e then variance x T d else 0%R).
Proof. exact hmm_init_ok. Qed.
Print Assumptions C56_hmm_init.

(** hmm_train ends and keeps the model stochastic and positive, for at least two observations, over all its iterations. *)
Theorem C56_hmm_train_stochastic :
  forall (junk sfmin : R) (x : list (list R)) (T L N : Z),
    1 <= N -> 1 <= T -> 1 <= L -> shape T L x ->
    forall m m', 2 <= T -> model_ok L N m -> positive_model N m -> hmm_train junk sfmin x T m = OK m' ->
    model_ok L N m' /\ positive_model N m'.
Proof. exact hmm_train_positive. Qed.
Print Assumptions C56_hmm_train_stochastic.
Theorem C56_hmm_train_terminates :
  forall (junk sfmin : R) (x : list (list R)) (T L N : Z),
    1 <= N -> 1 <= T -> 1 <= L -> shape T L x ->
    forall m, model_ok L N m -> positive_model N m -> 2 <= T -> exists m', hmm_train junk sfmin x T m = OK m'.
Proof. exact hmm_train_terminates. Qed.
Print Assumptions C56_hmm_train_terminates.

(** Both together: from initialisation on any data. *)
Example C56_case : exists m m', hmm_init 0%R (fun _ => 1%R) [[1%R]; [2%R]; [4%R]] 3 1 2 = OK m /\
  hmm_train 0%R 0%R [[1%R]; [2%R]; [4%R]] 3 m = OK m' /\ positive_model 2 m'.
Proof.
  assert (Sx : shape 3 1 [[1%R]; [2%R]; [4%R]]).
  { split; [reflexivity|]. intros i Hi. assert (i = 0 \/ i = 1 \/ i = 2) as [->|[->| ->]] by lia; reflexivity. }
  destruct (C56_hmm_init 0%R (fun _ => 1%R) [[1%R]; [2%R]; [4%R]] 3 1 2) as (m & E & M & P & _); auto; try lia; [intros; lra|].
  destruct (C56_hmm_train_terminates 0%R 0%R [[1%R]; [2%R]; [4%R]] 3 1 2) with (m := m) as (m' & E'); auto; try lia.
  exists m, m'. split; [exact E|]. split; [exact E'|].
  destruct (C56_hmm_train_stochastic 0%R 0%R [[1%R]; [2%R]; [4%R]] 3 1 2) with (m := m) (m' := m'); auto; lia.
Qed.

(** C57: baum_welch: the new means lie within the range of the data in each dimension, for each state possible at some
    time, and the new covariance is symmetric and positive semidefinite. *)
Theorem C57_means_and_covariance :
  forall junk N T L p0 a mu cov x xi gamma, 1 <= N -> 1 <= T -> 0 <= L ->
    zlen p0 = N -> shape N N a -> shape N L mu -> shape L L cov -> shape T L x -> xi_ok N T xi -> shape T N gamma ->
    (forall t, 0 <= t < T -> distribution_on N (ent 0%R gamma t)) ->
    (forall t i j, 0 <= t < T - 1 -> 0 <= i < N -> 0 <= j < N -> (0 <= ent 0%R (zn [] xi t) i j)%R) ->
    (forall t i, 0 <= t < T - 1 -> 0 <= i < N -> rsum N (ent 0%R (zn [] xi t) i) = ent 0%R gamma t i) ->
    exists p0' a' mu' cov', baum_welch junk p0 a mu cov N T L x xi gamma = OK (p0', a', mu', cov') /\
      shape N L mu' /\ shape L L cov' /\
      (forall j d lo hi, 0 <= j < N -> 0 <= d < L -> (exists t, 0 <= t < T /\ ent 0%R gamma t j <> 0%R) ->
        (forall t, 0 <= t < T -> (lo <= ent 0 x t d <= hi)%R) -> (lo <= ent 0 mu' j d <= hi)%R) /\
      (forall d e, 0 <= d < L -> 0 <= e < L -> ent 0%R cov' d e = ent 0%R cov' e d) /\
      (forall v, (0 <= rsum L (fun d => rsum L (fun e => v d * ent 0 cov' d e * v e)))%R).
Proof.
  intros junk N T L p0 a mu cov x xi gamma H1 H2 H3 H4 H5 H6 H7 H8 H9 H10 H11 H12 H13.
  destruct (baum_welch_stochastic junk N T L p0 a mu cov x xi gamma H1 H2 H3 H4 H5 H6 H7 H8 H9 H10 H11 H12 H13)
    as (p0' & a' & mu' & cov' & A1 & _ & _ & A4 & A5 & _ & _ & _ & A9 & A10 & A11).
  exists p0', a', mu', cov'. exact (conj A1 (conj A4 (conj A5 (conj A9 (conj A10 A11))))).
Qed.
Print Assumptions C57_means_and_covariance.

(** The two density functions of the file agree: gauss is the exponential of loggauss. *)
Theorem C57_gauss_loggauss :
  forall x L mu icov det y z, 0 <= L -> zlen x = L -> zlen mu = L -> shape L L icov -> zlen y = L -> zlen z = L -> (0 < det)%R ->
    exists v w, gauss x L mu icov det y z = OK v /\ loggauss x L mu icov det y z = OK w /\ v = exp w.
Proof. exact gauss_loggauss. Qed.
Print Assumptions C57_gauss_loggauss.
