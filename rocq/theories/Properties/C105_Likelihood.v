(** C105, C106: training and the likelihood of the observations (hmm/hmm.c).  Exact reals. *)
From Coq Require Import List ZArith Reals Lia Lra Bool.
From Verif.Base Require Import Imp RealOps Matrix.
From Verif.Hmm Require Import HmmSpec HmmTrain HmmTrainProofs HmmPosdef HmmLikSpec HmmGauss HmmFixed.
Import ListNotations.
Open Scope Z_scope.

(** C105: the density of the observations is defined for each model training goes through, and no iteration lowers it, means and
    covariance included; hmm_train returns a model under which the observations are at least as likely as under the
    one it was given. *)
Theorem C105_training :
  forall (x : list (list R)) (T L N : Z), 1 <= N -> 1 <= T -> 1 <= L -> shape T L x -> spread T L x ->
    forall junk sfmin m, model_ok L N m -> positive_model N m -> cov_ok L m ->
    exists m' l l', hmm_train junk sfmin x T m = OK m' /\ data_likelihood x T m l /\ data_likelihood x T m' l' /\ (0 < l <= l')%R.
Proof.
  intros x T L N HN HT HL Sx Sp junk sfmin m M P C.
  destruct (training_posdef x T L N HN HT HL Sx Sp junk sfmin m M P C) as (_ & s & R & _ & E & M' & P' & C').
  destruct (good_likelihood x T L N HN HT HL junk sfmin m M P C) as (l & D & Pl).
  destruct (good_likelihood x T L N HN HT HL junk sfmin (s_model s) M' P' C') as (l' & D' & _).
  exists (s_model s), l, l'. split; [exact E|]. split; [exact D|]. split; [exact D'|]. split; [exact Pl|].
  apply (trains_increases x T L N HN HT HL Sx Sp junk sfmin (start T N junk m) s (start_good T L N HN HT junk m M P C) R l l' D D').
Qed.
Print Assumptions C105_training.
Theorem C105_iterations :
  forall (x : list (list R)) (T L N : Z), 1 <= N -> 1 <= T -> 1 <= L -> shape T L x -> spread T L x ->
    forall junk sfmin m, model_ok L N m -> positive_model N m -> cov_ok L m ->
    forall s s', trains junk sfmin x T (start T N junk m) s -> train_step junk sfmin x T s = OK s' ->
    exists l l', data_likelihood x T (s_model s) l /\ data_likelihood x T (s_model s') l' /\ (0 < l <= l')%R /\ s_ll s' = ln l.
Proof.
  intros x T L N HN HT HL Sx Sp junk sfmin m M P C s s' R E.
  pose proof (trains_good x T L N HN HT HL Sx Sp junk sfmin _ _ (start_good T L N HN HT junk m M P C) R) as G.
  destruct (good_step x T L N HN HT HL Sx Sp junk sfmin s G) as (s2 & E2 & G2 & _). rewrite E in E2. injection E2 as <-.
  destruct G as (M1 & P1 & G3 & G4 & C1 & G5). destruct G2 as (M2 & P2 & _ & _ & C2 & _).
  destruct (good_likelihood x T L N HN HT HL junk sfmin (s_model s) M1 P1 C1) as (l & D & Pl).
  destruct (good_likelihood x T L N HN HT HL junk sfmin (s_model s') M2 P2 C2) as (l' & D' & _).
  destruct (step_increases x T L N HN HT HL Sx Sp junk sfmin s s' (conj M1 (conj P1 (conj G3 (conj G4 (conj C1 G5))))) E l D) as (LL & _ & Inc).
  exists l, l'. split; [exact D|]. split; [exact D'|]. split; [split; [exact Pl|now apply Inc]|exact LL].
Qed.
Print Assumptions C105_iterations.
(** There is one such density. *)
Theorem C105_unique : forall x T m l l', 0 <= T -> data_likelihood x T m l -> data_likelihood x T m l' -> l = l'.
Proof. exact data_likelihood_unique. Qed.
Print Assumptions C105_unique.

(** Three points in the plane, two states, from the initial model of hmm_init. *)
Lemma plane_two (f : Z -> R) : rsum 2 f = (f 0%Z + f 1%Z)%R.
Proof. change 2 with (1 + 1). rewrite rsum_S by lia. change 1 with (0 + 1) at 1. rewrite rsum_S by lia. rewrite rsum_0 by lia. lra. Qed.
Definition plane : list (list R) := [[0; 0]; [1; 0]; [0; 1]]%R.
Lemma plane_shape : shape 3 2 plane.
Proof. split; [reflexivity|]. intros i Hi. assert (i = 0 \/ i = 1 \/ i = 2) as [->|[->| ->]] by lia; reflexivity. Qed.
Lemma plane_spread : spread 3 2 plane.
Proof.
  intros v c (d & Hd & Nd). destruct (Req_dec c 0) as [->|Nc].
  - assert (d = 0 \/ d = 1) as [->| ->] by lia; [exists 1|exists 2]; (split; [lia|]); rewrite plane_two; unfold plane, ent, zn;
      cbn [Z.ltb Z.compare Z.to_nat Pos.to_nat nth]; change (Pos.to_nat 1) with 1%nat; change (Pos.to_nat 2) with 2%nat; cbn [nth]; intros C; apply Nd; lra.
  - exists 0. split; [lia|]. rewrite plane_two. unfold plane. cbn. change (Pos.to_nat 1) with 1%nat. cbn. lra.
Qed.
Example C105_case : forall junk sfmin rnd, (forall k, (0 <= rnd k <= 1)%R) ->
  exists m m' l l', hmm_init junk rnd plane 3 2 2 = OK m /\ hmm_train junk sfmin plane 3 m = OK m' /\
    data_likelihood plane 3 m l /\ data_likelihood plane 3 m' l' /\ (0 < l <= l')%R.
Proof.
  intros junk sfmin rnd R1.
  destruct (init_cov_ok plane 3 2 2 ltac:(lia) ltac:(lia) ltac:(lia) plane_shape plane_spread junk rnd R1) as (m & E & M & P & C).
  destruct (C105_training plane 3 2 2 ltac:(lia) ltac:(lia) ltac:(lia) plane_shape plane_spread junk sfmin m M P C) as (m' & l & l' & E' & D & D' & Le).
  exists m, m', l, l'. auto.
Qed.

(** C106: training should stop when it no longer improves the model.  The criterion compares with the likelihood of the first
    observation alone: unless all observations together have a larger density than that one had in the second iteration, all
    fifty iterations are made. *)
Theorem C106_fifty_iterations :
  forall (x : list (list R)) (T L N : Z), 1 <= N -> 1 <= T -> 1 <= L -> shape T L x -> spread T L x ->
    forall junk sfmin m s1 first s l, model_ok L N m -> positive_model N m -> cov_ok L m ->
    train_step junk sfmin x T (start T N junk m) = OK s1 -> data_likelihood x 1 (s_model s1) first ->
    trains junk sfmin x T (start T N junk m) s -> train_on s = false -> data_likelihood x T (s_model s) l -> (l <= first)%R -> s_iter s = 50.
Proof. exact stops_late. Qed.
Print Assumptions C106_fifty_iterations.
(** Two observations and one state: fifty iterations, none of which changes the model. *)
Theorem C106_stops_refuted : exists x T m, shape T 1 x /\ spread T 1 x /\ model_ok 1 1 m /\ positive_model 1 m /\ cov_ok 1 m /\
  forall junk sfmin, (forall s, trains junk sfmin x T (start T 1 junk m) s -> s_model s = m) /\
    exists s, trains junk sfmin x T (start T 1 junk m) s /\ train_on s = false /\ hmm_train junk sfmin x T m = OK (s_model s) /\ s_iter s = 50.
Proof.
  exists fx, 2, fm. split; [exact fshape|]. split; [exact fspread|]. split; [exact fmodel|]. split; [exact fpositive|]. split; [exact fcov|].
  intros junk sfmin. split; [exact (fixed_runs junk sfmin)|exact (fixed_fifty junk sfmin)].
Qed.
Print Assumptions C106_stops_refuted.
