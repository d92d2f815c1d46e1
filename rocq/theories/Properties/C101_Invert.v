(** C101-C103: inversion of covariance matrices (hmm/hmm.c over ext/clapack, ext/cblas), exact reals. *)
From Coq Require Import List ZArith Reals Lia Lra Bool.
From Verif.Base Require Import Imp RealOps Matrix.
From Verif.Lapack Require Import LapackModel LapackSpec DetFacts LapackResults.
From Verif.Hmm Require Import HmmSpec HmmTrain HmmTrainProofs HmmPosdef.
Import ListNotations.
Open Scope Z_scope.

(** C101: for every regular matrix of any size, so below and above the block size of the LAPACK routines, invert returns
    the inverse on both sides and the absolute value of the determinant; and regular means having an inverse. *)
Theorem C101_invert :
  forall sfmin junk L cov icov, 1 <= L -> shape L L cov -> shape L L icov -> det (Z.to_nat L) (ent 0%R cov) <> 0%R ->
    exists icov', invert sfmin junk cov L icov = OK (icov', Rabs (det (Z.to_nat L) (ent 0%R cov))) /\ shape L L icov' /\
      inverse_of L (ent 0%R cov) (ent 0%R icov').
Proof. exact invert_regular. Qed.
Print Assumptions C101_invert.
Theorem C101_regular :
  forall n A, 1 <= n -> (invertible n A <-> det (Z.to_nat n) A <> 0%R).
Proof. exact invertible_iff_det. Qed.
Print Assumptions C101_regular.
Theorem C101_unique :
  forall n A B B', inverse_of n A B -> inverse_of n A B' -> forall i j, 0 <= i < n -> 0 <= j < n -> B i j = B' i j.
Proof. exact inverse_unique. Qed.
Print Assumptions C101_unique.

(** A matrix whose rows have to be exchanged: the inverse of (0 2; 3 1) is (-1/6 1/3; 1/2 0). *)
Lemma two_sum (f : Z -> R) : rsum 2 f = (f 0%Z + f 1%Z)%R.
Proof. change 2 with (1 + 1). rewrite rsum_S by lia. change 1 with (0 + 1) at 1. rewrite rsum_S by lia. rewrite rsum_0 by lia. lra. Qed.
Lemma two_cases i : 0 <= i < 2 -> i = 0 \/ i = 1.
Proof. lia. Qed.
Lemma two_shape (a b c d : R) : shape 2 2 [[a; b]; [c; d]].
Proof. split; [reflexivity|]. intros i Hi. destruct (two_cases i Hi) as [->| ->]; reflexivity. Qed.
Ltac ev := cbn; change (Pos.to_nat 1) with 1%nat; cbn.
Example C101_case : forall sfmin junk, exists icov', invert sfmin junk [[0; 2]; [3; 1]]%R 2 [[7; 7]; [7; 7]]%R = OK (icov', 6%R) /\
  ent 0%R icov' 0 0 = (- (1 / 6))%R /\ ent 0%R icov' 0 1 = (1 / 3)%R /\ ent 0%R icov' 1 0 = (1 / 2)%R /\ ent 0%R icov' 1 1 = 0%R.
Proof.
  intros sfmin junk.
  assert (D : det (Z.to_nat 2) (ent 0%R [[0; 2]; [3; 1]]%R) = (-6)%R) by (refine (eq_trans (det_2 _) _); ev; lra).
  destruct (C101_invert sfmin junk 2 [[0; 2]; [3; 1]]%R [[7; 7]; [7; 7]]%R) as (ic & E & _ & I); try apply two_shape; try lia.
  - rewrite D. lra.
  - exists ic. rewrite E, D. rewrite Rabs_left by lra. split; [do 2 f_equal; lra|].
    assert (J : inverse_of 2 (ent 0%R [[0; 2]; [3; 1]]%R) (ent 0%R [[- (1 / 6); 1 / 3]; [1 / 2; 0]]%R)).
    { intros i j Hi Hj. rewrite !two_sum. split; destruct (two_cases i Hi) as [->| ->], (two_cases j Hj) as [->| ->]; unfold delta; ev; lra. }
    pose proof (C101_unique _ _ _ _ I J) as U. repeat split; rewrite U by lia; reflexivity.
Qed.
(** Triangular matrices of every size, so also ones larger than a block: a hundred rows. *)
Definition triangle (i j : Z) : R := (if i =? j then 2 else if i <? j then 1 else 0)%R.
Lemma triangle_inverted sfmin junk L : 1 <= L -> exists icov',
  invert sfmin junk (tab2 L L triangle) L (tab2 L L (fun _ _ => 0%R)) = OK (icov', Rabs (pprod (Z.to_nat L) (fun _ => 2%R))) /\
  inverse_of L (ent 0%R (tab2 L L triangle)) (ent 0%R icov').
Proof.
  intros HL. assert (D : det (Z.to_nat L) (ent 0%R (tab2 L L triangle)) = pprod (Z.to_nat L) (fun _ => 2%R)).
  { rewrite det_tab2 by lia. rewrite det_upper.
    - f_equal. apply FunctionalExtensionality.functional_extensionality. intros i. unfold triangle. now rewrite Z.eqb_refl.
    - intros i j Hj Hi. unfold triangle. destruct (Z.eqb_spec i j); [lia|]. destruct (Z.ltb_spec i j); [lia|reflexivity]. }
  destruct (C101_invert sfmin junk L (tab2 L L triangle) (tab2 L L (fun _ _ => 0%R))) as (ic & E & _ & I); auto; try (apply shape_tab2; lia).
  - rewrite D. intros C. apply pprod_zero in C. destruct C as (c & _ & C). lra.
  - exists ic. split; [rewrite E, D; reflexivity|exact I].
Qed.
Example C101_blocked_case : forall sfmin junk, exists icov',
  invert sfmin junk (tab2 100 100 triangle) 100 (tab2 100 100 (fun _ _ => 0%R)) = OK (icov', Rabs (pprod (Z.to_nat 100) (fun _ => 2%R))) /\
  inverse_of 100 (ent 0%R (tab2 100 100 triangle)) (ent 0%R icov').
Proof. intros sfmin junk. apply triangle_inverted. lia. Qed.

(** C102: a singular matrix should be reported.  It never is: the process is not ended, and what is stored is not an inverse. *)
Theorem C102_never_exits :
  forall sfmin junk L cov icov, 1 <= L -> shape L L cov -> shape L L icov ->
    exists icov', invert sfmin junk cov L icov = OK (icov', Rabs (det (Z.to_nat L) (ent 0%R cov))) /\ shape L L icov'.
Proof. exact invert_always. Qed.
Print Assumptions C102_never_exits.
Theorem C102_singular_reported_refuted : exists sfmin junk cov icov icov' d,
  shape 2 2 cov /\ shape 2 2 icov /\ ~ invertible 2 (ent 0%R cov) /\ invert sfmin junk cov 2 icov = OK (icov', d).
Proof.
  exists 0%R, 0%R, [[1; 2]; [2; 4]]%R, [[7; 7]; [7; 7]]%R.
  destruct (C102_never_exits 0%R 0%R 2 [[1; 2]; [2; 4]]%R [[7; 7]; [7; 7]]%R) as (ic & E & _); try apply two_shape; try lia.
  eexists ic, _. split; [apply two_shape|]. split; [apply two_shape|]. split; [|exact E].
  intros I. apply C101_regular in I; [|lia]. apply I. refine (eq_trans (det_2 _) _). ev; lra.
Qed.
Print Assumptions C102_singular_reported_refuted.
(** What is true: the determinant returned is zero exactly for the singular matrices. *)
Theorem C102_zero_determinant_partial :
  forall sfmin junk L cov icov, 1 <= L -> shape L L cov -> shape L L icov ->
    exists icov' d, invert sfmin junk cov L icov = OK (icov', d) /\ (0 <= d)%R /\ (d = 0%R <-> ~ invertible L (ent 0%R cov)).
Proof.
  intros sfmin junk L cov icov HL S1 S2. destruct (C102_never_exits sfmin junk L cov icov HL S1 S2) as (ic & E & _).
  exists ic. eexists. split; [exact E|]. split; [apply Rabs_pos|]. rewrite C101_regular by auto. split.
  - intros Z I. now apply Rabs_no_R0 in I.
  - intros N. destruct (Req_dec (det (Z.to_nat L) (ent 0%R cov)) 0) as [->|C]; [apply Rabs_R0|contradiction].
Qed.
Print Assumptions C102_zero_determinant_partial.

(** C103: if the observations do not all lie in one hyperplane, then from initialisation on, whatever rand() returns, the
    covariance is symmetric and positive definite in every iteration of training and in the model it ends with; so
    every inversion succeeds, and training is never given up. *)
Theorem C103_initial :
  forall (x : list (list R)) (T L N : Z), 1 <= N -> 1 <= T -> 1 <= L -> shape T L x -> spread T L x ->
    forall junk rnd, (forall k, (0 <= rnd k <= 1)%R) ->
    exists m, hmm_init junk rnd x T L N = OK m /\ model_ok L N m /\ positive_model N m /\ cov_ok L m.
Proof. exact init_cov_ok. Qed.
Print Assumptions C103_initial.
Theorem C103_training :
  forall (x : list (list R)) (T L N : Z), 1 <= N -> 1 <= T -> 1 <= L -> shape T L x -> spread T L x ->
    forall junk sfmin m, model_ok L N m -> positive_model N m -> cov_ok L m ->
    (forall s, trains junk sfmin x T (start T N junk m) s -> cov_ok L (s_model s) /\ s_nan s = false) /\
    exists s, trains junk sfmin x T (start T N junk m) s /\ train_on s = false /\ hmm_train junk sfmin x T m = OK (s_model s) /\
      model_ok L N (s_model s) /\ positive_model N (s_model s) /\ cov_ok L (s_model s).
Proof. exact training_posdef. Qed.
Print Assumptions C103_training.
(** Positive definite matrices have a positive definite inverse, so distances from the means are positive. *)
Theorem C103_regular : forall n A, 1 <= n -> posdef n A -> det (Z.to_nat n) A <> 0%R.
Proof. exact posdef_det. Qed.
Print Assumptions C103_regular.
Theorem C103_inverse : forall n A B, posdef n A -> inverse_of n A B -> posdef n B.
Proof. exact posdef_inverse. Qed.
Print Assumptions C103_inverse.

(** Three points in the plane, not on a line. *)
Example C103_case : forall junk sfmin rnd, (forall k, (0 <= rnd k <= 1)%R) ->
  exists m m', hmm_init junk rnd [[0; 0]; [1; 0]; [0; 1]]%R 3 2 2 = OK m /\ hmm_train junk sfmin [[0; 0]; [1; 0]; [0; 1]]%R 3 m = OK m' /\ cov_ok 2 m'.
Proof.
  intros junk sfmin rnd R1. set (x := [[0; 0]; [1; 0]; [0; 1]]%R).
  assert (Sx : shape 3 2 x).
  { split; [reflexivity|]. intros i Hi. assert (i = 0 \/ i = 1 \/ i = 2) as [->|[->| ->]] by lia; reflexivity. }
  assert (Sp : spread 3 2 x).
  { intros v c (d & Hd & Nd). destruct (Req_dec c 0) as [->|Nc].
    - destruct (two_cases d Hd) as [->| ->]; [exists 1|exists 2]; (split; [lia|]); rewrite two_sum; unfold x, ent, zn; cbn [Z.ltb Z.compare Z.to_nat Pos.to_nat nth];
        change (Pos.to_nat 1) with 1%nat; change (Pos.to_nat 2) with 2%nat; cbn [nth]; intros C; apply Nd; lra.
    - exists 0. split; [lia|]. rewrite two_sum. unfold x. ev; lra. }
  destruct (C103_initial x 3 2 2) with (junk := junk) (rnd := rnd) as (m & E & M & P & C); auto; try lia.
  destruct (C103_training x 3 2 2) with (junk := junk) (sfmin := sfmin) (m := m) as (_ & s & _ & _ & E' & _ & _ & C'); auto; try lia.
  exists m, (s_model s). auto.
Qed.
