(** The covariance stays positive definite in training, for data not all in one hyperplane. *)
From Coq Require Import List ZArith Reals Lia Lra Bool.
From Verif.Base Require Import Imp RealOps Sums Loops Matrix.
From Verif.Lapack Require Import LapackSpec LapackResults.
From Verif.Hmm Require Import HmmModel HmmSpec HmmForward HmmFb HmmBaum HmmEm HmmTrain HmmTrainProofs HmmInit HmmResults.
Import ListNotations.
Open Scope Z_scope.

(** No direction and constant fit all observations. *)
Definition spread (T L : Z) (x : list (list R)) : Prop :=
  forall v c, (exists d, 0 <= d < L /\ v d <> 0%R) -> exists t, 0 <= t < T /\ rsum L (fun d => v d * ent 0 x t d)%R <> c.
Definition symmetric (n : Z) (A : Z -> Z -> R) : Prop := forall i j, 0 <= i < n -> 0 <= j < n -> A i j = A j i.

(** The states training goes through. *)
Inductive trains (junk sfmin : R) (x : list (list R)) (T : Z) (s : train_state) : train_state -> Prop :=
| tr_start : trains junk sfmin x T s s
| tr_step s1 s2 : trains junk sfmin x T s s1 -> train_on s1 = true -> train_step junk sfmin x T s1 = OK s2 -> trains junk sfmin x T s s2.

Lemma rsum_pos_some n f : (forall i, 0 <= i < n -> (0 <= f i)%R) -> (exists i, 0 <= i < n /\ (0 < f i)%R) -> (0 < rsum n f)%R.
Proof. intros H (i & Hi & P). pose proof (rsum_term n f i H Hi). lra. Qed.
Lemma rsum_square n (f : Z -> R) : (rsum n f * rsum n f)%R = rsum n (fun i => rsum n (fun j => f i * f j))%R.
Proof.
  rewrite (rsum_ext n (fun i => rsum n _) (fun i => rsum n f * f i)%R).
  - now rewrite rsum_scal.
  - intros i Hi. rewrite rsum_scal. ring.
Qed.
(** A sum of squares. *)
Lemma quadratic_cov N T L (g : Z -> Z -> R) (y : Z -> Z -> Z -> R) v : 1 <= T ->
  quadratic L (fun d e => rsum N (fun j => rsum T (fun t => g t j * y j t d * y j t e)) / IZR T)%R v =
  (rsum N (fun j => rsum T (fun t => g t j * (rsum L (fun d => v d * y j t d) * rsum L (fun d => v d * y j t d)))) / IZR T)%R.
Proof.
  intros HT. unfold quadratic.
  rewrite (rsum_ext L _ (fun d => / IZR T * rsum N (fun j => rsum T (fun t => rsum L (fun e => g t j * ((v d * y j t d) * (v e * y j t e))))))%R).
  2: { intros d Hd. rewrite (rsum_ext L _ (fun e => / IZR T * rsum N (fun j => rsum T (fun t => g t j * ((v d * y j t d) * (v e * y j t e)))))%R).
       - rewrite rsum_scal. f_equal. rewrite rsum_swap. apply rsum_ext. intros j Hj. apply rsum_swap.
       - intros e He. unfold Rdiv. rewrite (Rmult_comm (rsum N _) (/ IZR T)).
         transitivity (/ IZR T * (v d * v e * rsum N (fun j => rsum T (fun t => g t j * y j t d * y j t e))))%R; [ring|].
         f_equal. rewrite <- rsum_scal. apply rsum_ext. intros j Hj. rewrite <- rsum_scal. apply rsum_ext. intros t Ht. ring. }
  rewrite rsum_scal. unfold Rdiv. rewrite Rmult_comm. f_equal. rewrite rsum_swap. apply rsum_ext. intros j Hj.
  rewrite rsum_swap. apply rsum_ext. intros t Ht. rewrite rsum_square, <- rsum_scal. apply rsum_ext. intros d Hd.
  now rewrite rsum_scal.
Qed.

Section Posdef.
  Variables (x : list (list R)) (T L N : Z).
  Hypothesis HN : 1 <= N.
  Hypothesis HT : 1 <= T.
  Hypothesis HL : 1 <= L.
  Hypothesis Sx : shape T L x.
  Hypothesis Sp : spread T L x.

  Lemma new_cov_posdef (g mu : Z -> Z -> R) : (forall t j, 0 <= t < T -> 0 <= j < N -> (0 < g t j)%R) ->
    posdef L (fun d e => rsum N (fun j => rsum T (fun t => g t j * (ent 0 x t d - mu j d) * (ent 0 x t e - mu j e))) / IZR T)%R.
  Proof.
    intros G v Nv. rewrite (quadratic_cov N T L g (fun j t d => ent 0 x t d - mu j d)%R) by auto.
    apply Rdiv_lt_0_compat; [|apply IZR_lt; lia].
    destruct (Sp v (rsum L (fun d => v d * mu 0%Z d))%R Nv) as (t & Ht & Nt).
    assert (Sq : forall t j, 0 <= t < T -> 0 <= j < N ->
      (0 <= g t j * (rsum L (fun d => v d * (ent 0 x t d - mu j d)) * rsum L (fun d => v d * (ent 0 x t d - mu j d))))%R).
    { intros s j Hs Hj. apply Rmult_le_pos; [apply Rlt_le; auto|]. apply Rle_0_sqr. }
    apply rsum_pos_some.
    - intros j Hj. apply rsum_nonneg. intros s Hs. now apply Sq.
    - exists 0. split; [lia|]. apply rsum_pos_some; [intros s Hs; apply Sq; auto; lia|]. exists t. split; auto.
      apply Rmult_lt_0_compat; [apply G; auto; lia|]. apply Rlt_0_sqr.
      rewrite (rsum_ext L _ (fun d => v d * ent 0 x t d - v d * mu 0%Z d)%R) by (intros; ring). rewrite rsum_minus. lra.
  Qed.

  Lemma two_observations : 2 <= T.
  Proof.
    destruct (Z.eq_dec T 1) as [->|]; [|lia]. exfalso.
    destruct (Sp (fun _ => 1%R) (rsum L (fun d => 1 * ent 0 x 0%Z d))%R) as (t & Ht & Nt); [exists 0; split; [lia|lra]|].
    apply Nt. now replace t with 0 by lia.
  Qed.

  (** The variances hmm_init starts from. *)
  Lemma variance_pos d : 0 <= d < L -> (0 < variance x T d)%R.
  Proof.
    intros Hd. pose proof two_observations as H2.
    destruct (Sp (fun e => if e =? d then 1%R else 0%R) (mean x T d)) as (t & Ht & Nt); [exists d; rewrite Z.eqb_refl; split; auto; lra|].
    unfold variance. apply Rdiv_lt_0_compat; [|apply IZR_lt; lia].
    apply rsum_pos_some; [intros s Hs; apply Rle_0_sqr|]. exists t. split; auto. apply Rlt_0_sqr. intros C. apply Nt.
    assert (E : forall f : Z -> R, rsum L (fun e => (if e =? d then 1 else 0) * f e)%R = f d).
    { intros f. rewrite <- (LapackProofs.rsum_kron L d f) by auto. apply rsum_ext. intros k Hk. unfold LapackInv.kron.
      rewrite Z.eqb_sym. reflexivity. }
    rewrite (E (ent 0%R x t)). lra.
  Qed.
  Lemma diagonal_posdef (c : Z -> R) : (forall d, 0 <= d < L -> (0 < c d)%R) -> posdef L (fun d e => if d =? e then c d else 0%R).
  Proof.
    intros C v (d & Hd & Nd). unfold quadratic.
    rewrite (rsum_ext L _ (fun i => v i * v i * c i)%R).
    - apply rsum_pos_some.
      + intros i Hi. apply Rmult_le_pos; [apply Rle_0_sqr|apply Rlt_le; auto].
      + exists d. split; auto. apply Rmult_lt_0_compat; auto. now apply Rlt_0_sqr.
    - intros i Hi. rewrite (rsum_ext L _ (fun j => LapackInv.kron i j * (v i * c i * v j))%R).
      + rewrite LapackProofs.rsum_kron by auto. ring.
      + intros j Hj. unfold LapackInv.kron. destruct (i =? j); ring.
  Qed.
  Lemma posdef_ext A B : (forall i j, 0 <= i < L -> 0 <= j < L -> A i j = B i j) -> posdef L A -> posdef L B.
  Proof.
    intros E P v Nv. specialize (P v Nv). unfold quadratic in *. erewrite rsum_ext; [exact P|].
    intros i Hi. apply rsum_ext. intros j Hj. now rewrite E by auto.
  Qed.

  Definition cov_ok (m : model_t) : Prop := symmetric L (ent 0%R (mcov m)) /\ posdef L (ent 0%R (mcov m)).

  Theorem init_cov_ok junk rnd : (forall k, (0 <= rnd k <= 1)%R) ->
    exists m, hmm_init junk rnd x T L N = OK m /\ model_ok L N m /\ positive_model N m /\ cov_ok m.
  Proof.
    intros R1. destruct (hmm_init_ok junk rnd x T L N) as (m & E & M & P & _ & C); auto; try lia. exists m. splits; auto.
    split.
    - intros i j Hi Hj. rewrite !C by auto. rewrite (Z.eqb_sym j i). destruct (Z.eqb_spec i j); subst; auto.
    - apply (posdef_ext (fun d e => if d =? e then variance x T d else 0%R)); [intros; symmetry; now apply C|].
      apply diagonal_posdef. apply variance_pos.
  Qed.

  Variables junk sfmin : R.
  Definition good (s : train_state) : Prop :=
    model_ok L N (s_model s) /\ positive_model N (s_model s) /\ shape T N (s_gamma s) /\ xi_ok N T (s_xi s) /\ cov_ok (s_model s) /\ s_nan s = false.
  Lemma good_step s : good s -> exists s', train_step junk sfmin x T s = OK s' /\ good s' /\ s_iter s' = s_iter s + 1.
  Proof.
    intros (M & P & Sg & Sxi & (Sym & Pd) & Nan). assert (Sc : shape L L (mcov (s_model s))) by apply M.
    destruct (invert_cov_ok junk sfmin L HL _ Sc) as (ic & EI & _ & _).
    pose proof (posdef_det L _ HL Pd) as D0. apply Rabs_no_R0 in D0.
    destruct (train_step_ok junk sfmin x T L N HN HT HL Sx s M P Sg Sxi ic _ EI D0) as (s' & E & M' & G' & X' & I' & _ & _ & Nn & _ & _ & _ & Cv).
    exists s'. split; [exact E|]. split; [|exact I'].
    destruct (train_step_positive junk sfmin x T L N HN HT HL Sx s s' two_observations M P Sg Sxi E) as (_ & P' & _).
    split; [exact M'|]. split; [exact P'|]. split; [exact G'|]. split; [exact X'|]. split; [|exact Nn].
    set (b := probs x L (s_model s) ic _) in Cv.
    set (gam := in_state (zn 0%R (mp0 (s_model s))) (ent 0%R (ma (s_model s))) b N T) in Cv.
    assert (G : forall t j, 0 <= t < T -> 0 <= j < N -> (0 < gam t j)%R).
    { intros t j Ht Hj. apply in_state_pos; auto; [apply P|apply P|]. intros; apply exp_pos. }
    unfold cov_ok. rewrite Cv. split.
    - intros i j Hi Hj. rewrite !ent_tab2 by lia. f_equal. apply rsum_ext. intros k Hk. apply rsum_ext. intros t Ht. ring.
    - eapply posdef_ext; [|apply (new_cov_posdef gam (ent 0%R (mmu (s_model s))) G)]. intros i j Hi Hj. now rewrite ent_tab2 by lia.
  Qed.
  Definition start (m : model_t) : train_state :=
    Train 0 m (new2 junk T N) (repeat (new2 junk N N) (Z.to_nat T)) junk junk junk false.
  Lemma start_good m : model_ok L N m -> positive_model N m -> cov_ok m -> good (start m).
  Proof.
    intros M P C. unfold good, start. cbn [s_model s_gamma s_xi s_nan]. split; [exact M|]. split; [exact P|]. split; [|split; [|split; [exact C|reflexivity]]].
    - unfold new2, new1. apply shape_repeat; lia.
    - split; [zl; lia|]. intros t Ht. rewrite zn_repeat_in by lia. unfold new2, new1. apply shape_repeat; lia.
  Qed.
  Lemma trains_good s s' : good s -> trains junk sfmin x T s s' -> good s'.
  Proof.
    intros G. induction 1 as [|s1 s2 Tr IH On E]; auto. destruct (good_step s1 IH) as (s3 & E3 & G3 & _). rewrite E in E3. now injection E3 as <-.
  Qed.

  (** All states training goes through, and its end. *)
  Theorem training_posdef m : model_ok L N m -> positive_model N m -> cov_ok m ->
    (forall s, trains junk sfmin x T (start m) s -> cov_ok (s_model s) /\ s_nan s = false) /\
    exists s, trains junk sfmin x T (start m) s /\ train_on s = false /\ hmm_train junk sfmin x T m = OK (s_model s) /\
      model_ok L N (s_model s) /\ positive_model N (s_model s) /\ cov_ok (s_model s).
  Proof.
    intros M P C. pose proof (start_good m M P C) as G0. split.
    - intros s Tr. pose proof (trains_good _ _ G0 Tr) as (_ & _ & _ & _ & A & B). auto.
    - destruct (while_inv (fun s => good s /\ trains junk sfmin x T (start m) s /\ 0 <= s_iter s <= 50)
        (fun s => Z.to_nat (50 - s_iter s)) train_on (train_step junk sfmin x T)) with (fuel := 51%nat) (s := start m) as (s1 & E & (G1 & Tr & _) & Off).
      + intros s (G & Tr & I) Hc. destruct (good_step s G) as (s' & E & G' & Ei). exists s'. splits; auto.
        * eapply tr_step; eauto.
        * lia.
        * unfold train_on in Hc. apply andb_prop in Hc. destruct Hc as [Hc _]. apply andb_prop in Hc. destruct Hc as [Hc _]. apply Z.ltb_lt in Hc. lia.
        * unfold train_on in Hc. apply andb_prop in Hc. destruct Hc as [Hc _]. apply andb_prop in Hc. destruct Hc as [Hc _]. apply Z.ltb_lt in Hc. lia.
      + splits; auto; [constructor|cbn; lia|cbn; lia].
      + cbn [start s_iter]. lia.
      + exists s1. split; [exact Tr|]. split; [exact Off|]. split.
        * unfold hmm_train. destruct M as (EN & _). rewrite EN. fold (start m). now rewrite E.
        * destruct G1 as (A & B & _ & _ & Cc & _). auto.
  Qed.
End Posdef.
