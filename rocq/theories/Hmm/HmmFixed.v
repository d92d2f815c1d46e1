(** A model that training leaves as it is, and the number of iterations spent on it. *)
From Coq Require Import List ZArith Reals Lia Lra Bool.
From Verif.Base Require Import Imp RealOps Sums Loops Matrix.
From Verif.Lapack Require Import LapackSpec LapackResults LogDet.
From Verif.Hmm Require Import HmmModel HmmSpec HmmForward HmmFb HmmBaum HmmEm HmmTrain HmmTrainProofs HmmInit HmmResults HmmPosdef HmmLikSpec HmmGauss.
Import ListNotations.
Open Scope Z_scope.

Definition fx : list (list R) := [[0]; [1]]%R.
Definition fm : model_t := Model 1 1 [1]%R [[1]]%R [[1 / 2]]%R [[1 / 4]]%R.

Lemma sum1 (f : Z -> R) : rsum 1 f = f 0%Z.
Proof. change 1 with (0 + 1). rewrite rsum_S, rsum_0 by lia. ring. Qed.
Lemma sum2 (f : Z -> R) : rsum 2 f = (f 0%Z + f 1%Z)%R.
Proof. change 2 with (1 + 1). rewrite rsum_S, sum1 by lia. reflexivity. Qed.
Lemma tab1 {A} (f : Z -> A) : ztab 1 f = [f 0].
Proof. reflexivity. Qed.
Lemma fshape : shape 2 1 fx.
Proof. split; [reflexivity|]. intros i Hi. assert (i = 0 \/ i = 1) as [->| ->] by lia; reflexivity. Qed.
Lemma fe0 : ent 0%R fx 0 0 = 0%R. Proof. reflexivity. Qed.
Lemma fe1 : ent 0%R fx 1 0 = 1%R. Proof. reflexivity. Qed.
Lemma fspread : spread 2 1 fx.
Proof.
  intros v c (d & Hd & Nd). replace d with 0 in Nd by lia. destruct (Req_dec c 0) as [->|Nc].
  - exists 1. split; [lia|]. rewrite sum1, fe1. lra.
  - exists 0. split; [lia|]. rewrite sum1, fe0. lra.
Qed.
Lemma fmodel : model_ok 1 1 fm.
Proof. repeat split; try reflexivity; intros i Hi; replace i with 0 by lia; reflexivity. Qed.
Lemma fpositive : positive_model 1 fm.
Proof.
  repeat split; cbn [fm mp0 ma].
  - intros i Hi. replace i with 0 by lia. cbn. lra.
  - rewrite sum1. reflexivity.
  - intros i j Hi Hj. replace i with 0 by lia. replace j with 0 by lia. cbn. lra.
  - intros i Hi. rewrite sum1. replace i with 0 by lia. reflexivity.
Qed.
Lemma fcov : cov_ok 1 fm.
Proof.
  split; [intros i j Hi Hj; now replace i with j by lia|]. intros v (i & Hi & Nv). replace i with 0 in Nv by lia.
  unfold quadratic. rewrite !sum1. cbn [fm mcov]. change (ent 0%R [[1 / 4]]%R 0 0) with (1 / 4)%R.
  replace (v 0%Z * (1 / 4) * v 0%Z)%R with (/ 4 * (v 0%Z * v 0%Z))%R by field. apply Rmult_lt_0_compat; [lra|]. now apply Rlt_0_sqr.
Qed.
Lemma finverse : inverse_of 1 (ent 0%R (mcov fm)) (fun _ _ => 4%R).
Proof.
  intros i j Hi Hj. replace i with 0 by lia. replace j with 0 by lia. rewrite !sum1. unfold delta. cbn [fm mcov].
  change (ent 0%R [[1 / 4]]%R 0 0) with (1 / 4)%R. cbn. lra.
Qed.

(** One iteration changes nothing. *)
Lemma fstep junk sfmin s s' : good 2 1 1 s -> s_model s = fm -> train_step junk sfmin fx 2 s = OK s' -> s_model s' = fm.
Proof.
  intros (M & P & Sg & Sxi & (Sy & Pd) & Nan) Em E. assert (Sc : shape 1 1 (mcov (s_model s))) by apply M.
  destruct (invert_cov_ok junk sfmin 1 ltac:(lia) _ Sc) as (ic & EI & _ & _).
  pose proof (posdef_det 1 _ ltac:(lia) Pd) as D0. apply Rabs_no_R0 in D0.
  destruct (train_step_ok junk sfmin fx 2 1 1 ltac:(lia) ltac:(lia) ltac:(lia) fshape s M P Sg Sxi ic _ EI D0)
    as (s3 & E3 & (EN & EL & _) & _ & _ & _ & _ & _ & _ & V0 & V1 & V2 & V3).
  rewrite E in E3. injection E3 as <-. clear E EI D0.
  set (b := probs fx 1 (s_model s) ic _) in *.
  set (p := zn 0%R (mp0 (s_model s))) in *. set (A := ent 0%R (ma (s_model s))) in *.
  assert (PB : forall t j, 0 <= t < 2 -> 0 <= j < 1 -> (0 < b t j)%R) by (intros; apply exp_pos).
  destruct P as (P1 & P2 & P3 & P4). fold p in P1, P2. fold A in P3, P4.
  assert (PL : (0 < likelihood p A b 1 2)%R) by (apply (lik_pos 2 1 ltac:(lia) ltac:(lia)); auto).
  assert (N0 : nonneg 1 p) by (intros i Hi; left; now apply P1).
  assert (NA : nonneg2 1 1 A) by (intros i j Hi Hj; left; now apply P3).
  assert (NB : nonneg2 2 1 b) by (intros i j Hi Hj; left; now apply PB).
  assert (G : forall t, 0 <= t < 2 -> in_state p A b 1 2 t 0 = 1%R).
  { intros t Ht. rewrite <- (sum1 (in_state p A b 1 2 t)). apply in_state_sum; auto; lia. }
  assert (W : new_a p A b 1 2 0 0 = 1%R).
  { rewrite <- (sum1 (new_a p A b 1 2 0)). apply new_a_sum; auto; try lia. unfold expected_visits. change (2 - 1) with 1. rewrite sum1, G by lia. lra. }
  destruct (s_model s') as [n l mp ma' mm mc]. cbn [mN mL mp0 ma mmu mcov] in *. subst n l mp ma' mm mc. unfold fm. f_equal.
  - now rewrite tab1, G by lia.
  - unfold tab2. now rewrite !tab1, W.
  - unfold tab2. rewrite !tab1. rewrite !sum2, !G, fe0, fe1 by lia. do 2 f_equal. field.
  - unfold tab2. rewrite !tab1, sum1, sum2, !G, fe0, fe1 by lia. rewrite Em. cbn [fm mmu]. change (ent 0%R [[1 / 2]]%R 0 0) with (1 / 2)%R. do 2 f_equal. field.
Qed.

Definition fdens : R := exp (log_density 1 (ent 0%R fx 0) (ent 0%R (mmu fm) 0) (fun _ _ => 4%R) (det (Z.to_nat 1) (ent 0%R (mcov fm)))).
Lemma fdens_other : exp (log_density 1 (ent 0%R fx 1) (ent 0%R (mmu fm) 0) (fun _ _ => 4%R) (det (Z.to_nat 1) (ent 0%R (mcov fm)))) = fdens.
Proof.
  unfold fdens, log_density, mahal. do 4 f_equal. rewrite !sum1, fe0, fe1. cbn [fm mmu]. change (ent 0%R [[1 / 2]]%R 0 0) with (1 / 2)%R. field.
Qed.
Lemma flik1 : data_likelihood fx 1 fm fdens.
Proof.
  exists (fun _ _ => 4%R). split; [exact finverse|]. unfold likelihood. change (Z.to_nat 1) with 1%nat at 1. cbn [psum weight joint fm mN mp0 ma mL].
  rewrite sum1. change (zn 0%R [1%R] 0) with 1%R. rewrite Rmult_1_l, Rmult_1_r. reflexivity.
Qed.
Lemma flik2 : data_likelihood fx 2 fm (fdens * fdens).
Proof.
  exists (fun _ _ => 4%R). split; [exact finverse|]. unfold likelihood. change (Z.to_nat 2) with 2%nat at 1. cbn [psum weight joint].
  change (mN fm) with 1. rewrite !sum1. cbn [mp0 ma fm]. change (zn 0%R [1%R] 0) with 1%R. change (ent 0%R [[1%R]] 0 0) with 1%R.
  change (mL fm) with 1. rewrite fdens_other. fold fdens. ring.
Qed.
Lemma fdens_small : (0 < fdens <= 1)%R.
Proof.
  split; [apply exp_pos|]. unfold fdens. rewrite <- exp_0. assert (H : (log_density 1 (ent 0%R fx 0) (ent 0%R (mmu fm) 0) (fun _ _ => 4%R) (det (Z.to_nat 1) (ent 0%R (mcov fm))) <= 0)%R).
  { unfold log_density, mahal. rewrite !sum1, fe0. cbn [fm mmu mcov]. change (ent 0%R [[1 / 2]]%R 0 0) with (1 / 2)%R.
    change (Z.to_nat 1) with 1%nat. rewrite det_1. change (ent 0%R [[1 / 4]]%R 0 0) with (1 / 4)%R.
    rewrite Rmult_1_l.
    assert (Q : (0 < ln (2 * PI) + ln (1 / 4))%R).
    { rewrite <- ln_mult by (try lra; pose proof PI_RGT_0; lra). rewrite <- ln_1. apply ln_increasing; [lra|]. pose proof PI2_3_2. lra. }
    lra. }
  destruct H as [H|H]; [left; now apply exp_increasing|right; now rewrite H].
Qed.

Theorem fixed_runs junk sfmin s : run fx 2 1 junk sfmin fm s -> s_model s = fm.
Proof.
  intros R. induction R as [|s1 s2 R IH On E]; [reflexivity|].
  eapply fstep; [|exact IH|exact E]. eapply (trains_good fx 2 1 1); eauto using fshape, fspread; try lia.
  apply (start_good 2 1 1); try lia; auto using fmodel, fpositive, fcov.
Qed.
Theorem fixed_fifty junk sfmin : exists s, run fx 2 1 junk sfmin fm s /\ train_on s = false /\ hmm_train junk sfmin fx 2 fm = OK (s_model s) /\ s_iter s = 50.
Proof.
  destruct (training_posdef fx 2 1 1 ltac:(lia) ltac:(lia) ltac:(lia) fshape fspread junk sfmin fm fmodel fpositive fcov) as (_ & s & R & Off & E & _).
  exists s. split; [exact R|]. split; [exact Off|]. split; [exact E|].
  pose proof (start_good 2 1 1 ltac:(lia) ltac:(lia) junk fm fmodel fpositive fcov) as G.
  destruct (good_step fx 2 1 1 ltac:(lia) ltac:(lia) ltac:(lia) fshape fspread junk sfmin _ G) as (s1 & E1 & _ & _).
  pose proof (fstep junk sfmin _ s1 G eq_refl E1) as M1.
  eapply (stops_late fx 2 1 1 ltac:(lia) ltac:(lia) ltac:(lia) fshape fspread junk sfmin fm s1 fdens s (fdens * fdens)); auto using fmodel, fpositive, fcov.
  - rewrite M1. exact flik1.
  - rewrite (fixed_runs junk sfmin s R). exact flik2.
  - pose proof fdens_small. nra.
Qed.
