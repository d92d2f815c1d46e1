(** hmm_init, hmm_train and viterbi_decode. *)
From Coq Require Import List ZArith Reals Lia Lra Bool.
From Verif.Base Require Import Imp RealOps Sums Loops Matrix.
From Verif.Lapack Require LapackSpec LapackResults.
From Verif.Hmm Require Import HmmModel HmmSpec HmmForward HmmFb HmmBaum HmmEm HmmTrain HmmViterbi.
Import ListNotations.
Open Scope Z_scope.

Lemma mahalanobis_ok x L mu icov y z : 0 <= L -> zlen x = L -> zlen mu = L -> shape L L icov -> zlen y = L -> zlen z = L ->
  mahalanobis x L mu icov y z = OK (mahal L (zn 0%R x) (zn 0%R mu) (ent 0%R icov)).
Proof.
  intros HL Lx Lm Si Ly Lz. unfold mahalanobis.
  rewrite (for_up_tab L _ (fun i => zn 0 x i - zn 0 mu i)%R); [|lia|].
  2: { intros i s Hi _ _ _. rewrite (aget_OK 0%R) by lia. cbn [bind]. now rewrite (aget_OK 0%R) by lia. }
  cbn [bind]. rewrite skipn_zlen by lia. rewrite app_nil_r.
  rewrite (for_up_tab L _ (fun i => rsum L (fun j => ent 0 icov i j * (zn 0 x j - zn 0 mu j)))%R); [|lia|].
  2: { intros i s Hi _ _ _. rewrite (aget_OK []) by (destruct Si; lia). cbn [bind]. unfold ddot.
       rewrite (sum_up_ok L _ (fun j => ent 0 icov i j * (zn 0 x j - zn 0 mu j))%R).
       - cbn [bind]. now rewrite Rplus_0_l.
       - lia.
       - intros j Hj. rewrite (aget_OK 0%R) by (destruct Si as [_ Si]; rewrite Si; lia). cbn [bind].
         rewrite (aget_OK 0%R) by (zl; lia). cbn [bind]. now rewrite zn_ztab by lia. }
  cbn [bind]. rewrite skipn_zlen by lia. rewrite app_nil_r. unfold ddot.
  rewrite (sum_up_ok L _ (fun i => rsum L (fun j => ent 0 icov i j * (zn 0 x j - zn 0 mu j)) * (zn 0 x i - zn 0 mu i))%R).
  - now rewrite Rplus_0_l.
  - lia.
  - intros i Hi. rewrite !(aget_OK 0%R) by (zl; lia). cbn [bind]. now rewrite !zn_ztab by lia.
Qed.
Lemma loggauss_ok x L mu icov det y z : 0 <= L -> zlen x = L -> zlen mu = L -> shape L L icov -> zlen y = L -> zlen z = L ->
  loggauss x L mu icov det y z = OK (log_density L (zn 0%R x) (zn 0%R mu) (ent 0%R icov) det).
Proof. intros. unfold loggauss. now rewrite mahalanobis_ok by auto. Qed.
(** The two densities agree. *)
Lemma gauss_loggauss x L mu icov det y z : 0 <= L -> zlen x = L -> zlen mu = L -> shape L L icov -> zlen y = L -> zlen z = L ->
  (0 < det)%R -> exists v w, gauss x L mu icov det y z = OK v /\ loggauss x L mu icov det y z = OK w /\ v = exp w.
Proof.
  intros HL Lx Lm Si Ly Lz Hd. unfold gauss, loggauss. rewrite mahalanobis_ok by auto. cbn [bind].
  eexists; eexists; split; [reflexivity|]. split; [reflexivity|].
  set (s := mahal _ _ _ _). replace (- (1 / 2) * (s + IZR L * ln (2 * PI) + ln det))%R
    with (- s / 2 + - (IZR L / 2 * ln (2 * PI) + / 2 * ln det))%R by lra.
  rewrite exp_plus, exp_Ropp. unfold Rdiv at 1. f_equal. f_equal. rewrite exp_plus. unfold Rpower. f_equal.
  change (exp (/ 2 * ln det)) with (Rpower det (/ 2)). now rewrite Rpower_sqrt.
Qed.

Section Train.
  Variables junk sfmin : R.
  Variables (x : list (list R)) (T L N : Z).
  Hypothesis HN : 1 <= N.
  Hypothesis HT : 1 <= T.
  Hypothesis HL : 1 <= L.
  Hypothesis Sx : shape T L x.

  Lemma invert_cov_ok c : shape L L c -> exists ic, invert_cov junk sfmin L c = OK (ic, Rabs (LapackSpec.det (Z.to_nat L) (ent 0%R c))) /\
    shape L L ic /\ (LapackSpec.det (Z.to_nat L) (ent 0%R c) <> 0%R -> LapackSpec.inverse_of L (ent 0%R c) (ent 0%R ic)).
  Proof.
    intros Sc. unfold invert_cov. assert (Sn : shape L L (new2 junk L L)) by (unfold new2, new1; apply shape_repeat; lia).
    destruct (Req_dec (LapackSpec.det (Z.to_nat L) (ent 0%R c)) 0) as [Z0|Nz].
    - destruct (LapackResults.invert_always sfmin junk L c (new2 junk L L)) as (ic & E & S); auto. exists ic. splits; auto. contradiction.
    - destruct (LapackResults.invert_regular sfmin junk L c (new2 junk L L)) as (ic & E & S & I); auto. exists ic. splits; auto.
  Qed.

  Definition density (mu ic : list (list R)) (det : R) (t i : Z) : R := log_density L (zn 0%R (zn [] x t)) (zn 0%R (zn [] mu i)) (ent 0%R ic) det.
  Lemma obs_probs_ok f mu ic det b : shape N L mu -> shape L L ic -> shape T N b ->
    obs_probs junk f T N L x mu ic det b = OK (tab2 T N (fun t i => f (density mu ic det t i))).
  Proof.
    intros Sm Si Sb. unfold obs_probs. apply for_rows; auto; try lia.
    intros t s Ht Ls Rs _ _. rewrite (aget_OK []) by lia. cbn [bind].
    rewrite (for_up_tab N _ (fun i => f (density mu ic det t i))).
    - cbn [bind]. rewrite skipn_zlen by (rewrite Rs; lia). now rewrite app_nil_r.
    - rewrite Rs; lia.
    - intros i r Hi _ _ _. destruct Sx as [Lx Rx]. rewrite (aget_OK []) by lia. cbn [bind]. destruct Sm as [Lm Rm].
      rewrite (aget_OK []) by lia. cbn [bind]. rewrite loggauss_ok; auto; try (unfold new1; zl; lia); try (apply Rx; lia); apply Rm; lia.
  Qed.

  Definition model_ok (m : model_t) : Prop :=
    mN m = N /\ mL m = L /\ zlen (mp0 m) = N /\ shape N N (ma m) /\ shape N L (mmu m) /\ shape L L (mcov m).
  (** A model all of whose probabilities are positive, and sum to one. *)
  Definition positive_model (m : model_t) : Prop :=
    (forall i, 0 <= i < N -> (0 < zn 0%R (mp0 m) i)%R) /\ rsum N (zn 0%R (mp0 m)) = 1%R /\
    (forall i j, 0 <= i < N -> 0 <= j < N -> (0 < ent 0%R (ma m) i j)%R) /\ (forall i, 0 <= i < N -> rsum N (ent 0%R (ma m) i) = 1%R).

  Definition probs (m : model_t) (ic : list (list R)) (det : R) (t i : Z) : R := exp (density (mmu m) ic det t i).

  Lemma rsum_pos n f : 0 < n -> (forall i, 0 <= i < n -> (0 < f i)%R) -> (0 < rsum n f)%R.
  Proof.
    intros Hn H. eapply Rlt_le_trans; [apply (H 0); lia|]. apply (rsum_term n f 0); [|lia]. intros i Hi. left. now apply H.
  Qed.
  Lemma psum_pos n f : (forall q, zlen q = Z.of_nat n -> Forall (fun i => 0 <= i < N) q -> (0 < f q)%R) -> (0 < psum N n f)%R.
  Proof.
    revert f. induction n as [|n IH]; intros f H; cbn [psum]; [apply H; [reflexivity|constructor]|].
    apply rsum_pos; [lia|]. intros i Hi. apply IH. intros q Lq Fq. apply H; [zl; lia|]. now constructor.
  Qed.
  Section Positive.
    Variables (p0 : Z -> R) (a b : Z -> Z -> R).
    Hypothesis P0 : forall i, 0 <= i < N -> (0 < p0 i)%R.
    Hypothesis PA : forall i j, 0 <= i < N -> 0 <= j < N -> (0 < a i j)%R.
    Hypothesis PB : forall t j, 0 <= t < T -> 0 <= j < N -> (0 < b t j)%R.
    Lemma joint_pos q : forall i t, 0 <= i < N -> 0 <= t -> t + zlen q <= T -> Forall (fun i => 0 <= i < N) q -> (0 < joint a b i t q)%R.
    Proof.
      induction q as [|j q IH]; intros i t Hi Ht Hl Fq; cbn [joint]; [lra|]. assert (Hj : 0 <= j < N) by exact (Forall_inv Fq).
      pose proof (Forall_inv_tail Fq). revert Hl. zl. intros Hl. pose proof (zlen_nonneg q).
      apply Rmult_lt_0_compat; [apply Rmult_lt_0_compat; [apply PA|apply PB]; lia|apply IH; auto; lia].
    Qed.
    Lemma B_pos t i : 0 <= t < T -> 0 <= i < N -> (0 < B a b N T t i)%R.
    Proof. intros Ht Hi. unfold B. apply psum_pos. intros q Lq Fq. apply joint_pos; auto; lia. Qed.
    Lemma F_pos t i : 0 <= t < T -> 0 <= i < N -> (0 < F p0 a b N t i)%R.
    Proof.
      intros [H0 H1]. revert i. revert t H0 H1. apply (natlike_ind (fun t => t < T -> forall i, 0 <= i < N -> (0 < F p0 a b N t i)%R)).
      - intros _ i Hi. rewrite F_0. apply Rmult_lt_0_compat; [apply P0|apply PB]; lia.
      - intros t Ht IH Hlt i Hi. unfold Z.succ in *. rewrite F_S by lia. apply Rmult_lt_0_compat; [|apply PB; lia].
        apply rsum_pos; [lia|]. intros k Hk. apply Rmult_lt_0_compat; [apply IH; lia|apply PA; lia].
    Qed.
    Lemma lik_pos : (0 < likelihood p0 a b N T)%R.
    Proof.
      rewrite (likelihood_sum p0 a b N T HT 0) by lia. apply rsum_pos; [lia|]. intros i Hi.
      apply Rmult_lt_0_compat; [apply F_pos|apply B_pos]; lia.
    Qed.
    Lemma in_state_pos t i : 0 <= t < T -> 0 <= i < N -> (0 < in_state p0 a b N T t i)%R.
    Proof.
      intros. rewrite in_state_eq by lia. apply Rdiv_lt_0_compat; [|apply lik_pos]. apply Rmult_lt_0_compat; [now apply F_pos|now apply B_pos].
    Qed.
    Lemma in_states_pos t i j : 0 <= t < T - 1 -> 0 <= i < N -> 0 <= j < N -> (0 < in_states p0 a b N T t i j)%R.
    Proof.
      intros. rewrite in_states_eq by lia. apply Rdiv_lt_0_compat; [|apply lik_pos].
      repeat apply Rmult_lt_0_compat; [apply F_pos|apply PA|apply PB|apply B_pos]; lia.
    Qed.
  End Positive.

  (** One iteration of the training loop, from a positive model. *)
  Theorem train_step_ok s : model_ok (s_model s) -> positive_model (s_model s) -> shape T N (s_gamma s) -> xi_ok N T (s_xi s) ->
    forall ic det, invert_cov junk sfmin L (mcov (s_model s)) = OK (ic, det) -> det <> 0%R ->
    let m := s_model s in let b := probs m ic det in
    let p := zn 0%R (mp0 m) in let A := ent 0%R (ma m) in
    let gam := in_state p A b N T in
    exists s', train_step junk sfmin x T s = OK s' /\ model_ok (s_model s') /\ shape T N (s_gamma s') /\ xi_ok N T (s_xi s') /\
      s_iter s' = s_iter s + 1 /\ s_ll s' = ln (likelihood p A b N T) /\ s_ll1 s' = s_ll s /\ s_nan s' = false /\
      mp0 (s_model s') = ztab N (gam 0) /\ ma (s_model s') = tab2 N N (new_a p A b N T) /\
      mmu (s_model s') = tab2 N L (fun j d => rsum T (fun t => gam t j * ent 0 x t d) / rsum T (fun t => gam t j))%R /\
      mcov (s_model s') = tab2 L L (fun d e => rsum N (fun j => rsum T (fun t => gam t j * (ent 0 x t d - ent 0 (mmu m) j d) * (ent 0 x t e - ent 0 (mmu m) j e))) / IZR T)%R.
  Proof.
    intros (EN & EL & Lp & Sa & Sm & Sc) (P1 & P2 & P3 & P4) Sg Sxi ic det EI Dz m b p A gam. fold m in EN, EL, Lp, Sa, Sm, Sc, P1, P2, P3, P4, EI.
    assert (Si : shape L L ic) by (destruct (invert_cov_ok (mcov m) Sc) as (ic' & E' & S' & _); rewrite E' in EI; now injection EI as <- <-).
    unfold train_step. fold m. rewrite EN, EL, EI. cbn [bind]. destruct (Reqb_spec det 0); [contradiction|].
    rewrite obs_probs_ok; auto; [|unfold new2, new1; apply shape_repeat; lia]. cbn [bind].
    set (bl := tab2 T N (fun t i => exp (density (mmu m) ic det t i))).
    assert (EB : forall t i, 0 <= t < T -> 0 <= i < N -> ent 0%R bl t i = b t i) by (intros; unfold bl; now rewrite ent_tab2 by lia).
    assert (PB : forall t j, 0 <= t < T -> 0 <= j < N -> (0 < ent 0%R bl t j)%R) by (intros; rewrite EB by lia; apply exp_pos).
    assert (PL : (0 < likelihood p A (ent 0%R bl) N T)%R) by (apply lik_pos; auto).
    assert (Sb : shape T N bl) by (apply shape_tab2; lia).
    destruct (forward_backwards_ok junk N T (mp0 m) (ma m) bl HN HT Lp Sa Sb) with (gamma := s_gamma s) (xi := s_xi s) (ll := s_ll s) (ll1 := s_ll1 s) (ll2 := s_ll2 s) (iter := s_iter s + 1)
      as (xi' & E & Sxi' & Vxi); auto.
    { intros i Hi. left. now apply P1. }
    { intros i j Hi Hj. left. now apply P3. }
    { intros t j Ht Hj. left. now apply PB. }
    rewrite E. cbn [bind]. fold p A.
    set (gl := tab2 T N (in_state p A (ent 0%R bl) N T)).
    rewrite (baum_welch_ok junk N T HN HT L x (mmu m) (mcov m) gl ltac:(lia) Sx Sm Sc); auto; [|apply shape_tab2; lia]. cbn [bind].
    assert (JB : forall r i t, 0 <= t -> t + zlen r <= T -> Forall (fun i => 0 <= i < N) r -> joint A (ent 0%R bl) i t r = joint A b i t r).
    { induction r as [|j r IH]; intros i t Ht Hl Fr; cbn [joint]; auto. assert (0 <= j < N) by exact (Forall_inv Fr).
      revert Hl. zl. intros Hl. pose proof (zlen_nonneg r). rewrite IH by (try exact (Forall_inv_tail Fr); lia). now rewrite EB by lia. }
    assert (WB : forall q, zlen q = Z.of_nat (Z.to_nat T) -> Forall (fun i => 0 <= i < N) q -> weight p A (ent 0%R bl) q = weight p A b q).
    { intros [|i r] Lq Fq; auto. cbn [weight]. assert (0 <= i < N) by exact (Forall_inv Fq). revert Lq. zl. intros Lq.
      rewrite EB by lia. rewrite JB; auto; [lia|lia|exact (Forall_inv_tail Fq)]. }
    assert (LB : likelihood p A (ent 0%R bl) N T = likelihood p A b N T) by (apply psum_ext_in; auto).
    assert (GB : forall t i, in_state p A (ent 0%R bl) N T t i = gam t i).
    { intros t i. unfold gam, in_state. rewrite LB. f_equal. apply psum_ext_in. intros q Lq Fq. now rewrite WB by auto. }
    assert (XB : forall t i j, in_states p A (ent 0%R bl) N T t i j = in_states p A b N T t i j).
    { intros t i j. unfold in_states. rewrite LB. f_equal. apply psum_ext_in. intros q Lq Fq. now rewrite WB by auto. }
    assert (SG : forall n j, n <= T -> 0 <= j < N -> sum_to gl n j = rsum n (fun t => gam t j)).
    { intros n j Hn Hj. apply rsum_ext. intros t Ht. unfold gl. rewrite ent_tab2 by lia. apply GB. }
    eexists; split; [reflexivity|]. cbn [s_model s_gamma s_xi s_iter s_ll s_ll1 mp0 ma mmu mcov].
    split; [unfold model_ok; cbn [mN mL mp0 ma mmu mcov]; splits; auto; try (zl; lia); apply shape_tab2; lia|].
    split; [apply shape_tab2; lia|]. split; [exact Sxi'|]. split; [reflexivity|]. split; [now rewrite LB|]. split; [reflexivity|]. split; [reflexivity|].
    split; [|split; [|split]].
    - apply ztab_ext. intros i Hi. unfold gl. rewrite ent_tab2 by lia. apply GB.
    - unfold tab2. apply ztab_ext. intros i Hi. apply ztab_ext. intros j Hj. unfold new_a, expected_visits, expected_moves.
      rewrite SG by lia. fold gam. destruct (Reqb _ 0); auto. f_equal. apply rsum_ext. intros t Ht. rewrite Vxi by lia.
      rewrite ent_tab2 by lia. apply XB.
    - unfold tab2. apply ztab_ext. intros j Hj. apply ztab_ext. intros d Hd. rewrite SG by lia. f_equal. apply rsum_ext. intros t Ht.
      unfold gl. rewrite ent_tab2 by lia. now rewrite GB.
    - unfold tab2. apply ztab_ext. intros d Hd. apply ztab_ext. intros e He. f_equal. apply rsum_ext. intros j Hj. apply rsum_ext. intros t Ht.
      unfold gl. rewrite ent_tab2 by lia. rewrite GB. ring.
  Qed.

  (** A singular covariance ends the training and leaves the model. *)
  Theorem train_step_singular s : 2 <= T -> model_ok (s_model s) ->
    forall ic, invert_cov junk sfmin L (mcov (s_model s)) = OK (ic, Rabs (LapackSpec.det (Z.to_nat L) (ent 0%R (mcov (s_model s))))) ->
    Rabs (LapackSpec.det (Z.to_nat L) (ent 0%R (mcov (s_model s)))) = 0%R ->
    exists s', train_step junk sfmin x T s = OK s' /\ s_model s' = s_model s /\ s_gamma s' = s_gamma s /\ s_xi s' = s_xi s /\
      s_iter s' = s_iter s + 1 /\ s_nan s' = true.
  Proof.
    intros H2 (EN & EL & _) ic EI D0. unfold train_step. rewrite EL, EI. cbn [bind]. rewrite D0.
    destruct (Reqb_spec 0 0); [|lra]. destruct (Z.ltb_spec T 2); [lia|]. eexists; split; [reflexivity|]. splits; reflexivity.
  Qed.

  (** Positive models stay positive, if there are at least two observations. *)
  Theorem train_step_positive s s' : 2 <= T -> model_ok (s_model s) -> positive_model (s_model s) -> shape T N (s_gamma s) -> xi_ok N T (s_xi s) ->
    train_step junk sfmin x T s = OK s' ->
    model_ok (s_model s') /\ positive_model (s_model s') /\ shape T N (s_gamma s') /\ xi_ok N T (s_xi s').
  Proof.
    intros H2 M P Sg Sxi E. assert (Sc : shape L L (mcov (s_model s))) by apply M.
    destruct (invert_cov_ok _ Sc) as (ic & EI & _). set (det := Rabs _) in EI.
    destruct (Req_dec det 0) as [D0|D0].
    { destruct (train_step_singular s H2 M ic EI D0) as (s1 & E1 & EM & EG & EX & _). rewrite E1 in E. injection E as <-.
      rewrite EM, EG, EX. auto. }
    destruct (train_step_ok s M P Sg Sxi ic det EI D0) as (s1 & E1 & M1 & G1 & X1 & _ & _ & _ & _ & V1 & V2 & _).
    rewrite E1 in E. injection E as <-. splits; auto. destruct P as (P1 & P2 & P3 & P4).
    set (b := probs (s_model s) ic det) in *. assert (PB : forall t j, 0 <= t < T -> 0 <= j < N -> (0 < b t j)%R) by (intros; apply exp_pos).
    set (p := zn 0%R (mp0 (s_model s))) in *. set (A := ent 0%R (ma (s_model s))) in *.
    assert (PL : (0 < likelihood p A b N T)%R) by (apply lik_pos; auto).
    assert (N0 : nonneg N p) by (intros i Hi; left; now apply P1).
    assert (NA : nonneg2 N N A) by (intros i j Hi Hj; left; now apply P3).
    assert (NB : nonneg2 T N b) by (intros i j Hi Hj; left; now apply PB).
    assert (PV : forall i, 0 <= i < N -> (0 < expected_visits p A b N T i)%R).
    { intros i Hi. apply rsum_pos; [lia|]. intros t Ht. apply in_state_pos; auto; lia. }
    unfold positive_model. rewrite V1, V2. splits.
    - intros i Hi. rewrite zn_ztab by lia. apply in_state_pos; auto; lia.
    - rewrite (rsum_ext N _ (in_state p A b N T 0)) by (intros i Hi; now rewrite zn_ztab by lia).
      apply in_state_sum; auto; lia.
    - intros i j Hi Hj. rewrite ent_tab2 by lia. unfold new_a. pose proof (PV i Hi). destruct (Reqb_spec (expected_visits p A b N T i) 0); [lra|].
      apply Rdiv_lt_0_compat; auto. apply rsum_pos; [lia|]. intros t Ht. apply in_states_pos; auto.
    - intros i Hi. rewrite (rsum_ext N _ (new_a p A b N T i)) by (intros j Hj; now rewrite ent_tab2 by lia).
      apply new_a_sum; auto. specialize (PV i Hi). lra.
  Qed.

  Lemma while_keeps (P : train_state -> Prop) c body : (forall s s', P s -> c s = true -> body s = OK s' -> P s') ->
    forall fuel s s', P s -> while fuel c body s = OK s' -> P s'.
  Proof.
    intros H. induction fuel as [|n IH]; intros s s' Ps E; cbn [while] in E; [destruct (c s); [discriminate|now injection E as <-]|].
    destruct (c s) eqn:C; [|now injection E as <-]. destruct (body s) as [s1| | |] eqn:B; try discriminate. cbn [bind] in E.
    eapply IH; [|exact E]. eapply H; eauto.
  Qed.
  Theorem hmm_train_positive m m' : 2 <= T -> model_ok m -> positive_model m ->
    hmm_train junk sfmin x T m = OK m' -> model_ok m' /\ positive_model m'.
  Proof.
    intros H2 M P E. unfold hmm_train in E.
    set (s0 := Train _ _ _ _ _ _ _ _) in E. destruct (while 51 train_on (train_step junk sfmin x T) s0) as [s1| | |] eqn:W; try discriminate.
    injection E as <-.
    destruct (while_keeps (fun s => model_ok (s_model s) /\ positive_model (s_model s) /\ shape T N (s_gamma s) /\ xi_ok N T (s_xi s))
      train_on (train_step junk sfmin x T)) with (fuel := 51%nat) (s := s0) (s' := s1) as (A & B & _); auto.
    - intros s s' (A & B & C & D) _ E. eapply train_step_positive; eauto.
    - unfold s0. cbn [s_model s_gamma s_xi s_iter]. pose proof M as (EN & _). rewrite EN. split; [exact M|]. split; [exact P|]. split.
      + unfold new2, new1. apply shape_repeat; lia.
      + split; [zl; lia|]. intros t Ht. rewrite zn_repeat_in by lia. unfold new2, new1. apply shape_repeat; lia.
  Qed.

  (** The loop always ends: at most fifty iterations, whatever the inversion does. *)
  Theorem hmm_train_terminates m : model_ok m -> positive_model m -> 2 <= T -> exists m', hmm_train junk sfmin x T m = OK m'.
  Proof.
    intros M P H2. unfold hmm_train. set (s0 := Train _ _ _ _ _ _ _ _).
    destruct (while_inv (fun s => model_ok (s_model s) /\ positive_model (s_model s) /\ shape T N (s_gamma s) /\ xi_ok N T (s_xi s) /\ 0 <= s_iter s <= 50)
      (fun s => Z.to_nat (50 - s_iter s)) train_on (train_step junk sfmin x T)) with (fuel := 51%nat) (s := s0) as (s1 & E & _).
    - intros s (A & B & C & D & I) Hc. assert (Mc : shape L L (mcov (s_model s))) by apply A.
      destruct (invert_cov_ok _ Mc) as (ic & EI & _).
      assert (X : exists s', train_step junk sfmin x T s = OK s' /\ s_iter s' = s_iter s + 1).
      { destruct (Req_dec (Rabs (LapackSpec.det (Z.to_nat L) (ent 0%R (mcov (s_model s))))) 0) as [D0|D0].
        - destruct (train_step_singular s H2 A ic EI D0) as (s' & E & _ & _ & _ & Ei & _). eauto.
        - destruct (train_step_ok s A B C D ic _ EI D0) as (s' & E & _ & _ & _ & Ei & _). eauto. }
      destruct X as (s' & E & Ei).
      destruct (train_step_positive s s' H2 A B C D E) as (A' & B' & C' & D').
      unfold train_on in Hc. apply andb_prop in Hc. destruct Hc as [Hc _]. apply andb_prop in Hc. destruct Hc as [Hc _]. apply Z.ltb_lt in Hc.
      exists s'. splits; auto; lia.
    - unfold s0. cbn [s_model s_gamma s_xi s_iter]. pose proof M as (EN & _). rewrite EN. split; [exact M|]. split; [exact P|]. split; [|split; [|lia]].
      + unfold new2, new1. apply shape_repeat; lia.
      + split; [zl; lia|]. intros t Ht. rewrite zn_repeat_in by lia. unfold new2, new1. apply shape_repeat; lia.
    - unfold s0. cbn [s_iter]. lia.
    - rewrite E. cbn [bind]. eauto.
  Qed.
End Train.
