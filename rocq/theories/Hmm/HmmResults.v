(** Statements about hmm.c assembled from the analysis of its loops. *)
From Coq Require Import List ZArith Reals Lia Lra Bool.
From Verif.Base Require Import Imp RealOps Sums Loops Matrix.
From Verif.Base Require Xreal.
From Verif.Lapack Require LapackSpec.
From Verif.Hmm Require Import HmmModel HmmSpec HmmForward HmmFb HmmBaum HmmEm HmmTrain HmmTrainProofs HmmViterbi HmmSingular.
Import ListNotations.
Open Scope Z_scope.

(** *** Decoding *)
Definition xexp (u : option R) : R := match u with Some v => exp v | None => 0%R end.
Definition xle (u v : option R) : Prop := (xexp u <= xexp v)%R.
Lemma xexp_log v : (0 <= v)%R -> xexp (xlog v) = v.
Proof. intros H. unfold xlog. destruct (Rleb_spec v 0); cbn; [lra|]. now rewrite exp_ln. Qed.
Lemma xexp_add u v : xexp (xadd u v) = (xexp u * xexp v)%R.
Proof. destruct u, v; cbn; try lra. apply exp_plus. Qed.
Lemma xexp_nonneg u : (0 <= xexp u)%R.
Proof. destruct u; cbn; [left; apply exp_pos|lra]. Qed.
Lemma xgtb_true u v : xgtb u v = true -> xle v u.
Proof.
  unfold xle. destruct u as [p|], v as [q|]; cbn; try discriminate; intros H.
  - apply Rltb_true in H. left. now apply exp_increasing.
  - left. apply exp_pos.
Qed.
Lemma xgtb_false u v : xgtb u v = false -> xle u v.
Proof.
  unfold xle. destruct u as [p|], v as [q|]; cbn; try discriminate; intros H; try lra.
  - apply Rltb_false in H. destruct H as [H|H]; [left; now apply exp_increasing|subst; lra].
  - left. apply exp_pos.
Qed.
Lemma xadd_mono u v z : xle u v -> xle (xadd u z) (xadd v z).
Proof. unfold xle. intros H. rewrite !xexp_add. apply Rmult_le_compat_r; auto. apply xexp_nonneg. Qed.

(** Joint density of a state sequence given by a function, and as a list. *)
Section Score.
  Variables (p0 : Z -> R) (a b : Z -> Z -> R).
  Fixpoint along (q : Z -> Z) (t : nat) : R :=
    match t with
    | O => p0 (q 0%Z) * b 0%Z (q 0%Z)
    | S k => along q k * a (q (Z.of_nat k)) (q (Z.of_nat (S k))) * b (Z.of_nat (S k)) (q (Z.of_nat (S k)))
    end%R.
  Lemma joint_snoc r j : forall i t, joint a b i t (r ++ [j]) = (joint a b i t r * a (zn 0%Z (i :: r) (zlen r)) j * b (t + zlen r)%Z j)%R.
  Proof.
    induction r as [|k r IH]; intros i t; cbn [app joint].
    - change (zn 0 [i] (zlen [])) with i. zl. replace (t + 0) with t by lia. ring.
    - rewrite IH. zl. pose proof (zlen_nonneg r). rewrite (zn_tail 0 i (k :: r) (zlen r)) by lia. replace (t + 1 + zlen r) with (t + (zlen r + 1)) by lia. ring.
  Qed.
  Lemma along_weight q n : along q n = weight p0 a b (ztab (Z.of_nat n + 1) q).
  Proof.
    induction n as [|n IH].
    - cbn [along]. rewrite ztab_cons by lia. rewrite ztab_0 by lia. cbn [weight joint]. ring.
    - cbn [along]. rewrite IH. rewrite (ztab_snoc (Z.of_nat (S n)) q) by lia.
      replace (Z.of_nat n + 1) with (Z.of_nat (S n)) by lia.
      assert (Hz : exists i r, ztab (Z.of_nat (S n)) q = i :: r /\ zlen r = Z.of_nat n /\ zn 0 (i :: r) (zlen r) = q (Z.of_nat n)).
      { rewrite ztab_cons by lia. eexists; eexists; split; [reflexivity|]. split; [zl; lia|]. rewrite <- ztab_cons by lia.
        zl. rewrite zn_ztab by lia. f_equal. lia. }
      destruct Hz as (i & r & E & Lr & V). rewrite E. cbn [app weight]. rewrite joint_snoc. rewrite V.
      replace (1 + zlen r) with (Z.of_nat (S n)) by lia. ring.
  Qed.
End Score.

Lemma xexp_value p0 a lb q n : (forall i, 0 <= p0 i)%R -> (forall i j, 0 <= a i j)%R ->
  xexp (value xadd (fun i => xlog (p0 i)) (fun i j => xlog (a i j)) lb q n) = along p0 a (fun t j => xexp (lb t j)) q n.
Proof.
  intros P0 PA. induction n as [|n IH]; cbn [value along]; rewrite !xexp_add.
  - now rewrite xexp_log.
  - rewrite IH, xexp_log by auto. ring.
Qed.

Section Decode.
  Variables (junk : R) (junkZ : Z) (sfmin : R) (x : list (list R)) (T L N : Z).
  Hypothesis HN : 1 <= N.
  Hypothesis HT : 1 <= T.
  Hypothesis HL : 1 <= L.
  Hypothesis Sx : shape T L x.
  Variable m : model_t.
  Hypothesis M : model_ok L N m.
  Hypothesis P0 : nonneg N (zn 0%R (mp0 m)).
  Hypothesis PA : nonneg2 N N (ent 0%R (ma m)).

  Lemma viterbi_decode_with q ic det : T <= zlen q -> shape L L ic -> invert_cov junk sfmin L (mcov m) = OK (ic, det) -> det <> 0%R ->
    exists q', viterbi_decode junk sfmin junkZ x T m q = OK q' /\ zlen q' = zlen q /\
      Forall (fun i => 0 <= i < N) (firstn (Z.to_nat T) q') /\ skipn (Z.to_nat T) q' = skipn (Z.to_nat T) q /\
      let w := weight (zn 0%R (mp0 m)) (ent 0%R (ma m)) (probs x L m ic det) in
      forall s, zlen s = T -> Forall (fun i => 0 <= i < N) s -> (w s <= w (firstn (Z.to_nat T) q'))%R.
  Proof.
    intros Lq Si EI D0. destruct M as (EN & EL & Lp & Sa & Sm & Sc). unfold viterbi_decode. rewrite EN, EL, EI. cbn [bind].
    destruct (Reqb_spec det 0); [contradiction|].
    rewrite obs_probs_ok; auto; [|unfold new2, new1; apply shape_repeat; lia]. cbn [bind].
    set (lb := map (map Some) _). assert (Elb : lb = tab2 T N (fun t i => Some (density x L (mmu m) ic det t i))).
    { unfold lb, tab2, ztab. rewrite !map_map. apply map_ext. intros t. now rewrite map_map. }
    destruct (viterbi_best xlog xadd xgtb xle (fun _ => Rle_refl _) (fun _ _ _ => Rle_trans _ _ _) xgtb_true xgtb_false xadd_mono
      (Some (-1000000)%R) (Some junk) junkZ 0%R N T (mp0 m) (ma m) lb HN HT Lp Sa) with (q := q) as (q' & E & L' & S' & O' & B'); auto.
    { rewrite Elb. apply shape_tab2; lia. }
    exists q'. split; [exact E|]. split; [exact L'|].
    assert (F' : firstn (Z.to_nat T) q' = ztab T (zn 0 q')).
    { apply (zn_ext 0); [zl; lia|]. intros k Hk. revert Hk. zl. intros Hk. rewrite zn_ztab by lia. rewrite zn_firstn by lia. zcase; try lia; reflexivity. }
    split; [|split].
    - rewrite F'. apply Forall_forall. intros i Hi. unfold ztab in Hi. apply in_map_iff in Hi. destruct Hi as (k & <- & Hk). apply in_seq in Hk.
      apply S'. lia.
    - apply (zn_ext 0); [zl; lia|]. intros k Hk. revert Hk. zl. intros Hk. rewrite !zn_skipn by lia. apply O'. lia.
    - cbv zeta. intros s Ls Fs. rewrite F'.
      set (p := fun i => Rmax 0 (zn 0%R (mp0 m) i)). set (A := fun i j => Rmax 0 (ent 0%R (ma m) i j)).
      assert (JE : forall r i t, 0 <= i < N -> Forall (fun i => 0 <= i < N) r -> 0 <= t -> t + zlen r <= T ->
        joint (ent 0%R (ma m)) (probs x L m ic det) i t r = joint A (fun t j => xexp (ent (Some junk) lb t j)) i t r).
      { induction r as [|j r IH]; intros i t Hi Fr Ht Hl; cbn [joint]; auto. assert (Hj : 0 <= j < N) by exact (Forall_inv Fr).
        revert Hl. zl. intros Hl. pose proof (zlen_nonneg r). rewrite IH by (auto; try exact (Forall_inv_tail Fr); lia).
        unfold A. rewrite Rmax_right by now apply PA. rewrite Elb, ent_tab2 by lia. reflexivity. }
      assert (WE : forall s, zlen s = T -> Forall (fun i => 0 <= i < N) s ->
        weight (zn 0%R (mp0 m)) (ent 0%R (ma m)) (probs x L m ic det) s =
        xexp (value xadd (fun i => xlog (p i)) (fun i j => xlog (A i j)) (ent (Some junk) lb) (zn 0 s) (Z.to_nat (T - 1)))).
      { intros r Lr Fr. rewrite xexp_value by (intros; apply Rmax_l). rewrite along_weight.
        replace (Z.of_nat (Z.to_nat (T - 1)) + 1) with (zlen r) by lia. rewrite ztab_zn.
        destruct r as [|i r]; auto. cbn [weight]. assert (Hi : 0 <= i < N) by exact (Forall_inv Fr). revert Lr. zl. intros Lr.
        rewrite JE by (try exact (Forall_inv_tail Fr); lia). unfold p. rewrite Rmax_right by now apply P0.
        rewrite Elb, ent_tab2 by lia. reflexivity. }
      assert (VE : forall s, states N T s ->
        value xadd (fun i => xlog (p i)) (fun i j => xlog (A i j)) (ent (Some junk) lb) s (Z.to_nat (T - 1)) =
        value xadd (fun i => xlog (zn 0 (mp0 m) i)%R) (fun i j => xlog (ent 0 (ma m) i j)%R) (ent (Some junk) lb) s (Z.to_nat (T - 1))).
      { intros r Hr. assert (G : forall n, Z.of_nat n < T -> value xadd (fun i => xlog (p i)) (fun i j => xlog (A i j)) (ent (Some junk) lb) r n =
          value xadd (fun i => xlog (zn 0 (mp0 m) i)%R) (fun i j => xlog (ent 0 (ma m) i j)%R) (ent (Some junk) lb) r n).
        { induction n as [|n IH]; intros Hn; cbn [value].
          - unfold p. rewrite Rmax_right; auto. apply P0, Hr. lia.
          - rewrite IH by lia. unfold A. rewrite Rmax_right; auto. apply PA; apply Hr; lia. }
        apply G. lia. }
      rewrite WE by auto. rewrite (WE (ztab T (zn 0 q'))).
      + assert (S1 : states N T (zn 0 s)) by (intros t Ht; apply path_nth; auto; lia). rewrite VE by auto.
        specialize (B' (zn 0 s) S1). unfold xle in B'. eapply Rle_trans; [exact B'|]. right. rewrite VE.
        * f_equal. assert (G : forall n, Z.of_nat n < T -> value xadd (fun i => xlog (zn 0 (mp0 m) i)%R) (fun i j => xlog (ent 0 (ma m) i j)%R) (ent (Some junk) lb) (zn 0 q') n =
            value xadd (fun i => xlog (zn 0 (mp0 m) i)%R) (fun i j => xlog (ent 0 (ma m) i j)%R) (ent (Some junk) lb) (zn 0 (ztab T (zn 0 q'))) n).
          { induction n as [|n IH]; intros Hn; cbn [value]; rewrite ?zn_ztab by lia; auto. rewrite IH by lia. reflexivity. }
          apply G. lia.
        * intros t Ht. rewrite zn_ztab by lia. now apply S'.
      + zl. lia.
      + apply Forall_forall. intros i Hi. unfold ztab in Hi. apply in_map_iff in Hi. destruct Hi as (k & <- & Hk). apply in_seq in Hk.
        apply S'. lia.
  Qed.
  Theorem viterbi_decode_best q : T <= zlen q -> let d := LapackSpec.det (Z.to_nat L) (ent 0%R (mcov m)) in d <> 0%R ->
    exists q' ic, viterbi_decode junk sfmin junkZ x T m q = OK q' /\ zlen q' = zlen q /\
      Forall (fun i => 0 <= i < N) (firstn (Z.to_nat T) q') /\ skipn (Z.to_nat T) q' = skipn (Z.to_nat T) q /\
      LapackSpec.inverse_of L (ent 0%R (mcov m)) (ent 0%R ic) /\
      let w := weight (zn 0%R (mp0 m)) (ent 0%R (ma m)) (probs x L m ic (Rabs d)) in
      forall s, zlen s = T -> Forall (fun i => 0 <= i < N) s -> (w s <= w (firstn (Z.to_nat T) q'))%R.
  Proof.
    intros Lq d D0. assert (Sc : shape L L (mcov m)) by apply M.
    destruct (invert_cov_ok junk sfmin L HL (mcov m) Sc) as (ic & EI & Si & I).
    destruct (viterbi_decode_with q ic (Rabs d) Lq Si EI) as (q' & E & H1 & H2 & H3 & H4).
    - now apply Rabs_no_R0.
    - exists q', ic. splits; auto.
  Qed.
End Decode.

(** Decoding with a singular covariance. *)
Theorem viterbi_decode_singular junk junkZ sfmin x T L N m q : 1 <= N -> 1 <= T -> 1 <= L -> model_ok L N m -> positive_model N m ->
  T <= zlen q -> LapackSpec.det (Z.to_nat L) (ent 0%R (mcov m)) = 0%R ->
  exists q', viterbi_decode junk sfmin junkZ x T m q = OK q' /\ zlen q' = zlen q /\
    (forall t, 0 <= t < T -> zn 0 q' t = 0) /\ (forall t, T <= t -> zn 0 q' t = zn 0 q t).
Proof.
  intros HN HT HL M P Lq D0. destruct M as (EN & EL & Lp & Sa & Sm & Sc). destruct P as (P0 & _ & PA & _).
  destruct (invert_cov_ok junk sfmin L HL (mcov m) Sc) as (ic & EI & _).
  unfold viterbi_decode. rewrite EN, EL, EI. cbn [bind]. rewrite D0, Rabs_R0. destruct (Reqb_spec 0 0); [|lra].
  assert (FL : forall v, (0 < v)%R -> flog v = Xreal.Fin (ln v)) by (intros v Hv; unfold flog; now rewrite (proj2 (Rltb_true 0 v) Hv)).
  apply (constant_path flog Xreal.xadd (fun u v => Xreal.xlt v u) (Xreal.Fin (-1000000)) (Xreal.Fin junk) Xreal.PInf junkZ 0%R N T); auto.
  - apply shape_repeat; lia.
  - intros t j Ht Hj. unfold ent. rewrite zn_repeat_in by lia. now rewrite zn_repeat_in by lia.
  - intros i Hi. now rewrite FL by auto.
  - intros i j Hi Hj. now rewrite FL by auto.
Qed.
(** In either case. *)
Theorem viterbi_decode_states junk junkZ sfmin x T L N m q : 1 <= N -> 1 <= T -> 1 <= L -> shape T L x -> model_ok L N m -> positive_model N m ->
  T <= zlen q ->
  exists q', viterbi_decode junk sfmin junkZ x T m q = OK q' /\ zlen q' = zlen q /\ (forall t, 0 <= t < T -> 0 <= zn 0 q' t < N) /\
    (forall t, T <= t -> zn 0 q' t = zn 0 q t).
Proof.
  intros HN HT HL Sx M P Lq. destruct (Req_dec (LapackSpec.det (Z.to_nat L) (ent 0%R (mcov m))) 0) as [D0|D0].
  - destruct (viterbi_decode_singular junk junkZ sfmin x T L N m q) as (q' & E & L' & V & O); auto. exists q'. splits; auto.
    intros t Ht. rewrite V by auto. lia.
  - destruct (viterbi_decode_best junk junkZ sfmin x T L N HN HT HL Sx m M) with (q := q) as (q' & ic & E & L' & V & O & _); auto.
    { intros i Hi. apply Rlt_le. now apply P. }
    { intros i j Hi Hj. apply Rlt_le. now apply P. }
    exists q'. splits; auto.
    + intros t Ht. pose proof (path_nth N (firstn (Z.to_nat T) q') t V) as X. rewrite zn_firstn in X by lia.
      destruct (Z.ltb_spec t (Z.of_nat (Z.to_nat T))); [|lia]. apply X. zl. lia.
    + intros t Ht. assert (X : zn 0 (skipn (Z.to_nat T) q') (t - T) = zn 0 (skipn (Z.to_nat T) q) (t - T)) by now rewrite O.
      rewrite !zn_skipn in X by lia. replace (t - T + Z.of_nat (Z.to_nat T)) with t in X by lia. exact X.
Qed.

(** *** Posteriors *)
Theorem posteriors_of_states junk N T p0 a b gamma xi ll ll1 ll2 iter : 1 <= N -> 1 <= T ->
  zlen p0 = N -> shape N N a -> shape T N b -> shape T N gamma -> xi_ok N T xi ->
  nonneg N (zn 0%R p0) -> nonneg2 N N (ent 0%R a) -> nonneg2 T N (ent 0%R b) ->
  let P := in_state (zn 0%R p0) (ent 0%R a) (ent 0%R b) N T in
  let PP := in_states (zn 0%R p0) (ent 0%R a) (ent 0%R b) N T in
  let lik := likelihood (zn 0%R p0) (ent 0%R a) (ent 0%R b) N T in
  (0 < lik)%R ->
  exists xi' gamma' l1 l2, forward_backwards junk xi gamma ll ll1 ll2 iter N T p0 a b = OK (xi', gamma', (ln lik, l1, l2)) /\
    shape T N gamma' /\ xi_ok N T xi' /\ l1 = ll /\
    (forall t i, 0 <= t < T -> 0 <= i < N -> ent 0%R gamma' t i = P t i) /\
    (forall t i j, 0 <= t < T - 1 -> 0 <= i < N -> 0 <= j < N -> ent 0%R (zn [] xi' t) i j = PP t i j) /\
    (forall t, 0 <= t < T -> distribution_on N (ent 0%R gamma' t)) /\
    (forall t, 0 <= t < T - 1 -> rsum N (fun i => rsum N (ent 0%R (zn [] xi' t) i)) = 1%R) /\
    (forall t i j, 0 <= t < T - 1 -> 0 <= i < N -> 0 <= j < N -> (0 <= ent 0%R (zn [] xi' t) i j)%R) /\
    (forall t i, 0 <= t < T - 1 -> 0 <= i < N -> rsum N (ent 0%R (zn [] xi' t) i) = ent 0%R gamma' t i) /\
    (forall t j, 0 <= t < T - 1 -> 0 <= j < N -> rsum N (fun i => ent 0%R (zn [] xi' t) i j) = ent 0%R gamma' (t + 1) j).
Proof.
  intros HN HT Lp Sa Sb Sg Sx P0 PA PB P PP lik PL.
  destruct (forward_backwards_ok junk N T p0 a b HN HT Lp Sa Sb P0 PA PB PL gamma xi ll ll1 ll2 iter Sg Sx) as (xi' & E & Sx' & V).
  exists xi'. do 3 eexists. split; [exact E|]. fold P PP in V |- *.
  assert (G : forall t i, 0 <= t < T -> 0 <= i < N -> ent 0%R (tab2 T N P) t i = P t i) by (intros; now rewrite ent_tab2 by lia).
  assert (X : forall t i j, 0 <= t < T - 1 -> 0 <= i < N -> 0 <= j < N -> ent 0%R (zn [] xi' t) i j = PP t i j).
  { intros t i j Ht Hi Hj. rewrite V by lia. now rewrite ent_tab2 by lia. }
  assert (R1 : forall t i, 0 <= t < T - 1 -> 0 <= i < N -> rsum N (ent 0%R (zn [] xi' t) i) = P t i).
  { intros t i Ht Hi. rewrite (rsum_ext N _ (PP t i)) by (intros; now apply X). now apply in_states_row. }
  assert (R2 : forall t, 0 <= t < T -> rsum N (P t) = 1%R) by (intros; now apply in_state_sum).
  split; [apply shape_tab2; lia|]. split; [exact Sx'|]. split; [reflexivity|]. split; [exact G|]. split; [exact X|]. splits.
  - intros t Ht. split.
    + intros i Hi. rewrite G by lia. now apply in_state_nonneg.
    + rewrite (rsum_ext N _ (P t)) by (intros; now apply G). auto.
  - intros t Ht. rewrite (rsum_ext N _ (P t)) by (intros; now apply R1). apply R2. lia.
  - intros t i j Ht Hi Hj. rewrite X by lia. now apply in_states_nonneg.
  - intros t i Ht Hi. rewrite R1 by lia. now rewrite G by lia.
  - intros t j Ht Hj. rewrite G by lia. rewrite (rsum_ext N _ (fun i => PP t i j)) by (intros; now apply X). now apply in_states_col.
Qed.

(** *** Re-estimation *)
Theorem baum_welch_stochastic junk N T L p0 a mu cov x xi gamma : 1 <= N -> 1 <= T -> 0 <= L ->
  zlen p0 = N -> shape N N a -> shape N L mu -> shape L L cov -> shape T L x -> xi_ok N T xi -> shape T N gamma ->
  (forall t, 0 <= t < T -> distribution_on N (ent 0%R gamma t)) ->
  (forall t i j, 0 <= t < T - 1 -> 0 <= i < N -> 0 <= j < N -> (0 <= ent 0%R (zn [] xi t) i j)%R) ->
  (forall t i, 0 <= t < T - 1 -> 0 <= i < N -> rsum N (ent 0%R (zn [] xi t) i) = ent 0%R gamma t i) ->
  exists p0' a' mu' cov', baum_welch junk p0 a mu cov N T L x xi gamma = OK (p0', a', mu', cov') /\
    zlen p0' = N /\ shape N N a' /\ shape N L mu' /\ shape L L cov' /\
    distribution_on N (zn 0%R p0') /\
    (forall i, 0 <= i < N -> (exists t, 0 <= t < T - 1 /\ ent 0%R gamma t i <> 0%R) -> distribution_on N (ent 0%R a' i)) /\
    (forall i, 0 <= i < N -> (forall t, 0 <= t < T - 1 -> ent 0%R gamma t i = 0%R) -> forall j, 0 <= j < N -> ent 0%R a' i j = 0%R) /\
    (forall j d lo hi, 0 <= j < N -> 0 <= d < L -> (exists t, 0 <= t < T /\ ent 0%R gamma t j <> 0%R) ->
      (forall t, 0 <= t < T -> (lo <= ent 0 x t d <= hi)%R) -> (lo <= ent 0 mu' j d <= hi)%R) /\
    (forall d e, 0 <= d < L -> 0 <= e < L -> ent 0%R cov' d e = ent 0%R cov' e d) /\
    (forall v, (0 <= rsum L (fun d => rsum L (fun e => v d * ent 0 cov' d e * v e)))%R).
Proof.
  intros HN HT HL Lp Sa Sm Sc Sx Sxi Sg Dg Nx Rx.
  rewrite (baum_welch_ok junk N T HN HT L x mu cov gamma HL Sx Sm Sc Sg p0 a xi Lp Sa Sxi).
  do 4 eexists. split; [reflexivity|]. split; [zl; lia|]. split; [apply shape_tab2; lia|]. split; [apply shape_tab2; lia|]. split; [apply shape_tab2; lia|].
  assert (Gn : forall t i, 0 <= t < T -> 0 <= i < N -> (0 <= ent 0%R gamma t i)%R) by (intros t i Ht Hi; now apply (Dg t Ht)).
  assert (Sn : forall n i, n <= T -> 0 <= i < N -> (0 <= sum_to gamma n i)%R).
  { intros n i Hn Hi. apply rsum_nonneg. intros t Ht. apply Gn; lia. }
  assert (Sp : forall n i, n <= T -> 0 <= i < N -> (exists t, 0 <= t < n /\ ent 0%R gamma t i <> 0%R) -> (0 < sum_to gamma n i)%R).
  { intros n i Hn Hi (t & Ht & G). pose proof (Gn t i ltac:(lia) Hi). eapply Rlt_le_trans; [|apply (rsum_term n (fun t => ent 0%R gamma t i) t); auto].
    - lra.
    - intros; apply Gn; lia. }
  splits.
  - split.
    + intros i Hi. rewrite zn_ztab by lia. apply Gn; lia.
    + rewrite (rsum_ext N _ (ent 0%R gamma 0)) by (intros; now rewrite zn_ztab by lia). apply Dg. lia.
  - intros i Hi V. pose proof (Sp (T - 1) i ltac:(lia) Hi V) as Sv.
    assert (EV : forall f g, Reqb (sum_to gamma (T - 1) i) 0 = true -> f = g :> R). { intros f g H. apply Reqb_true in H. lra. }
    split.
    + intros j Hj. rewrite ent_tab2 by lia. destruct (Reqb _ _) eqn:E; [lra|]. apply Rmult_le_pos; [|left; now apply Rinv_0_lt_compat].
      apply rsum_nonneg. intros t Ht. now apply Nx.
    + rewrite (rsum_ext N _ (fun j => / sum_to gamma (T - 1) i * rsum (T - 1) (fun t => ent 0 (zn [] xi t) i j))%R).
      * rewrite rsum_scal, rsum_swap. rewrite (rsum_ext (T - 1) _ (fun t => ent 0%R gamma t i)) by (intros; now apply Rx).
        fold (sum_to gamma (T - 1) i). field. lra.
      * intros j Hj. rewrite ent_tab2 by lia. destruct (Reqb _ _) eqn:E; [now apply EV|]. unfold Rdiv. ring.
  - intros i Hi Z j Hj. rewrite ent_tab2 by lia. assert (sum_to gamma (T - 1) i = 0)%R as -> by (apply rsum_zero; auto).
    destruct (Reqb_spec 0 0); [auto|lra].
  - intros j d lo hi Hj Hd V B. rewrite ent_tab2 by lia. pose proof (Sp T j ltac:(lia) Hj V) as Sv.
    assert (G : (lo * sum_to gamma T j <= rsum T (fun t => ent 0 gamma t j * ent 0 x t d) <= hi * sum_to gamma T j)%R).
    { unfold sum_to. rewrite <- !rsum_scal. split; apply rsum_le; intros t Ht; specialize (B t Ht); pose proof (Gn t j Ht Hj); nra. }
    split; apply Rmult_le_reg_r with (sum_to gamma T j); auto; unfold Rdiv; rewrite ?Rmult_assoc, Rinv_l, ?Rmult_1_r by lra; apply G.
  - intros d e Hd He. rewrite !ent_tab2 by lia. f_equal. unfold scatter. apply rsum_ext. intros j Hj. apply rsum_ext. intros; ring.
  - intros v. assert (0 < IZR T)%R by (apply (IZR_lt 0); lia).
    rewrite (rsum_ext L _ (fun d => / IZR T * rsum L (fun e => rsum N (fun j => rsum T (fun t =>
      ent 0 gamma t j * (v d * (ent 0 x t d - ent 0 mu j d)) * (v e * (ent 0 x t e - ent 0 mu j e)))))))%R.
    2: { intros d Hd. rewrite <- rsum_scal. apply rsum_ext. intros e He. rewrite ent_tab2 by lia. unfold scatter, Rdiv.
         rewrite (Rmult_comm (rsum N _)). rewrite (Rmult_assoc (v d)), (Rmult_assoc (/ IZR T)), <- !Rmult_assoc, (Rmult_comm (v d)), !Rmult_assoc.
         f_equal. rewrite (Rmult_comm (rsum N _)), <- Rmult_assoc, <- rsum_scal. apply rsum_ext. intros j Hj. rewrite <- rsum_scal. apply rsum_ext. intros t Ht. ring. }
    rewrite rsum_scal. apply Rmult_le_pos; [left; now apply Rinv_0_lt_compat|].
    rewrite (rsum_ext L _ (fun d => rsum N (fun j => rsum L (fun e => rsum T (fun t =>
      ent 0 gamma t j * (v d * (ent 0 x t d - ent 0 mu j d)) * (v e * (ent 0 x t e - ent 0 mu j e)))))))%R by (intros; apply rsum_swap).
    rewrite rsum_swap. apply rsum_nonneg. intros j Hj.
    rewrite (rsum_ext L _ (fun d => rsum T (fun t => rsum L (fun e =>
      ent 0 gamma t j * (v d * (ent 0 x t d - ent 0 mu j d)) * (v e * (ent 0 x t e - ent 0 mu j e))))))%R by (intros; apply rsum_swap).
    rewrite rsum_swap. apply rsum_nonneg. intros t Ht.
    rewrite (rsum_ext L _ (fun d => (ent 0 gamma t j * rsum L (fun e => v e * (ent 0 x t e - ent 0 mu j e))) * (v d * (ent 0 x t d - ent 0 mu j d))))%R.
    + rewrite rsum_scal. rewrite Rmult_assoc. apply Rmult_le_pos; [now apply Gn|]. apply Rle_0_sqr.
    + intros d Hd. rewrite rsum_scal. ring.
Qed.

(** Re-estimating the probabilities from the posteriors does not lower the likelihood. *)
Theorem reestimation_no_worse junk N T L p0 a b mu cov x gamma xi ll ll1 ll2 iter : 1 <= N -> 1 <= T -> 0 <= L ->
  zlen p0 = N -> shape N N a -> shape T N b -> shape N L mu -> shape L L cov -> shape T L x -> shape T N gamma -> xi_ok N T xi ->
  distribution_on N (zn 0%R p0) -> nonneg2 N N (ent 0%R a) -> (forall i, 0 <= i < N -> (rsum N (ent 0%R a i) <= 1)%R) -> nonneg2 T N (ent 0%R b) ->
  (0 < likelihood (zn 0%R p0) (ent 0%R a) (ent 0%R b) N T)%R ->
  exists xi' gamma' ls p0' a' mu' cov',
    forward_backwards junk xi gamma ll ll1 ll2 iter N T p0 a b = OK (xi', gamma', ls) /\
    baum_welch junk p0 a mu cov N T L x xi' gamma' = OK (p0', a', mu', cov') /\
    (likelihood (zn 0%R p0) (ent 0%R a) (ent 0%R b) N T <= likelihood (zn 0%R p0') (ent 0%R a') (ent 0%R b) N T)%R.
Proof.
  intros HN HT HL Lp Sa Sb Sm Sc Sx Sg Sxi [P0 S0] PA SA PB PL.
  destruct (forward_backwards_ok junk N T p0 a b HN HT Lp Sa Sb P0 PA PB PL gamma xi ll ll1 ll2 iter Sg Sxi) as (xi' & E & Sx' & V).
  set (P := in_state _ _ _ N T) in *. exists xi', (tab2 T N P). do 5 eexists. split; [exact E|].
  split; [apply baum_welch_ok; auto; apply shape_tab2; lia|].
  set (p := zn 0%R p0) in *. set (A := ent 0%R a) in *. set (Bf := ent 0%R b) in *.
  eapply Rle_trans; [apply (reestimate_increases p A Bf Bf N T (fun _ _ => 0%R)); auto|].
  - lra.
  - intros t j Ht Hj. rewrite exp_0. lra.
  - right. symmetry. apply rsum_zero. intros t Ht. apply rsum_zero. intros; ring.
  - right. fold P.
    assert (EA : forall i j, 0 <= i < N -> 0 <= j < N -> new_a p A Bf N T i j = ent 0%R (tab2 N N (fun i j : Z =>
      if Reqb (sum_to (tab2 T N P) (T - 1) i) 0 then 0%R else (rsum (T - 1) (fun t : Z => ent 0 (zn [] xi' t) i j) / sum_to (tab2 T N P) (T - 1) i)%R)) i j).
    { intros i j Hi Hj. rewrite ent_tab2 by lia. unfold new_a. 
      assert (expected_visits p A Bf N T i = sum_to (tab2 T N P) (T - 1) i) as ->.
      { apply rsum_ext. intros t Ht. now rewrite ent_tab2 by lia. }
      destruct (Reqb _ _); auto. f_equal. apply rsum_ext. intros t Ht. rewrite V by lia. now rewrite ent_tab2 by lia. }
    apply psum_ext_in. intros [|i r] Lq Fq; auto. cbn [weight]. assert (Hi : 0 <= i < N) by exact (Forall_inv Fq).
    pose proof (Forall_inv_tail Fq) as Fr. rewrite zn_ztab by lia. rewrite ent_tab2 by lia. f_equal. clear Lq Fq.
    set (a' := tab2 N N _) in EA |- *. clearbody a'. generalize 1%Z. revert i Hi Fr. induction r as [|j r IH]; intros i Hi Fr t; cbn [joint]; auto.
    assert (Hj : 0 <= j < N) by exact (Forall_inv Fr). rewrite (IH j Hj (Forall_inv_tail Fr)). now rewrite EA by lia.
Qed.
