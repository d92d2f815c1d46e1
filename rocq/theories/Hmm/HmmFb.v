(** forward_backwards computes the posterior probabilities: the code. *)
From Coq Require Import List ZArith Reals Lia Lra Bool.
From Verif.Base Require Import Imp RealOps Sums Loops Matrix.
From Verif.Hmm Require Import HmmModel HmmSpec HmmForward.
Import ListNotations.
Open Scope Z_scope.

Section Code.
  Variables (junk : R) (N T : Z) (p0 : list R) (a b : list (list R)).
  Hypothesis HN : 1 <= N.
  Hypothesis HT : 1 <= T.
  Hypothesis Lp : zlen p0 = N.
  Hypothesis Sa : shape N N a.
  Hypothesis Sb : shape T N b.
  Local Notation pf := (zn 0%R p0).
  Local Notation af := (ent 0%R a).
  Local Notation bf := (ent 0%R b).
  Hypothesis P0 : nonneg N pf.
  Hypothesis PA : nonneg2 N N af.
  Hypothesis PB : nonneg2 T N bf.
  Local Notation lik := (likelihood pf af bf N T).
  Hypothesis PL : (0 < lik)%R.
  Local Notation F := (F pf af bf N).
  Local Notation B := (B af bf N T).
  Local Notation SF := (SF pf af bf N).
  Let SF_pos t : 0 <= t < T -> (0 < SF t)%R.
  Proof. intros. eapply HmmForward.SF_pos; eauto. Qed.
  Let SFm (t : Z) : R := if t <? 0 then 1%R else SF t.
  Lemma SFm_pos t : t < T -> (0 < SFm t)%R.
  Proof. intros. unfold SFm. zcase; [lra|]. apply SF_pos. lia. Qed.

  Lemma upd_row {A} (d : A) (m : list (list A)) t r : 0 <= t < zlen m ->
    forall k, 0 <= k -> zn [] (upd m (Z.to_nat t) r) k = if k =? t then r else zn [] m k.
  Proof. intros. now rewrite zn_upd by lia. Qed.

  Lemma forward_ok : forward junk N T p0 a b =
    OK (tab2 T N (fun t i => F t i / SF t)%R, ztab T (fun t => SFm (t - 1) / SF t)%R, ln (SF (T - 1))).
  Proof.
    unfold forward. cbv zeta. set (al0 := repeat (repeat junk _) _). assert (S0 : shape T N al0) by (apply shape_repeat; lia).
    rewrite (aget_OK []) by (destruct S0; lia). cbn [bind].
    rewrite (fill_row_ok N _ (F 0)).
    2: lia. 2: apply S0; lia.
    2: { intros i Hi. rewrite (aget_OK 0%R) by lia. cbn [bind]. rewrite (mget_OK 0%R T N) by (auto; lia). reflexivity. }
    cbn [bind]. rewrite Rplus_0_l. fold (SF 0). rewrite aset_OK by (zl; lia). cbn [bind].
    rewrite map_row_ok by lia. cbn [bind]. rewrite aset_OK by (destruct S0; lia). cbn [bind].
    pose proof (SF_pos 0 ltac:(lia)) as P.
    match goal with |- for_up 1 T ?G ?S = _ =>
      destruct (for_up_inv (fun t '((al, c, ll) : list (list R) * list R * R) =>
        zlen al = T /\ zlen c = T /\ (forall k, 0 <= k < t -> zn [] al k = ztab N (fun i => F k i / SF k)%R) /\
        (forall k, t <= k < T -> zlen (zn [] al k) = N) /\
        (forall k, 0 <= k < t -> zn 0%R c k = (SFm (k - 1) / SF k)%R) /\ ll = ln (SF (t - 1))) 1 T G S)
      as ([[al c] ll] & E & L1 & L2 & V1 & _ & V2 & ->) end.
    - lia.
    - split; [destruct S0; zl; lia|]. split; [zl; lia|]. split; [|split; [|split]].
      + intros k Hk. assert (k = 0) as -> by lia. rewrite zn_upd by (destruct S0; lia). cbn [Z.eqb].
        apply ztab_ext. intros i Hi. field. lra.
      + intros k Hk. rewrite zn_upd by (destruct S0; lia). zcase. apply S0. lia.
      + intros k Hk. assert (k = 0) as -> by lia. rewrite zn_upd by (zl; lia). zcase. reflexivity.
      + cbn [Z.sub]. rewrite <- ln_Rinv; [|apply Rdiv_lt_0_compat; lra]. f_equal. change (1 - 1) with 0. field. lra.
    - intros t [[al c] ll] Ht (L1 & L2 & V1 & V3 & V2 & ->).
      rewrite !(aget_OK []) by lia. cbn [bind]. pose proof (SF_pos (t - 1) ltac:(lia)) as P1. pose proof (SF_pos t ltac:(lia)) as P2.
      rewrite (fill_row_ok N _ (fun j => F t j / SF (t - 1))%R).
      2: lia. 2: apply V3; lia.
      2: { intros j Hj. rewrite (sum_up_ok N _ (fun i => F (t - 1) i / SF (t - 1) * af i j)%R).
           2: lia.
           2: { intros i Hi. rewrite V1 by lia. rewrite (aget_OK 0%R) by (zl; lia). cbn [bind].
                rewrite (mget_OK 0%R N N) by (auto; lia). cbn [bind]. now rewrite zn_ztab by lia. }
           cbn [bind]. rewrite (mget_OK 0%R T N) by (auto; lia). cbn [bind]. f_equal.
           replace (F t j) with (F (t - 1 + 1) j) by (f_equal; lia). rewrite F_S by lia. replace (t - 1 + 1) with t by lia.
           rewrite (rsum_ext N (fun i => F (t - 1) i / SF (t - 1) * af i j)%R (fun i => / SF (t - 1) * (F (t - 1) i * af i j))%R)
             by (intros; unfold Rdiv; ring).
           rewrite rsum_scal. unfold Rdiv. ring. }
      cbn [bind]. rewrite (rsum_ext N (fun j => F t j / SF (t - 1))%R (fun j => / SF (t - 1) * F t j)%R) by (intros; unfold Rdiv; ring).
      rewrite rsum_scal. fold (SF t). rewrite aset_OK by lia. cbn [bind]. rewrite map_row_ok by lia. cbn [bind].
      rewrite aset_OK by lia. cbn [bind]. eexists; split; [reflexivity|]. cbv beta iota.
      split; [zl; lia|]. split; [zl; lia|]. split; [|split; [|split]].
      + intros k Hk. rewrite zn_upd by lia. zcase; [|apply V1; lia]. subst k. apply ztab_ext. intros i Hi. field. lra.
      + intros k Hk. rewrite zn_upd by lia. zcase. apply V3. lia.
      + intros k Hk. rewrite zn_upd by lia. zcase; [|apply V2; lia]. subst k. unfold SFm. zcase. field. lra.
      + replace (t + 1 - 1) with t by lia. rewrite <- (ln_exp (ln (SF (t - 1)) - _)). f_equal.
        unfold Rminus. rewrite exp_plus, exp_Ropp, !exp_ln; auto; [field; lra|]. apply Rdiv_lt_0_compat; [lra|]. 
        rewrite Rplus_0_l. apply Rmult_lt_0_compat; auto. now apply Rinv_0_lt_compat.
    - rewrite E. do 3 f_equal.
      + unfold tab2. apply (zn_ext []); [zl; lia|]. intros k Hk. rewrite zn_ztab by lia. apply V1. lia.
      + apply (zn_ext 0%R); [zl; lia|]. intros k Hk. rewrite zn_ztab by lia. apply V2. lia.
  Qed.

  Lemma backward_ok : backward junk N T a b (ztab T (fun t => SFm (t - 1) / SF t)%R) =
    OK (tab2 T N (fun t i => B t i * SFm (t - 1) / SF (T - 1))%R).
  Proof.
    unfold backward. cbv zeta. set (be0 := repeat (repeat junk _) _). assert (S0 : shape T N be0) by (apply shape_repeat; lia).
    rewrite (aget_OK []) by (destruct S0; lia). cbn [bind].
    assert (L0 : zlen (zn [] be0 (T - 1)) = N) by (apply S0; lia).
    rewrite (for_up_tab N _ (fun _ => 1%R)); [|lia|reflexivity]. cbn [bind]. rewrite skipn_zlen by lia. rewrite app_nil_r.
    rewrite aset_OK by (destruct S0; lia). cbn [bind]. pose proof (SF_pos (T - 1) ltac:(lia)) as PT.
    match goal with |- for_down (T - 1) 0 ?G ?S = _ =>
      destruct (for_down_inv (fun t be => zlen be = T /\
        (forall k, t < k < T -> zn [] be k = ztab N (fun i => B k i * SFm (k - 1) / SF (T - 1))%R) /\
        (forall k, 0 <= k < t -> zlen (zn [] be k) = N) /\
        (0 <= t -> zn [] be t = ztab N (fun i => B t i * SF t / SF (T - 1))%R)) (T - 1) 0 G S)
      as (be & E & L1 & V1 & _ & _) end.
    - lia.
    - split; [destruct S0; zl; lia|]. split; [intros; lia|]. split.
      + intros k Hk. rewrite zn_upd by (destruct S0; lia). zcase. apply S0. lia.
      + intros _. rewrite zn_upd by (destruct S0; lia). zcase. apply ztab_ext. intros i Hi. rewrite B_last. field. lra.
    - intros t be Ht (L1 & V1 & V2 & V3). rewrite (aget_OK 0%R) by (zl; lia). cbn [bind]. rewrite (aget_OK []) by lia. cbn [bind].
      rewrite V3 by lia. rewrite map_row_ok by lia. cbn [bind]. rewrite aset_OK by lia. cbn [bind].
      rewrite zn_ztab by lia. pose proof (SF_pos t ltac:(lia)) as P.
      assert (ER : ztab N (fun i => B t i * SF t / SF (T - 1) * (SFm (t - 1) / SF t))%R =
        ztab N (fun i => B t i * SFm (t - 1) / SF (T - 1))%R).
      { apply ztab_ext. intros i Hi. field. lra. }
      rewrite ER. clear ER. destruct (Z.eqb_spec t 0) as [E0|E0].
      + eexists; split; [reflexivity|]. subst t. split; [zl; lia|]. split; [|split; intros; lia].
        intros k Hk. rewrite zn_upd by lia. zcase; [subst; reflexivity|]. apply V1. lia.
      + rewrite (aget_OK []) by (zl; lia). cbn [bind]. rewrite zn_upd by lia. destruct (Z.eqb_spec (t - 1) t); [lia|].
        rewrite (for_up_tab N _ (fun i => B (t - 1) i * SF (t - 1) / SF (T - 1))%R).
        2: rewrite V2; lia.
        2: { intros i s Hi _ _ _. rewrite (sum_up_ok N _ (fun j => af i j * bf t j * (B t j * SFm (t - 1) / SF (T - 1)))%R).
             2: lia.
             2: { intros j Hj. rewrite (mget_OK 0%R N N) by (auto; lia). cbn [bind]. rewrite (mget_OK 0%R T N) by (auto; lia). cbn [bind].
                  rewrite (aget_OK 0%R) by (zl; lia). cbn [bind]. now rewrite zn_ztab by lia. }
             cbn [bind]. f_equal. rewrite B_S by lia. replace (t - 1 + 1) with t by lia.
             rewrite (rsum_ext N (fun j => af i j * bf t j * (B t j * SFm (t - 1) / SF (T - 1)))%R
               (fun j => (SFm (t - 1) / SF (T - 1)) * (af i j * bf t j * B t j))%R) by (intros; field; lra).
             rewrite rsum_scal. unfold SFm. destruct (Z.ltb_spec (t - 1) 0); [lia|]. field. lra. }
        cbn [bind]. rewrite skipn_zlen by (rewrite V2; lia). rewrite app_nil_r. rewrite aset_OK by (zl; lia).
        eexists; split; [reflexivity|]. split; [zl; lia|]. split; [|split].
        * intros k Hk. rewrite zn_upd by (zl; lia). destruct (Z.eqb_spec k (t - 1)); [lia|].
          rewrite zn_upd by lia. destruct (Z.eqb_spec k t); [subst; reflexivity|]. apply V1. lia.
        * intros k Hk. rewrite zn_upd by (zl; lia). destruct (Z.eqb_spec k (t - 1)); [lia|].
          rewrite zn_upd by lia. destruct (Z.eqb_spec k t); [lia|]. apply V2. lia.
        * intros _. rewrite zn_upd by (zl; lia). now rewrite Z.eqb_refl.
    - rewrite E. f_equal. unfold tab2. apply (zn_ext []); [zl; lia|]. intros k Hk. rewrite zn_ztab by lia. apply V1. lia.
  Qed.

  Definition xi_ok (n : Z) (xi : list (list (list R))) : Prop :=
    zlen xi = n /\ forall t, 0 <= t < n -> shape N N (zn [] xi t).

  Lemma posteriors_ok gamma xi : shape T N gamma -> xi_ok T xi ->
    exists xi', posteriors N T a b (tab2 T N (fun t i => F t i / SF t)%R) (tab2 T N (fun t i => B t i * SFm (t - 1) / SF (T - 1))%R) gamma xi
      = OK (tab2 T N (in_state pf af bf N T), xi') /\ xi_ok T xi' /\
      forall t, 0 <= t < T - 1 -> zn [] xi' t = tab2 N N (in_states pf af bf N T t).
  Proof.
    intros Sg [Lx Sx]. unfold posteriors. pose proof (SF_pos (T - 1) ltac:(lia)) as PT.
    assert (EL : lik = SF (T - 1)) by now apply likelihood_last.
    rewrite (for_up_tab T _ (fun t => ztab N (in_state pf af bf N T t))).
    2: destruct Sg; lia.
    2: { intros t s Ht Ls V _. rewrite (aget_OK []) by (destruct Sg; lia). cbn [bind]. rewrite V by lia.
         rewrite (fill_row_ok N _ (fun i => F t i / SF t * (B t i * SFm (t - 1) / SF (T - 1)))%R).
         2: lia. 2: apply Sg; lia.
         2: { intros i Hi. rewrite !(mget_OK 0%R T N) by (try apply shape_tab2; lia). cbn [bind]. now rewrite !ent_tab2 by lia. }
         cbn [bind]. rewrite map_row_ok by lia. cbn [bind]. f_equal. apply ztab_ext. intros i Hi.
         pose proof (SF_pos t ltac:(lia)). pose proof (SFm_pos (t - 1) ltac:(lia)).
         rewrite (rsum_ext N (fun i => F t i / SF t * (B t i * SFm (t - 1) / SF (T - 1)))%R
           (fun i => (SFm (t - 1) / (SF t * SF (T - 1))) * (F t i * B t i))%R) by (intros; field; lra).
         rewrite rsum_scal. rewrite <- (likelihood_sum pf af bf N T HT t) by lia. rewrite in_state_eq by lia. field. 
         splits; lra. }
    cbn [bind]. rewrite skipn_zlen by (destruct Sg; lia). rewrite app_nil_r.
    destruct (for_up_write 0 (T - 1) (fun t xi =>
      m <- aget xi t ;;
      ' (m, tot) <- for_up 0 N (fun i '(m, tot) =>
        row <- aget m i ;;
        ' (row, tot) <- fill_row N (fun j =>
          x <- mget (tab2 T N (fun t i => F t i / SF t)%R) t i ;; y <- mget a i j ;; z <- mget b (t + 1) j ;; 
          w <- mget (tab2 T N (fun t i => B t i * SFm (t - 1) / SF (T - 1))%R) (t + 1) j ;;
          OK (x * y * z * w)%R) row tot ;;
        m <- aset m i row ;; OK (m, tot)) (m, 0%R) ;;
      m <- for_up 0 N (fun i m => row <- aget m i ;; row <- map_row N (fun v => v / tot)%R row ;; aset m i row) m ;;
      aset xi t m) (fun t => tab2 N N (in_states pf af bf N T t)) xi) as (xi' & E & L' & V1 & V2).
    - lia.
    - lia.
    - intros t s Ht Ls _ V. rewrite (aget_OK []) by lia. cbn [bind]. rewrite V by lia.
      destruct (Sx t ltac:(lia)) as (Lm & Rm). set (m := zn [] xi t) in *.
      pose proof (SF_pos t ltac:(lia)) as Pt.
      set (g := fun i j => (F t i * af i j * bf (t + 1) j * B (t + 1) j / lik)%R).
      assert (EF : for_up 0 N (fun i '(m, tot) =>
        row <- aget m i ;;
        ' (row, tot) <- fill_row N (fun j =>
          x <- mget (tab2 T N (fun t i => F t i / SF t)%R) t i ;; y <- mget a i j ;; z <- mget b (t + 1) j ;; 
          w <- mget (tab2 T N (fun t i => B t i * SFm (t - 1) / SF (T - 1))%R) (t + 1) j ;;
          OK (x * y * z * w)%R) row tot ;;
        m <- aset m i row ;; OK (m, tot)) (m, 0%R) = OK (tab2 N N g, rsum N (fun i => rsum N (g i)))).
      { match goal with |- for_up 0 N ?G ?S = _ =>
          destruct (for_up_inv (fun i '((m', tot) : list (list R) * R) => zlen m' = N /\
            (forall k, 0 <= k < i -> zn [] m' k = ztab N (g k)) /\ (forall k, i <= k < N -> zlen (zn [] m' k) = N) /\
            tot = rsum i (fun i => rsum N (g i))) 0 N G S) as ([m' tot] & E & L1 & V1 & _ & ->) end.
        - lia.
        - splits; auto. intros; lia.
        - intros i [m' tot] Hi (L1 & V1 & V2 & ->). rewrite (aget_OK []) by lia. cbn [bind].
          rewrite (fill_row_ok N _ (g i)).
          2: lia. 2: apply V2; lia.
          2: { intros j Hj. rewrite (mget_OK 0%R T N) by (try apply shape_tab2; lia). cbn [bind].
               rewrite (mget_OK 0%R N N) by (auto; lia). cbn [bind]. rewrite (mget_OK 0%R T N) by (auto; lia). cbn [bind].
               rewrite (mget_OK 0%R T N) by (try apply shape_tab2; lia). cbn [bind]. rewrite !ent_tab2 by lia. f_equal.
               unfold g. replace (t + 1 - 1) with t by lia. unfold SFm. destruct (Z.ltb_spec t 0); [lia|]. rewrite EL. field. lra. }
          cbn [bind]. rewrite aset_OK by lia. cbn [bind]. eexists; split; [reflexivity|]. cbv beta iota. splits; try (zl; lia).
          + intros k Hk. rewrite zn_upd by lia. zcase; [subst; reflexivity|]. apply V1. lia.
          + intros k Hk. rewrite zn_upd by lia. zcase. apply V2. lia.
          + now rewrite rsum_S by lia.
        - rewrite E. do 2 f_equal. unfold tab2. apply (zn_ext []); [zl; lia|]. intros k Hk. rewrite zn_ztab by lia. apply V1. lia. }
      rewrite EF. cbn [bind]. clear EF.
      assert (ET : rsum N (fun i => rsum N (g i)) = 1%R).
      { rewrite (rsum_ext N _ (fun i => / lik * (F t i * B t i))%R).
        - rewrite rsum_scal, <- likelihood_sum by lia. field. lra.
        - intros i Hi. unfold g. rewrite B_S by lia.
          rewrite (rsum_ext N _ (fun j => (F t i / lik) * (af i j * bf (t + 1) j * B (t + 1) j))%R) by (intros; field; lra).
          rewrite rsum_scal. field. lra. }
      rewrite ET. rewrite (for_up_tab N _ (fun i => ztab N (g i))).
      + cbn [bind]. rewrite skipn_zlen by (unfold tab2; zl; lia). rewrite app_nil_r. f_equal. unfold tab2. apply ztab_ext. intros i Hi.
        apply ztab_ext. intros j Hj. now rewrite in_states_eq by lia.
      + unfold tab2. zl. lia.
      + intros i s' Hi Ls' V' _. unfold tab2 in Ls', V'. revert Ls'. zl. intros Ls'. rewrite (aget_OK []) by lia. cbn [bind]. rewrite V' by lia.
        rewrite zn_ztab by lia. rewrite map_row_ok by lia. cbn [bind]. f_equal. apply ztab_ext. intros j Hj. field.
    - rewrite E. cbn [bind]. exists xi'. split; [reflexivity|]. split; [split; [lia|]|].
      + intros t Ht. destruct (Z.eq_dec t (T - 1)) as [->|].
        * rewrite V2 by lia. apply Sx. lia.
        * rewrite V1 by lia. apply shape_tab2; lia.
      + intros t Ht. apply V1. lia.
  Qed.

  Theorem forward_backwards_ok gamma xi ll ll1 ll2 iter : shape T N gamma -> xi_ok T xi ->
    exists xi', forward_backwards junk xi gamma ll ll1 ll2 iter N T p0 a b =
      OK (xi', tab2 T N (in_state pf af bf N T), (ln lik, ll, if iter =? 2 then ln (SF 0) else ll2)) /\ xi_ok T xi' /\
      forall t, 0 <= t < T - 1 -> zn [] xi' t = tab2 N N (in_states pf af bf N T t).
  Proof.
    intros Sg Sx. unfold forward_backwards. rewrite forward_ok. cbn [bind]. rewrite (aget_OK 0%R) by (zl; lia). cbn [bind].
    rewrite backward_ok. cbn [bind]. destruct (posteriors_ok gamma xi Sg Sx) as (xi' & E & X & V). rewrite E. cbn [bind].
    exists xi'. splits; auto. rewrite zn_ztab by lia. do 4 f_equal.
    - f_equal. now rewrite (likelihood_last pf af bf N T).
    - pose proof (SF_pos 0 ltac:(lia)). destruct (iter =? 2); auto. rewrite <- ln_Rinv.
      + f_equal. unfold SFm. change (0 - 1 <? 0) with true. cbn iota. field. lra.
      + apply Rdiv_lt_0_compat; [apply SFm_pos; lia|auto].
  Qed.
End Code.
