(** viterbi_decode finds a best path of beat periods. *)
From Coq Require Import List ZArith Reals Lia Lra Bool.
From Verif.Base Require Import Imp Sums RealOps Arith Loops.
From Verif.Tempo Require Import BeatModel BeatProofs BeatReal PeriodModel PeriodSpec.
Import ListNotations.
Open Scope Z_scope.
Local Notation Rn := (zn 0%R).

Lemma EPS_pos : (0 < EPS)%R.
Proof. unfold EPS. lra. Qed.

Definition from_ok {A} (d : A) (r : res A) : A := match r with OK x => x | _ => d end.

(** *** One column *)
Lemma norm_col_ok Q col : 0 <= Q -> zlen col = Q ->
  norm_col Q col = OK (ztab Q (fun i => (Rn col i / (rsum Q (Rn col) + EPS))%R)).
Proof.
  intros HQ L. unfold norm_col.
  rewrite (for_up_fsum 0%R Rplus Q _ (Rn col)); [|auto|].
  2: { intros i acc Hi. rewrite (aget_OK 0%R) by lia. reflexivity. }
  ret. fold (rsum Q (Rn col)).
  rewrite (for_up_tab Q _ (fun i => (Rn col i / (rsum Q (Rn col) + EPS))%R)); [|lia|].
  - now rewrite skipn_zlen, app_nil_r by lia.
  - intros i s Hi Ls Ks _. rewrite (aget_OK 0%R) by lia. ret. now rewrite Ks by lia.
Qed.

Lemma first_col_ok Q wv r0 : 0 <= Q -> Q <= zlen wv -> zlen r0 = Q ->
  first_col Q wv r0 =
    OK (ztab Q (fun i => (Rn wv i * Rn r0 i / (rsum Q (fun i => Rn wv i * Rn r0 i) + EPS))%R)).
Proof.
  intros HQ Lw L. unfold first_col.
  rewrite (for_up_tab Q _ (fun i => (Rn wv i * Rn r0 i)%R)); [|zl; unfold zlen in *; lia|].
  - ret. assert (Lr : zlen (repeat 0%R (length r0)) <= Q) by (rewrite zlen_repeat; unfold zlen in *; lia).
    rewrite skipn_zlen, app_nil_r by lia. rewrite norm_col_ok by (zl; lia). f_equal.
    apply ztab_ext. intros i Hi. rewrite zn_ztab by lia. f_equal. f_equal. apply rsum_ext. intros; now rewrite zn_ztab.
  - intros i s Hi Ls Ks _. rewrite !(aget_OK 0%R) by lia. now repeat ret.
Qed.

Section Col.
  Variables (Q : Z) (tm : list (list R)) (TM : Z -> Z -> R).
  Hypothesis HQ : 1 <= Q.
  Hypothesis Htm : forall j, 0 <= j < Q -> exists row, aget tm j = OK row /\
    forall i, 0 <= i < Q -> aget row i = OK (TM j i).

  Definition cand (prev : list R) (j : Z) : list R := ztab Q (fun i => (Rn prev i * TM j i)%R).
  Definition best (prev : list R) (j : Z) : R := from_ok 0%R (get_max_val Rarith (cand prev j)).
  Definition arg (prev : list R) (j : Z) : Z := from_ok 0 (get_max_ind Rarith (cand prev j)).

  Lemma best_ok prev j :
    get_max_val Rarith (cand prev j) = OK (best prev j) /\ get_max_ind Rarith (cand prev j) = OK (arg prev j) /\
    0 <= arg prev j < Q /\ (0 <= best prev j)%R /\
    (forall i, 0 <= i < Q -> (Rn prev i * TM j i <= best prev j)%R) /\
    ((forall i, 0 <= i < Q -> (0 <= Rn prev i * TM j i)%R) -> best prev j = (Rn prev (arg prev j) * TM j (arg prev j))%R).
  Proof.
    destruct (max_real (cand prev j)) as (m & k & Em & Ek & M0 & MX & MI).
    unfold best, arg. rewrite Em, Ek. cbn [from_ok]. 
    assert (L : zlen (cand prev j) = Q) by (unfold cand; zl; lia). rewrite L in *.
    assert (MX' : forall i, 0 <= i < Q -> (Rn prev i * TM j i <= m)%R).
    { intros i Hi. specialize (MX i Hi). unfold cand in MX. now rewrite zn_ztab in MX. }
    splits; auto; try (destruct MI as [(_ & ->)|(_ & ? & _)]; lia).
    intros NN. destruct MI as [(-> & ->)|(_ & Hk & <-)].
    - specialize (NN 0 ltac:(lia)). specialize (MX' 0 ltac:(lia)). lra.
    - unfold cand. now rewrite zn_ztab.
  Qed.

  Lemma next_col_ok prev r : zlen prev = Q -> zlen r = Q ->
    next_col Q tm prev r = OK
      (ztab Q (fun j => (best prev j * Rn r j / (rsum Q (fun j => best prev j * Rn r j) + EPS))%R),
       ztab Q (arg prev)).
  Proof.
    intros Lp Lr. unfold next_col.
    match goal with |- context [for_up 0 Q ?F ?S] =>
      destruct (for_up_inv (fun j s => exists tmp, zlen tmp = Q /\
        s = (ztab j (fun j => (best prev j * Rn r j)%R) ++ repeat 0%R (Z.to_nat (Q - j)),
             ztab j (arg prev) ++ repeat 0 (Z.to_nat (Q - j)), tmp)) 0 Q F S) as (s & E & tmp & _ & ->) end.
    - lia.
    - exists (repeat 0%R (Z.to_nat Q)). split; [zl; lia|].
      replace (length r) with (Z.to_nat (Q - 0)) by (unfold zlen in *; lia). reflexivity.
    - intros j s Hj (tmp & Lt & ->).
      destruct (Htm j Hj) as (row & Erow & Hrow). rewrite Erow. ret.
      rewrite (for_up_tab Q _ (fun i => (Rn prev i * TM j i)%R)); [|lia|].
      2: { intros i s Hi Ls Ks _. rewrite (aget_OK 0%R) by lia. ret. rewrite Hrow by auto. now ret. }
      ret. rewrite skipn_zlen, app_nil_r by lia. fold (cand prev j).
      destruct (best_ok prev j) as (Em & Ek & _). rewrite Em. ret.
      assert (U : forall B (g : Z -> B) x v, upd (ztab j g ++ repeat x (Z.to_nat (Q - j))) (Z.to_nat j) v =
                ztab j g ++ v :: repeat x (Z.to_nat (Q - (j + 1)))).
      { intros B g x v. apply (zn_ext x); [zl; lia|]. intros k Hk. zl. rewrite zn_upd by (zl; lia).
        rewrite !zn_app. zl. rewrite !Z.max_r by lia. rewrite !zn_cons, !zn_repeat.
        zcase; subst; try lia; auto. }
      rewrite aset_OK by (zl; lia). ret. rewrite U. rewrite Ek. ret.
      rewrite aset_OK by (zl; lia). ret. rewrite U.
      rewrite (aget_OK 0%R) by (zl; lia). ret.
      rewrite (aget_OK 0%R) by lia. ret.
      rewrite aset_OK by (zl; lia). ret.
      eexists; split; [reflexivity|]. exists (cand prev j). split; [unfold cand; zl; lia|].
      rewrite !ztab_snoc by lia. rewrite <- !app_assoc. cbn [app]. f_equal. f_equal.
      assert (U2 : forall l (x y : R) t, zlen l = j -> upd (l ++ x :: t) (Z.to_nat j) y = l ++ y :: t).
      { intros l x y t Ll. apply (zn_ext 0%R); [zl; lia|]. intros k Hk. zl. rewrite zn_upd by (zl; pose proof (zlen_nonneg t); lia).
        rewrite !zn_app, !zn_cons. zcase; auto; lia. }
      rewrite U2 by (zl; lia). f_equal. f_equal. rewrite zn_app. zl. rewrite Z.max_r by lia. zcase.
      rewrite zn_cons. zcase. reflexivity.
    - rewrite E. ret. replace (Z.to_nat (Q - Q)) with 0%nat by lia. cbn [repeat]. rewrite !app_nil_r.
      rewrite norm_col_ok by (zl; lia). ret. do 2 f_equal.
      apply ztab_ext. intros i Hi. rewrite zn_ztab by lia. f_equal. f_equal. apply rsum_ext. intros; now rewrite zn_ztab.
  Qed.

  (** *** All columns *)
  Variables (wv : list R) (rcfmat : list (list R)).
  Local Notation T := (zlen rcfmat).
  Definition rc (t j : Z) : R := Rn (zn [] rcfmat t) j.
  Hypothesis Lw : Q <= zlen wv.
  Hypothesis Lr : Forall (fun r => zlen r = Q) rcfmat.
  Hypothesis TM0 : forall j i, (0 <= TM j i)%R.
  Hypothesis W0 : forall j, 0 <= j < Q -> (0 <= Rn wv j)%R.
  Hypothesis R0 : forall t j, 0 <= t < T -> 0 <= j < Q -> (0 <= rc t j)%R.

  Local Notation score q t := (path_score (Rn wv) rc (fun p p' => TM p' p) q t).
  Definition states (q : Z -> Z) : Prop := forall t, 0 <= q t < Q.
  Definition linked (psis : list (list Z)) (t : Z) (q : Z -> Z) : Prop :=
    forall s, 1 <= s <= t -> q (s - 1) = zn 0 (zn [] psis s) (q s).

  Lemma row_len t : 0 <= t < T -> zlen (zn [] rcfmat t) = Q.
  Proof.
    intros Ht. rewrite Forall_forall in Lr. apply Lr. unfold zn. destruct (Z.ltb_spec t 0); [lia|].
    apply nth_In. unfold zlen in *. lia.
  Qed.

  Lemma columns_ok d0 psi0 : 2 <= T -> first_col Q wv (zn [] rcfmat 0) = OK d0 ->
    exists d psis c, columns Q tm rcfmat d0 psi0 = OK (d, psi0 :: psis) /\ zlen psis = T - 1 /\ zlen d = Q /\
      Forall (fun p => zlen p = Q /\ Forall (fun k => 0 <= k < Q) p) psis /\ (0 < c)%R /\
      (forall j, 0 <= j < Q -> (0 <= Rn d j)%R) /\
      (forall q, states q -> (c * score q (Z.to_nat (T - 1)%Z) <= Rn d (q (T - 1)%Z))%R) /\
      (forall q, states q -> linked (psi0 :: psis) (T - 1) q ->
         (c * score q (Z.to_nat (T - 1)%Z) = Rn d (q (T - 1)%Z))%R).
  Proof.
    intros HT E0. unfold columns.
    match goal with |- context [for_up 1 T ?F ?S] =>
      destruct (for_up_inv (fun t s => exists d psis c, s = (d, psi0 :: psis) /\ zlen psis = t - 1 /\ zlen d = Q /\
        Forall (fun p => zlen p = Q /\ Forall (fun k => 0 <= k < Q) p) psis /\ (0 < c)%R /\
        (forall j, 0 <= j < Q -> (0 <= Rn d j)%R) /\
        (forall q, states q -> (c * score q (Z.to_nat (t - 1)%Z) <= Rn d (q (t - 1)%Z))%R) /\
        (forall q, states q -> linked (psi0 :: psis) (t - 1) q ->
           (c * score q (Z.to_nat (t - 1)) = Rn d (q (t - 1)%Z))%R)) 1 T F S)
        as (s & E & d & psis & c & -> & H1 & H2 & H3 & H4 & H5 & H6 & H7) end.
    - lia.
    - exists d0, []. rewrite first_col_ok in E0 by (try apply row_len; lia). injection E0 as <-.
      set (sm := rsum Q _). 
      assert (S0 : (0 <= sm)%R).
      { apply rsum_nonneg. intros i Hi. apply Rmult_le_pos; [now apply W0|]. apply (R0 0 i); lia. }
      pose proof EPS_pos. exists (/ (sm + EPS))%R.
      assert (V : forall q, states q -> (/ (sm + EPS) * score q (Z.to_nat (1 - 1)) =
        Rn (ztab Q (fun i => (Rn wv i * Rn (zn [] rcfmat 0) i / (sm + EPS))%R)) (q (1 - 1)%Z))%R).
      { intros q Hq. change (1 - 1)%Z with 0%Z. rewrite zn_ztab by apply Hq. cbn [path_score Z.to_nat].
        unfold rc. field. lra. }
      splits; auto; try (zl; lia).
      + apply Rinv_0_lt_compat. lra.
      + intros j Hj. rewrite zn_ztab by lia. apply Rmult_le_pos.
        * apply Rmult_le_pos; [now apply W0|]. apply (R0 0 j); lia.
        * apply Rlt_le, Rinv_0_lt_compat. lra.
      + intros q Hq. apply Req_le. now apply V.
    - intros t s Ht (d & psis & c & -> & H1 & H2 & H3 & H4 & H5 & H6 & H7).
      rewrite (aget_OK []) by lia. ret. rewrite next_col_ok by (auto; apply row_len; lia). ret.
      eexists; split; [reflexivity|].
      set (sm := rsum Q _). set (r := zn [] rcfmat t) in *.
      assert (Rp : forall j, 0 <= j < Q -> (0 <= Rn r j)%R) by (intros; apply (R0 t j); lia).
      assert (S0 : (0 <= sm)%R).
      { apply rsum_nonneg. intros i Hi. apply Rmult_le_pos; [|now apply Rp]. apply best_ok. }
      pose proof EPS_pos. assert (I0 : (0 < / (sm + EPS))%R) by (apply Rinv_0_lt_compat; lra).
      eexists _, (psis ++ [ztab Q (arg d)]), (c * / (sm + EPS))%R. splits.
      + reflexivity.
      + zl. lia.
      + zl. lia.
      + apply Forall_app. split; auto. constructor; [|constructor]. split; [zl; lia|].
        apply Forall_forall. intros k Hk. unfold ztab in Hk. apply in_map_iff in Hk as (n & <- & _). apply best_ok.
      + now apply Rmult_lt_0_compat.
      + intros j Hj. rewrite zn_ztab by lia. apply Rmult_le_pos; [|lra]. apply Rmult_le_pos; [|now apply Rp]. apply best_ok.
      + intros q Hq. replace (t + 1 - 1) with t by lia. rewrite zn_ztab by apply Hq.
        replace (Z.to_nat t) with (S (Z.to_nat (t - 1))) by lia. cbn [path_score].
        replace (Z.of_nat (S (Z.to_nat (t - 1)))) with t by lia. replace (Z.of_nat (Z.to_nat (t - 1))) with (t - 1) by lia.
        specialize (H6 q Hq). set (sc := path_score _ _ _ _ _) in *.
        destruct (best_ok d (q t)) as (_ & _ & _ & _ & BX & _). specialize (BX (q (t - 1)) (Hq _)).
        change (rc t (q t)) with (Rn r (q t)). unfold Rdiv.
        replace (c * / (sm + EPS) * (sc * (TM (q t) (q (t - 1)%Z) * Rn r (q t))))%R
          with (c * sc * TM (q t) (q (t - 1)%Z) * Rn r (q t) * / (sm + EPS))%R by ring.
        apply Rmult_le_compat_r; [lra|]. apply Rmult_le_compat_r; [apply Rp, Hq|].
        eapply Rle_trans; [|exact BX]. apply Rmult_le_compat_r; [apply TM0|]. exact H6.
      + intros q Hq HL. replace (t + 1 - 1) with t in * by lia. rewrite zn_ztab by apply Hq.
        assert (HL' : linked (psi0 :: psis) (t - 1) q).
        { intros s Hs. rewrite (HL s) by lia. rewrite app_comm_cons, zn_app. zl. zcase. reflexivity. }
        specialize (H7 q Hq HL').
        assert (QT : q (t - 1) = arg d (q t)).
        { rewrite (HL t) by lia. rewrite app_comm_cons, zn_app. zl. zcase. rewrite zn_cons. zcase.
          rewrite zn_ztab by apply Hq. reflexivity. }
        replace (Z.to_nat t) with (S (Z.to_nat (t - 1))) by lia. cbn [path_score].
        replace (Z.of_nat (S (Z.to_nat (t - 1)))) with t by lia. replace (Z.of_nat (Z.to_nat (t - 1))) with (t - 1) by lia.
        set (sc := path_score _ _ _ _ _) in *.
        destruct (best_ok d (q t)) as (_ & _ & _ & _ & _ & BE). rewrite BE.
        * rewrite <- QT, <- H7. change (rc t (q t)) with (Rn r (q t)). unfold Rdiv. ring.
        * intros i Hi. apply Rmult_le_pos; auto.
    - rewrite E. exists d, psis, c. splits; auto.
  Qed.

  (** *** The back-trace *)
  Lemma backtrace_ok d psi0 psis : 2 <= T -> zlen psis = T - 1 -> zlen d = Q ->
    Forall (fun p => zlen p = Q /\ Forall (fun k => 0 <= k < Q) p) psis ->
    (forall j, 0 <= j < Q -> (0 <= Rn d j)%R) ->
    exists bp, backtrace T Q d (psi0 :: psis) = OK bp /\ zlen bp = T /\ Forall (fun k => 0 <= k < Q) bp /\
      linked (psi0 :: psis) (T - 1) (zn 0 bp) /\ (forall j, 0 <= j < Q -> (Rn d j <= Rn d (zn 0%Z bp (T - 1)%Z))%R).
  Proof.
    intros HT L1 L2 FP D0. unfold backtrace.
    rewrite (for_up_tab Q _ (Rn d)); [|zl; lia|].
    2: { intros i s Hi Ls _ _. rewrite (aget_OK 0%R) by lia. now ret. }
    ret. rewrite skipn_zlen, app_nil_r by (zl; lia).
    replace (ztab Q (Rn d)) with d by (rewrite <- L2; symmetry; apply ztab_zn).
    destruct (max_real d) as (m & k & _ & Ek & M0 & MX & MI). rewrite Ek. ret. rewrite L2 in *.
    assert (Hk : 0 <= k < Q) by (destruct MI as [(_ & ->)|(_ & ? & _)]; lia).
    assert (KX : forall j, 0 <= j < Q -> (Rn d j <= Rn d k)%R).
    { intros j Hj. destruct MI as [(-> & ->)|(_ & _ & ->)]; [|auto]. specialize (MX j Hj). specialize (D0 0 ltac:(lia)). lra. }
    rewrite aset_OK by (zl; lia). ret.
    assert (PS : forall s b, 1 <= s < T -> 0 <= b < Q ->
      exists p, aget (psi0 :: psis) s = OK p /\ aget p b = OK (zn 0 (zn [] (psi0 :: psis) s) b) /\
        0 <= zn 0 (zn [] (psi0 :: psis) s) b < Q).
    { intros s b Hs Hb. rewrite (aget_OK []) by (zl; lia). rewrite zn_cons. zcase.
      assert (Hp : zlen (zn [] psis (s - 1)) = Q /\ Forall (fun k => 0 <= k < Q) (zn [] psis (s - 1))).
      { rewrite Forall_forall in FP. apply FP. unfold zn. destruct (Z.ltb_spec (s - 1) 0); [lia|].
        apply nth_In. unfold zlen in *. lia. }
      destruct Hp as [Lp Fp]. eexists; split; [reflexivity|]. split; [apply aget_OK; lia|].
      rewrite Forall_forall in Fp. apply Fp. unfold zn at 1. destruct (Z.ltb_spec b 0); [lia|].
      apply nth_In. unfold zlen in *. lia. }
    set (b0 := upd _ _ k).
    assert (Lb0 : zlen b0 = T) by (unfold b0; zl; lia).
    set (Inv := fun t bp => zlen bp = T /\ (forall s, t < s < T -> 0 <= zn 0 bp s < Q) /\ zn 0 bp (T - 1) = k /\
        forall s, t + 2 <= s < T -> zn 0 bp (s - 1) = zn 0 (zn [] (psi0 :: psis) s) (zn 0 bp s)).
    assert (STEP : forall t bp, 0 <= t <= T - 2 -> Inv t bp -> exists p, aget (psi0 :: psis) (t + 1) = OK p /\
      aget bp (t + 1) = OK (zn 0 bp (t + 1)) /\ exists v, aget p (zn 0 bp (t + 1)) = OK v /\
      exists bp', aset bp t v = OK bp' /\ Inv (t - 1) bp').
    { intros t bp Ht (I1 & I2 & I3 & I4). destruct (PS (t + 1) (zn 0 bp (t + 1))) as (p & E1 & E2 & E3); [lia|apply I2; lia|].
      exists p. split; auto. split; [apply aget_OK; lia|]. eexists; split; [exact E2|].
      rewrite aset_OK by lia. eexists; split; [reflexivity|].
      assert (OT : forall s, s <> t -> zn 0 (upd bp (Z.to_nat t) (zn 0 (zn [] (psi0 :: psis) (t + 1)) (zn 0 bp (t + 1)))) s = zn 0 bp s).
      { intros s Hs. destruct (Z.lt_ge_cases s 0); [now rewrite !zn_out by (zl; lia)|]. rewrite zn_upd by lia. zcase; lia || auto. }
      unfold Inv. splits.
      - zl. lia.
      - intros s Hs. destruct (Z.eq_dec s t) as [->|]; [|rewrite OT by auto; apply I2; lia].
        rewrite zn_upd by lia. zcase. exact E3.
      - now rewrite OT by lia.
      - intros s Hs. rewrite (OT s) by lia. destruct (Z.eq_dec s (t + 1)) as [->|].
        + rewrite zn_upd by lia. zcase. reflexivity.
        + rewrite OT by lia. apply I4. lia. }
    match goal with |- context [for_down (T - 2) 1 ?F b0] =>
      destruct (for_down_inv Inv (T - 2) 1 F b0) as (bp & E & HI) end.
    - lia.
    - unfold Inv. splits; auto.
      + intros s Hs. unfold b0. rewrite zn_upd by (zl; lia). zcase; lia.
      + unfold b0. rewrite zn_upd by (zl; lia). zcase; lia.
      + intros; lia.
    - intros t bp Ht HI. destruct (STEP t bp ltac:(lia) HI) as (p & -> & -> & v & Ev & bp' & Es & HI').
      repeat ret. rewrite Ev. ret. eauto.
    - rewrite E. ret. change (1 - 1) with 0 in HI.
      destruct (STEP 0 bp ltac:(lia) HI) as (p & Ep & Eb & v & Ev & bp' & Es & HI'). cbn [Z.add] in *.
      rewrite Ep. ret. rewrite Eb. ret. rewrite Ev. ret. exists bp'. destruct HI' as (I1 & I2 & I3 & I4). splits; auto.
      + apply Forall_forall. intros x Hx. apply (In_nth _ _ 0) in Hx as (n & Hn & <-).
        specialize (I2 (Z.of_nat n) ltac:(unfold zlen in *; lia)). unfold zn in I2.
        destruct (Z.ltb_spec (Z.of_nat n) 0); [lia|]. now rewrite Nat2Z.id in I2.
      + intros s Hs. apply I4. lia.
      + now rewrite I3.
  Qed.
End Col.

(** *** Writing the result *)
Definition period_at (path : list Z) (k : Z) : R := IZR (zn 0 path (Z.min (k / 128) (zlen path - 1))).

Lemma write_out_ok factor path bp tempi : let T := zlen path in
  1 <= T -> 128 * T <= zlen bp ->
  write_out factor T path bp tempi =
    OK (ztab (zlen bp) (period_at path), tempi ++ ztab (zlen bp) (fun k => (factor / period_at path k)%R)).
Proof.
  intros T HT HL. unfold write_out.
  set (blk := fun (n : Z) (s : list R * Z) => s = (ztab n (period_at path) ++ skipn (Z.to_nat n) bp, n - 1)).
  assert (PA : forall i j, 0 <= i < T -> 0 <= j < 128 -> IZR (zn 0 path i) = period_at path (i * 128 + j)).
  { intros i j Hi Hj. unfold period_at. do 2 f_equal. fold T.
    replace ((i * 128 + j) / 128) with i; [lia|]. apply Z.div_unique with j; lia. }
  assert (IN : forall i j s, 0 <= i < T -> 0 <= j < 128 ->
     (exists l, s = (ztab (i * 128 + j) (period_at path) ++ skipn (Z.to_nat (i * 128 + j)) bp, l)) ->
     exists s', (fun (j : Z) '((beat_period, _) : list R * Z) =>
      let lastind := i * 128 + j in
      b <- aget path i ;;
      beat_period <- aset beat_period lastind (IZR b) ;;
      OK (beat_period, lastind)) j s = OK s' /\ blk (i * 128 + (j + 1)) s').
  { intros i j s Hi Hj (l & ->). cbv zeta. rewrite (aget_OK 0) by (fold T; lia). ret.
    rewrite aset_OK by (zl; lia). ret. eexists; split; [reflexivity|]. unfold blk. f_equal; [|lia].
    rewrite (PA i j) by lia. set (m := i * 128 + j) in *. replace (i * 128 + (j + 1)) with (m + 1) by lia.
    apply (zn_ext 0%R); [zl; lia|]. intros k Hk. zl. rewrite zn_upd by (zl; lia).
    rewrite !zn_app. zl. rewrite !Z.max_r by lia.
    zcase; subst; try lia; rewrite ?zn_ztab by lia; auto. rewrite !zn_skipn by lia. f_equal. lia. }
  match goal with |- context [for_up 0 T ?F ?S] =>
    destruct (for_up_inv (fun i s => (i = 0 /\ s = (bp, 0)) \/ (1 <= i /\ blk (i * 128) s)) 0 T F S) as (s & E & Hs) end.
  - lia.
  - now left.
  - intros i s Hi Hs.
    match goal with |- context [for_up 0 128 ?F s] =>
      destruct (for_up_inv (fun j s => (j = 0 /\ exists l, s = (ztab (i * 128 + j) (period_at path) ++ skipn (Z.to_nat (i * 128 + j)) bp, l)) \/
        (1 <= j /\ blk (i * 128 + j) s)) 0 128 F s) as (s' & E & Hs') end.
    + lia.
    + left. split; auto. destruct Hs as [(-> & ->)|(_ & ->)].
      * exists 0. reflexivity.
      * rewrite Z.add_0_r. now eexists.
    + intros j s' Hj Hs'.
      destruct (IN i j s') as (s2 & E2 & H2); auto.
      { destruct Hs' as [(-> & H)|(_ & ->)]; [exact H|now eexists]. }
      exists s2. split; [exact E2|]. right. split; [lia|]. exact H2.
    + exists s'. split; [exact E|]. right. split; [lia|]. destruct Hs' as [(? & _)|(_ & H)]; [lia|].
      now replace ((i + 1) * 128) with (i * 128 + 128) by lia.
  - rewrite E. ret. destruct Hs as [(? & _)|(_ & ->)]; [lia|]. cbv beta iota.
    set (bp1 := ztab _ _ ++ _). assert (L1 : zlen bp1 = zlen bp) by (unfold bp1; zl; lia).
    assert (N1 : forall k, 0 <= k < T * 128 -> Rn bp1 k = period_at path k).
    { intros k Hk. unfold bp1. rewrite zn_app. zl. rewrite Z.max_r by lia. zcase. now rewrite zn_ztab. }
    match goal with |- context [for_up (T * 128 - 1) (zlen bp1) ?F bp1] =>
      destruct (for_up_inv (fun i s => zlen s = zlen bp /\ forall k, 0 <= k < Z.max i (T * 128) -> Rn s k = period_at path k)
        (T * 128 - 1) (zlen bp1) F bp1) as (bp2 & E2 & L2 & N2) end.
    + lia.
    + split; auto. intros k Hk. apply N1. lia.
    + intros i s Hi (Ls & Ns). rewrite (aget_OK 0%R) by lia. ret. rewrite Ns by lia. rewrite aset_OK by lia.
      eexists; split; [reflexivity|]. split; [zl; lia|]. intros k Hk. rewrite zn_upd by lia. zcase; subst.
      * unfold period_at. do 2 f_equal. fold T. rewrite !Z.min_r; auto.
        -- apply Z.div_le_lower_bound; lia.
        -- apply Z.div_le_lower_bound; lia.
      * apply Ns. lia.
    + rewrite E2. ret. 
      assert (EB : bp2 = ztab (zlen bp) (period_at path)).
      { apply (zn_ext 0%R); [zl; lia|]. intros k Hk. rewrite zn_ztab by lia. apply N2. lia. }
      match goal with |- context [for_up 0 (zlen bp2) ?F tempi] =>
        destruct (for_up_inv (fun i s => s = tempi ++ ztab i (fun k => (factor / period_at path k)%R)) 0 (zlen bp2) F tempi)
          as (tm & E3 & ->) end.
      * lia.
      * rewrite ztab_0 by lia. now rewrite app_nil_r.
      * intros i s Hi ->. rewrite (aget_OK 0%R) by lia. ret. eexists; split; [reflexivity|].
        rewrite ztab_snoc, app_assoc by lia. do 4 f_equal. apply N2. lia.
      * rewrite E3. ret. rewrite L2, EB. reflexivity.
Qed.

(** *** viterbi_decode *)
Lemma tmat_ok n Q : Q <= n -> forall j, 0 <= j < Q -> exists row, aget (tmat n) j = OK row /\
  forall i, 0 <= i < Q -> aget row i = OK (tempo_change n i j).
Proof.
  intros HQ j Hj. unfold tmat. rewrite (aget_OK []) by (zl; lia). eexists; split; [reflexivity|].
  intros i Hi. rewrite zn_ztab by lia. rewrite (aget_OK 0%R) by (zl; lia). rewrite zn_ztab by lia. f_equal. unfold tempo_change.
  replace ((20 <=? j) && (j <? n - 20) && (20 <=? i) && (i <? n - 20))
    with ((20 <=? i) && (i <? n - 20) && (20 <=? j) && (j <? n - 20)).
  - destruct (_ && _); auto. f_equal. rewrite minus_IZR. unfold Rdiv. f_equal. ring.
  - destruct (20 <=? j), (j <? n - 20), (20 <=? i), (i <? n - 20); reflexivity.
Qed.

Lemma tempo_change_nonneg n p p' : (0 <= tempo_change n p p')%R.
Proof. unfold tempo_change. destruct (_ && _); [apply Rlt_le, exp_pos|lra]. Qed.

Lemma In_range (P : Z -> Prop) l k : Forall P l -> 0 <= k < zlen l -> P (zn 0 l k).
Proof.
  intros F Hk. rewrite Forall_forall in F. apply F. unfold zn. destruct (Z.ltb_spec k 0); [lia|].
  apply nth_In. unfold zlen in *. lia.
Qed.

Theorem viterbi_best factor Q rcfmat wv bp tempi :
  let T := zlen rcfmat in
  let score q := path_score (Rn wv) (fun t j => Rn (zn [] rcfmat t) j) (tempo_change (zlen wv)) q (Z.to_nat (T - 1)) in
  1 <= Q <= zlen wv -> 2 <= T -> Forall (fun r => zlen r = Q) rcfmat -> 128 * T <= zlen bp ->
  (forall j, 0 <= j < Q -> (0 <= Rn wv j)%R) ->
  (forall t j, 0 <= t < T -> 0 <= j < Q -> (0 <= Rn (zn [] rcfmat t) j)%R) ->
  exists path, zlen path = T /\ Forall (fun k => 0 <= k < Q) path /\
    viterbi_decode factor rcfmat wv bp tempi =
      OK (ztab (zlen bp) (period_at path), tempi ++ ztab (zlen bp) (fun k => (factor / period_at path k)%R)) /\
    forall q, (forall t, 0 <= q t < Q) -> (score q <= score (zn 0%Z path))%R.
Proof.
  intros T score HQ HT HR HB HW HF. unfold viterbi_decode. fold T. destruct (Z.ltb_spec T 2); [lia|].
  rewrite (aget_OK []) by (fold T; lia). ret.
  assert (L0 : zlen (zn [] rcfmat 0) = Q) by (apply (row_len Q wv rcfmat HR); fold T; lia). rewrite L0.
  rewrite first_col_ok by lia. ret.
  set (d0 := ztab Q _). set (psi0 := repeat 0 _).
  destruct (columns_ok Q (tmat (zlen wv)) (fun j i => tempo_change (zlen wv) i j)) with (wv := wv) (rcfmat := rcfmat) (d0 := d0) (psi0 := psi0)
    as (d & psis & c & E & H1 & H2 & H3 & H4 & H5 & H6 & H7); auto; try lia.
  { apply tmat_ok. lia. }
  { intros; apply tempo_change_nonneg. }
  { apply first_col_ok; lia. }
  rewrite E. ret.
  destruct (backtrace_ok Q ltac:(lia) wv rcfmat d psi0 psis) as (path & Eb & P1 & P2 & P3 & P4); auto.
  fold T in Eb. rewrite Eb. ret. exists path. splits; auto.
  - fold T in P1. rewrite <- P1. apply write_out_ok; lia.
  - assert (SP : states Q (zn 0 path)).
    { intros t. destruct (Z.lt_ge_cases t 0); [rewrite zn_out by lia; lia|].
      destruct (Z.lt_ge_cases t T); [|rewrite zn_out by lia; lia]. apply In_range; [exact P2|lia]. }
    intros q Hq. apply Rmult_le_reg_l with c; auto. unfold score.
    eapply Rle_trans; [apply H6; exact Hq|]. eapply Rle_trans; [apply P4, Hq|]. apply Req_le. symmetry.
    apply H7; auto.
Qed.
