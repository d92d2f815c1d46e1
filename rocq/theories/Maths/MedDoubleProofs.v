(** Proofs about median in IEEE doubles. *)
From Coq Require Import ZArith Reals List Lia Lra Permutation Sorted.
From Flocq Require Import Core.
From Flocq.Prop Require Import Mult_error.
From Flocq.IEEE754 Require Import BinarySingleNaN.
From Verif.Base Require Import Imp RealOps Dbl Double.
From Verif.Maths Require Import DoubleModel DoubleProofs StatDoubleSpec StatDoubleProofs MedianSpec RealModel RealProofs MedDouble MedDoubleSpec.
Import ListNotations.
Open Scope R_scope.

Local Instance q53 : Prec_gt_0 53 := eq_refl.
Local Notation fmt := (generic_format radix2 (FLT_exp (-1074) 53)).

Lemma bpow_m1 : bpow radix2 (-1) = / 2.
Proof. reflexivity. Qed.
(** Doubling is exact, halving up to underflow. *)
Lemma double_fmt v : fmt v -> fmt (2 * v).
Proof. intros H. replace (2 * v) with (v * bpow radix2 1) by (change (bpow radix2 1) with 2; ring). apply mult_bpow_pos_exact_FLT; [exact H|lia]. Qed.
Lemma half_error v : fmt v -> Rabs (rnd (v / 2) - v / 2) <= bpow radix2 (-1075).
Proof.
  intros H. destruct (Rle_lt_dec (bpow radix2 (-1021)) (Rabs v)) as [L|L].
  - rewrite rnd_format; [unfold Rminus; rewrite Rplus_opp_r, Rabs_R0; apply bpow_ge_0|].
    replace (v / 2) with (v * bpow radix2 (-1)) by (rewrite bpow_m1; unfold Rdiv; reflexivity).
    apply mult_bpow_exact_FLT; [exact H|].
    assert (-1021 < mag radix2 v)%Z by (apply mag_gt_bpow; exact L). lia.
  - assert (S : Rabs (v / 2) < bpow radix2 (-1022)).
    { unfold Rdiv. rewrite Rabs_mult, (Rabs_pos_eq (/ 2)) by lra.
      change (-1022)%Z with (-1021 + -1)%Z. rewrite bpow_plus, bpow_m1. lra. }
    eapply Rle_trans; [apply error_le_half_ulp; apply FLT_exp_valid; exact q53|].
    rewrite ulp_FLT_small; [|exact q53|eapply Rlt_le_trans; [exact S|apply bpow_le; lia]].
    change (-1074)%Z with (-1075 + 1)%Z. rewrite bpow_plus. change (bpow radix2 1) with 2. lra.
Qed.
Lemma rnd_mono a b : a <= b -> rnd a <= rnd b.
Proof. intros H. apply round_le; [apply FLT_exp_valid; exact q53|apply valid_rnd_N|exact H]. Qed.

(** The mean of two doubles. *)
Lemma mean_two x y : finite x -> finite y -> Rabs (dval x) <= bpow radix2 999 -> Rabs (dval y) <= bpow radix2 999 -> dval y <= dval x ->
  finite (ddiv (dadd x y) (dint 2)) /\ dval y <= dval (ddiv (dadd x y) (dint 2)) <= dval x /\
  Rabs (dval (ddiv (dadd x y) (dint 2)) - (dval x + dval y) / 2) <= uro * Rabs ((dval x + dval y) / 2) + bpow radix2 (-1075).
Proof.
  intros Fx Fy Bx By L.
  assert (S : Rabs (dval x + dval y) <= huge).
  { eapply Rle_trans; [apply Rabs_triang|]. unfold huge. change 1000%Z with (999 + 1)%Z. rewrite bpow_plus. change (bpow radix2 1) with 2. lra. }
  destruct (dadd_ok x y Fx Fy S) as [F1 V1]. destruct (dint_ok 2) as [F2 V2]; [unfold two53; lia|].
  assert (FX := dval_format x). assert (FY := dval_format y). fold fmt in FX, FY. assert (P := rnd_plus _ _ FX FY).
  assert (LO : 2 * dval y <= rnd (dval x + dval y)) by (rewrite <- (rnd_format (2 * dval y)) by (apply double_fmt; exact FY); apply rnd_mono; lra).
  assert (HI : rnd (dval x + dval y) <= 2 * dval x) by (rewrite <- (rnd_format (2 * dval x)) by (apply double_fmt; exact FX); apply rnd_mono; lra).
  assert (Hx := Rabs_le_inv _ _ Bx). assert (Hy := Rabs_le_inv _ _ By).
  destruct (ddiv_ok (dadd x y) (dint 2) F1) as [F3 V3]; [rewrite V2; lra| |].
  { rewrite V1, V2. eapply Rle_trans; [apply (Rabs_le _ (bpow radix2 999)); lra|]. unfold huge. apply bpow_le. lia. }
  split; [exact F3|]. rewrite V3, V1, V2.
  set (s := rnd (dval x + dval y)) in *.
  assert (FS : fmt s) by (rewrite <- V1; apply dval_format).
  split.
  - split.
    + rewrite <- (rnd_format (dval y) FY). apply rnd_mono. lra.
    + rewrite <- (rnd_format (dval x) FX). apply rnd_mono. lra.
  - assert (H := half_error s FS).
    replace (rnd (s / 2) - (dval x + dval y) / 2) with ((rnd (s / 2) - s / 2) + (s - (dval x + dval y)) / 2) by lra.
    eapply Rle_trans; [apply Rabs_triang|].
    assert (A : Rabs ((s - (dval x + dval y)) / 2) = Rabs (s - (dval x + dval y)) / 2) by (unfold Rdiv; rewrite Rabs_mult, (Rabs_pos_eq (/ 2)) by lra; reflexivity).
    assert (B : Rabs ((dval x + dval y) / 2) = Rabs (dval x + dval y) / 2) by (unfold Rdiv; rewrite Rabs_mult, (Rabs_pos_eq (/ 2)) by lra; reflexivity).
    rewrite A, B. lra.
Qed.

Lemma perm_cnt p (l l' : list R) : Permutation l l' -> count p l = count p l'.
Proof.
  unfold count, zlen. induction 1 as [|x l l' H IH|x y l|l l' l'' H1 IH1 H2 IH2]; [reflexivity| | |congruence]; cbn [filter].
  - destruct (p x); cbn [length]; lia.
  - destruct (p x), (p y); reflexivity.
Qed.
Lemma sorted_dval l : Forall finite l -> StronglySorted (fun x y => Bltb y x = false) l -> rsorted (map dval l).
Proof.
  intros F S. induction S as [|x l S IH H]; [exact I|]. inversion F as [|? ? Fx Fl]; subst. cbn [map rsorted]. split; [|auto].
  rewrite Forall_forall in H, Fl. apply Forall_forall. intros r Hr. apply in_map_iff in Hr as (y & <- & Hy). specialize (H y Hy). specialize (Fl y Hy).
  rewrite Bltb_correct in H by assumption. unfold dval. destruct (Rlt_bool_spec (B2R y) (B2R x)); [discriminate|assumption].
Qed.
Lemma copy_doubles src len : (0 <= len <= zlen src)%Z ->
  for_up 0 len (fun i s => v <- aget src i ;; OK ((s ++ [v])%list)) (@nil double) = OK (ztab len (fun i => zn d0 src i)).
Proof.
  intros H. rewrite (for_up_ext _ _ _ (fun i s => OK (s ++ [zn d0 src i])%list)).
  2: { intros i s Hi. rewrite (aget_OK d0) by lia. reflexivity. }
  match goal with |- for_up 0 len ?F ?S = _ =>
    destruct (for_up_inv (fun i s => s = ztab i (fun i => zn d0 src i)) 0 len F S) as (f & E & HE); [lia| | |] end.
  - reflexivity.
  - intros i s Hi ->. eexists; split; [reflexivity|]. now rewrite ztab_snoc by lia.
  - rewrite E, HE. reflexivity.
Qed.
Lemma values_tab n (src : list double) : (0 <= n <= zlen src)%Z -> map dval (ztab n (fun i => zn d0 src i)) = map dval (firstn (Z.to_nat n) src).
Proof. intros H. f_equal. apply (zn_ext d0); [zl; lia|]. intros i Hi. zl. rewrite zn_ztab, zn_firstn by lia. reflexivity. Qed.

Section Median.
  Context (sort : list double -> list double) (HS : sorts sort).

  Theorem median_doubles len src : (1 <= len)%Z -> all_finite len src ->
    (Z.odd len = true \/ forall j, (0 <= j < len)%Z -> Rabs (dval (zn d0 src j)) <= bpow radix2 999) ->
    exists d u v, dmedian sort src len = OK d /\ finite d /\
      is_kth Rltb (len / 2) (map dval (firstn (Z.to_nat len) src)) u /\ is_kth Rltb ((len - 1) / 2) (map dval (firstn (Z.to_nat len) src)) v /\
      v <= dval d <= u /\ Rabs (dval d - (u + v) / 2) <= uro * Rabs ((u + v) / 2) + bpow radix2 (-1075).
  Proof.
    intros Hn [Hl Hf] Hb. unfold dmedian. destruct (Z.eqb_spec len 0); [lia|]. rewrite copy_doubles by lia. cbn [bind].
    set (l := ztab len (fun i => zn d0 src i)).
    assert (Fl : Forall finite l).
    { apply Forall_forall. intros x Hx. apply (In_nth _ _ d0) in Hx as (k & Hk & <-).
      assert (Lk : zlen l = len) by (unfold l; zl; lia). unfold zlen in Lk.
      replace (nth k l d0) with (zn d0 l (Z.of_nat k)) by (unfold zn; destruct (Z.ltb_spec (Z.of_nat k) 0); [lia|]; now rewrite Nat2Z.id).
      unfold l. rewrite zn_ztab by lia. apply Hf. lia. }
    destruct (HS l Fl) as [P S]. set (s := sort l) in *.
    assert (Ls : zlen s = len).
    { unfold zlen. rewrite <- (Permutation_length P). change (zlen l = len). unfold l. zl. lia. }
    assert (Fs : Forall finite s) by (eapply Permutation_Forall; eassumption).
    assert (RS := sorted_dval s Fs S).
    assert (IN : forall k, (0 <= k < len)%Z -> finite (zn d0 s k) /\ exists j, (0 <= j < len)%Z /\ zn d0 s k = zn d0 src j).
    { intros k Hk. assert (Hi : In (zn d0 s k) s) by (unfold zn; destruct (Z.ltb_spec k 0); [lia|]; apply nth_In; unfold zlen in Ls; lia).
      split; [rewrite Forall_forall in Fs; auto|]. apply (Permutation_in _ (Permutation_sym P)) in Hi.
      apply (In_nth _ _ d0) in Hi as (j & Hj & E). exists (Z.of_nat j).
      assert (Lk : zlen l = len) by (unfold l; zl; lia). unfold zlen in Lk. split; [lia|]. rewrite <- E.
      replace (nth j l d0) with (zn d0 l (Z.of_nat j)) by (unfold zn; destruct (Z.ltb_spec (Z.of_nat j) 0); [lia|]; now rewrite Nat2Z.id).
      unfold l. now rewrite zn_ztab by lia. }
    assert (MV : forall k, zn 0 (map dval s) k = dval (zn d0 s k)).
    { intros k. unfold zn. destruct (k <? 0)%Z; [reflexivity|]. change 0 with (dval d0) at 1. apply map_nth. }
    assert (K : forall k, (0 <= k < len)%Z -> is_kth Rltb k (map dval (firstn (Z.to_nat len) src)) (dval (zn d0 s k))).
    { intros k Hk. unfold is_kth. rewrite <- values_tab by lia. fold l. rewrite !(perm_cnt _ (map dval l) (map dval s)) by (apply Permutation_map; exact P).
      rewrite <- MV. apply (rsorted_kth (map dval s) k RS). unfold zlen. rewrite map_length. fold (zlen s). lia. }
    rewrite Z.quot_div_nonneg, Z.rem_mod_nonneg by lia.
    pose proof (Z.div_mod len 2 ltac:(lia)) as DM. pose proof (Z.mod_pos_bound len 2 ltac:(lia)).
    assert (0 <= (len - 1) / 2 < len)%Z by (split; [apply Z.div_pos; lia|apply Z.div_lt_upper_bound; lia]).
    destruct (Z.eqb_spec (len mod 2) 0) as [E|E].
    - rewrite !(aget_OK d0) by lia. cbn [bind].
      destruct Hb as [Hb|Hb]; [rewrite Zmod_even in E; rewrite <- Z.negb_even in Hb; destruct (Z.even len); [discriminate Hb|discriminate E]|].
      destruct (IN (len / 2)%Z) as (F1 & j1 & J1 & E1); [lia|]. destruct (IN (len / 2 - 1)%Z) as (F2 & j2 & J2 & E2); [lia|].
      assert (LE : dval (zn d0 s (len / 2 - 1)) <= dval (zn d0 s (len / 2))).
      { assert (G : forall (m : list R) a b, rsorted m -> (0 <= a < b)%Z -> (b < zlen m)%Z -> zn 0 m a <= zn 0 m b).
        { clear. induction m as [|x m IH]; intros a b R0 Hab Hb; [unfold zlen in Hb; cbn in Hb; lia|]. destruct R0 as [R1 R2].
          rewrite !zn_cons. destruct (Z.ltb_spec b 0); [lia|]. destruct (Z.eqb_spec b 0); [lia|]. destruct (Z.ltb_spec a 0); [lia|].
          zl. destruct (Z.eqb_spec a 0).
          - rewrite Forall_forall in R1. apply R1. unfold zn. destruct (Z.ltb_spec (b - 1) 0); [lia|]. apply nth_In. unfold zlen in *. lia.
          - apply IH; [exact R2|lia|lia]. }
        rewrite <- !MV. apply G; [exact RS|lia|]. unfold zlen. rewrite map_length. fold (zlen s). lia. }
      destruct (mean_two (zn d0 s (len / 2)) (zn d0 s (len / 2 - 1)) F1 F2) as (F3 & B3 & V3);
        [rewrite E1; now apply Hb|rewrite E2; now apply Hb|exact LE|].
      exists (ddiv (dadd (zn d0 s (len / 2)) (zn d0 s (len / 2 - 1))) (dint 2)), (dval (zn d0 s (len / 2))), (dval (zn d0 s (len / 2 - 1))).
      split; [reflexivity|]. split; [exact F3|]. split; [apply K; lia|]. split; [|split; [exact B3|exact V3]].
      replace ((len - 1) / 2)%Z with (len / 2 - 1)%Z; [apply K; lia|]. apply Z.div_unique with 1%Z; lia.
    - rewrite (aget_OK d0) by lia. destruct (IN (len / 2)%Z) as (F1 & _); [lia|].
      exists (zn d0 s (len / 2)), (dval (zn d0 s (len / 2))), (dval (zn d0 s (len / 2))).
      split; [reflexivity|]. split; [exact F1|]. split; [apply K; lia|]. split.
      + replace ((len - 1) / 2)%Z with (len / 2)%Z; [apply K; lia|]. apply Z.div_unique with 0%Z; lia.
      + split; [split; apply Rle_refl|]. match goal with |- Rabs ?a <= _ => replace a with 0 by field end. rewrite Rabs_R0.
        apply Rplus_le_le_0_compat; [apply Rmult_le_pos; [apply Rlt_le, uro_pos|apply Rabs_pos]|apply bpow_ge_0].
  Qed.

  (** An odd number of values: one of them, whatever their size. *)
  Lemma median_odd len src : (1 <= len)%Z -> Z.odd len = true -> all_finite len src ->
    exists d, dmedian sort src len = OK d /\ finite d /\ is_kth Rltb (len / 2) (map dval (firstn (Z.to_nat len) src)) (dval d).
  Proof.
    intros Hn Ho Hf. destruct (median_doubles len src Hn Hf (or_introl Ho)) as (d & u & v & E & F & K1 & K2 & B & _).
    exists d. split; [exact E|]. split; [exact F|].
    assert (Q : ((len - 1) / 2 = len / 2)%Z).
    { symmetry. pose proof (Z.div_mod len 2 ltac:(lia)). rewrite Zmod_odd, Ho in H. apply Z.div_unique with 0%Z; lia. }
    rewrite Q in K2. unfold is_kth in *. set (L := map dval (firstn (Z.to_nat len) src)) in *.
    assert (M : forall (p q : R -> bool), (forall x, p x = true -> q x = true) -> (count p L <= count q L)%Z).
    { intros p q I. unfold count. generalize L. clear -I. intros m. induction m as [|x m IH]; [cbn; lia|]. cbn [filter].
      specialize (I x). destruct (p x), (q x); zl; try lia; specialize (I eq_refl); discriminate. }
    split.
    - eapply Z.le_trans; [apply (M _ (fun x => Rltb x u))|apply K1].
      intros x Hx. destruct (Rltb_spec x (dval d)); [|discriminate]. destruct (Rltb_spec x u); [reflexivity|lra].
    - eapply Z.lt_le_trans; [apply K2|]. apply M.
      intros x Hx. destruct (Rltb_spec v x); [discriminate|]. destruct (Rltb_spec (dval d) x); [lra|reflexivity].
  Qed.

  (** Two values of 2^1023: the sum overflows. *)
  Lemma median_overflow : exists src d, all_finite 2 src /\ dmedian sort src 2 = OK d /\ ~ finite d.
  Proof.
    set (h := dmake 1 1023). assert (Fh : finite h) by (unfold finite, h; vm_compute; reflexivity).
    exists [h; h], (ddiv (dadd h h) (dint 2)). split.
    { split; [cbn; lia|]. intros j Hj. assert (J : j = 0%Z \/ j = 1%Z) by lia. destruct J as [-> | ->]; exact Fh. }
    split.
    - unfold dmedian. change (2 =? 0)%Z with false. cbv iota. rewrite copy_doubles by (cbn; lia). cbn [bind].
      change (ztab 2 (fun i => zn d0 [h; h] i)) with [h; h].
      destruct (HS [h; h]) as [P _]; [repeat constructor; exact Fh|].
      apply Permutation_length_2_inv in P. assert (E : sort [h; h] = [h; h]) by (destruct P; assumption). rewrite E. reflexivity.
    - intros F. unfold finite in F. vm_compute in F. discriminate.
  Qed.
End Median.

Lemma dinsert_perm x l : Permutation (x :: l) (dinsert x l).
Proof.
  induction l as [|y l IH]; [reflexivity|]. cbn [dinsert]. destruct (Bltb y x); [|reflexivity].
  eapply perm_trans; [apply perm_swap|]. now apply perm_skip.
Qed.
Lemma disort_sorts : sorts disort.
Proof.
  intros l F. induction F as [|x l Hx F IH]; [split; constructor|]. destruct IH as [P S].
  change (disort (x :: l)) with (dinsert x (disort l)). split.
  - eapply perm_trans; [apply perm_skip, P|apply dinsert_perm].
  - assert (G : Forall finite (disort l)) by (eapply Permutation_Forall; eassumption). clear P F.
    induction S as [|y m S IH H]; [repeat constructor|]. inversion G as [|? ? Hy Gm]; subst. cbn [dinsert].
    destruct (Bltb y x) eqn:E; rewrite Bltb_correct in E by assumption.
    + constructor; [apply IH; exact Gm|]. apply (Permutation_Forall (dinsert_perm x m)). constructor; [|exact H].
      rewrite Bltb_correct by assumption. destruct (Rlt_bool_spec (B2R y) (B2R x)); [|discriminate]. apply Rlt_bool_false. lra.
    + assert (L : B2R x <= B2R y) by (destruct (Rlt_bool_spec (B2R y) (B2R x)); [discriminate|assumption]).
      constructor; [constructor; assumption|]. constructor; [rewrite Bltb_correct by assumption; apply Rlt_bool_false; exact L|].
      rewrite Forall_forall in *. intros z Hz. specialize (H z Hz). specialize (Gm z Hz). rewrite Bltb_correct in * by assumption.
      destruct (Rlt_bool_spec (B2R z) (B2R y)); [discriminate|]. apply Rlt_bool_false. lra.
Qed.
