(** adaptiveThreshold in IEEE doubles. *)
From Coq Require Import ZArith Reals Lia Lra Psatz List Bool.
From Flocq Require Import Core.
From Flocq.IEEE754 Require Import BinarySingleNaN.
From Verif.Base Require Import Imp Sums RealOps Dbl Double Loops.
From Verif.Maths Require Import DoubleModel DoubleProofs RealModel RealSpec StatDouble StatDoubleSpec StatDoubleProofs StatNormDouble.
Import ListNotations.
Open Scope R_scope.

Local Instance p53 : Prec_gt_0 53 := eq_refl.
Local Notation u := uro.
Local Notation fmt := (generic_format radix2 (FLT_exp (-1074) 53)).

Lemma total_bound n f B : (0 <= n)%Z -> (forall j, (0 <= j < n)%Z -> Rabs (f j) <= B) -> total n f <= IZR n * B.
Proof.
  intros Hn. revert n Hn. apply (natlike_ind (fun n => (forall j, (0 <= j < n)%Z -> Rabs (f j) <= B) -> total n f <= IZR n * B)).
  - intros _. unfold total. rewrite rsum_0 by lia. lra.
  - intros n Hn IH H. unfold Z.succ in *. rewrite total_S, plus_IZR by lia. pose proof (IH ltac:(intros; apply H; lia)). pose proof (H n ltac:(lia)). lra.
Qed.

Section Threshold.
  Context (B : R) (x : list double) (HB : 0 <= B <= bpow radix2 900).
  Context (Hx : forall j, (0 <= j < zlen x)%Z -> finite (zn d0 x j) /\ Rabs (dval (zn d0 x j)) <= B).
  Notation mu i := (local_mean (map dval x) i).
  Definition near_mean (i : Z) (m : double) : Prop := finite m /\ Rabs (dval m - mu i) <= 17 * u * B + bpow radix2 (-1075).

  Lemma mu_bound i : (0 <= i < zlen x)%Z -> Rabs (mu i) <= B.
  Proof.
    intros Hi. unfold local_mean. rewrite zlen_map. set (a := Z.max 0 (i - 8)). set (n := (Z.min (zlen x - 1) (i + 7) - a + 1)%Z).
    assert (Hn : (1 <= n)%Z) by lia. assert (N : 1 <= IZR n) by (apply (IZR_le 1); lia).
    unfold Rdiv. rewrite Rabs_mult, (Rabs_pos_eq (/ IZR n)) by (apply Rlt_le, Rinv_0_lt_compat; lra).
    apply Rmult_le_reg_r with (IZR n); [lra|]. rewrite Rmult_assoc, Rinv_l, Rmult_1_r by lra. rewrite Rmult_comm.
    eapply Rle_trans; [apply rsum_total; lia|]. apply total_bound; [lia|]. intros j Hj. rewrite (zn_map dval d0) by lia. apply Hx. lia.
  Qed.

  Lemma local_mean_doubles i : (0 <= i < zlen x)%Z ->
    exists m, dmean_range x (Z.max 0 (i - 8)) (Z.min (zlen x - 1) (i + 7) - Z.max 0 (i - 8) + 1) = OK m /\ near_mean i m.
  Proof.
    intros Hi. unfold near_mean, local_mean. rewrite zlen_map. set (a := Z.max 0 (i - 8)). set (n := (Z.min (zlen x - 1) (i + 7) - a + 1)%Z).
    assert (Hn : (1 <= n <= 16)%Z) by lia. assert (N : 1 <= IZR n <= 16) by (split; [apply (IZR_le 1)|apply (IZR_le n 16)]; lia).
    assert (T : total n (fun j => dval (zn d0 x (a + j))) <= IZR n * B) by (apply total_bound; [lia|]; intros j Hj; apply Hx; lia).
    destruct (mean_range_doubles a n x) as (m & E & Fm & _ & V); try lia.
    - intros j Hj. apply Hx. lia.
    - eapply Rle_trans; [exact T|]. apply Rle_trans with (16 * bpow radix2 900); [apply Rmult_le_compat; lra|].
      unfold cap. change (bpow radix2 999) with (bpow radix2 (99 + 900)). rewrite bpow_plus. apply Rmult_le_compat_r; [apply bpow_ge_0|].
      change 16 with (bpow radix2 4). apply bpow_le. lia.
    - exists m. split; [exact E|]. split; [exact Fm|]. specialize (V ltac:(lia)).
      rewrite (rsum_ext n (fun k => zn 0 (map dval x) (a + k)%Z) (fun j => dval (zn d0 x (a + j)%Z))).
      2:{ intros j Hj. apply zn_map. lia. }
      eapply Rle_trans; [exact V|]. apply Rplus_le_compat_r. set (t := total n _) in *.
      assert (TN : t / IZR n <= B) by (apply Rmult_le_reg_r with (IZR n); [lra|]; unfold Rdiv; rewrite Rmult_assoc, Rinv_l by lra; lra).
      assert (T0 : 0 <= t / IZR n) by (apply Rmult_le_pos; [apply total_pos|apply Rlt_le, Rinv_0_lt_compat; lra]).
      pose proof uro_pos. rewrite plus_IZR. apply Rmult_le_compat; [apply Rmult_le_pos; lra|exact T0|apply Rmult_le_compat_r; lra|exact TN].
  Qed.

  Definition cut (i : Z) (w : double) : Prop :=
    finite w /\ 0 <= dval w /\ Rabs (dval w - Rmax 0 (dval (zn d0 x i) - mu i)) <= 20 * u * B + bpow radix2 (-1074).
  Lemma cut_ok i m : (0 <= i < zlen x)%Z -> near_mean i m -> cut i (let w := dsub (zn d0 x i) m in if dltb w d0 then d0 else w).
  Proof.
    intros Hi (Fm & Vm). destruct (Hx i Hi) as [Fx Bx]. pose proof (mu_bound i Hi) as Bm. pose proof uro_pos as U. pose proof uro_val as UV.
    set (t := bpow radix2 (-1075)) in *. assert (T0 : 0 < t) by apply bpow_gt_0. assert (T2 : bpow radix2 (-1074) = 2 * t) by (unfold t; change (bpow radix2 (-1074)) with (bpow radix2 (1 + -1075)); rewrite bpow_plus; reflexivity).
    assert (UB : 0 <= u * B) by (apply Rmult_le_pos; lra). assert (UB1 : u * B <= / 1000 * B) by (apply Rmult_le_compat_r; lra).
    assert (T1 : t <= bpow radix2 900) by (apply bpow_le; lia). assert (Tb : t <= 1) by (change 1 with (bpow radix2 0); apply bpow_le; lia).
    assert (MB : Rabs (dval m) <= B + (17 * u * B + t)) by (eapply near'; [exact Vm|exact Bm]).
    assert (DB : Rabs (dval (zn d0 x i) - dval m) <= 2 * B + 17 * u * B + t).
    { unfold Rminus. eapply Rle_trans; [apply Rabs_triang|]. rewrite Rabs_Ropp. lra. }
    destruct (dsub_ok (zn d0 x i) m Fx Fm) as [Fw Vw].
    { apply (small_huge _ 910); [|lia]. eapply Rle_trans; [exact DB|]. change (bpow radix2 910) with (bpow radix2 (10 + 900)). rewrite bpow_plus. change (bpow radix2 10) with 1024. lra. }
    set (w := dsub (zn d0 x i) m) in *. cbv zeta. fold w.
    pose proof (rnd_plus (dval (zn d0 x i)) (- dval m) (dval_format _) (generic_format_opp _ _ _ (dval_format m))) as RE.
    change (dval (zn d0 x i) + - dval m) with (dval (zn d0 x i) - dval m) in RE. rewrite <- Vw in RE.
    assert (UD : u * Rabs (dval (zn d0 x i) - dval m) <= u * (2 * B + 17 * u * B + t)) by (apply Rmult_le_compat_l; lra).
    assert (U2 : u * (u * B) <= / 1000 * (u * B)) by (apply Rmult_le_compat_r; lra). assert (Ut : u * t <= / 1000 * t) by (apply Rmult_le_compat_r; lra).
    assert (ER : Rabs (dval w - (dval (zn d0 x i) - mu i)) <= 20 * u * B + 2 * t).
    { replace (dval w - (dval (zn d0 x i) - mu i)) with ((dval w - (dval (zn d0 x i) - dval m)) + - (dval m - mu i)) by ring.
      eapply Rle_trans; [apply Rabs_triang|]. rewrite Rabs_Ropp. lra. }
    unfold cut. rewrite T2. rewrite dltb_val by (assumption || reflexivity). change (dval d0) with 0.
    set (e := dval (zn d0 x i) - mu i) in *. apply Rabs_le_inv in ER. destruct (Rlt_bool_spec (dval w) 0) as [C|C].
    - split; [reflexivity|]. change (dval d0) with 0. split; [lra|]. apply Rabs_le. destruct (Rle_dec 0 e); [rewrite Rmax_right by lra|rewrite Rmax_left by lra]; lra.
    - split; [exact Fw|]. split; [exact C|]. apply Rabs_le. destruct (Rle_dec 0 e); [rewrite Rmax_right by lra|rewrite Rmax_left by lra]; lra.
  Qed.

  Theorem adaptive_doubles : exists y, dadaptive x = OK y /\ zlen y = zlen x /\ forall i, (0 <= i < zlen x)%Z -> cut i (zn d0 y i).
  Proof.
    unfold dadaptive. pose proof (zlen_nonneg x). destruct (Z.eqb_spec (zlen x) 0) as [E|NE].
    - exists x. splits; auto. intros; lia.
    - cbv zeta. match goal with |- context [for_up 0 (zlen x) ?F (repeat d0 ?n)] =>
        destruct (for_up_inv (fun i s => zlen s = zlen x /\ forall k, (0 <= k < i)%Z -> near_mean k (zn d0 s k)) 0 (zlen x) F (repeat d0 n)) as (sm & E & L & V); [lia| | |] end.
      + split; [zl; lia|intros; lia].
      + intros i s Hi (L & V). destruct (local_mean_doubles i Hi) as (m & E & M). rewrite E. ret. rewrite aset_OK by lia.
        eexists; split; [reflexivity|]. split; [zl; lia|]. intros k Hk. rewrite zn_upd by lia. destruct (Z.eqb_spec k i); [subst k; exact M|]. apply V. lia.
      + rewrite E. ret.
        match goal with |- context [for_up 0 (zlen x) ?F x] =>
          destruct (for_up_inv (fun i s => zlen s = zlen x /\ forall k, (0 <= k < zlen x)%Z ->
             if (k <? i)%Z then cut k (zn d0 s k) else zn d0 s k = zn d0 x k) 0 (zlen x) F x) as (y & E' & L' & V'); [lia| | |] end.
        * split; auto. intros k Hk. destruct (Z.ltb_spec k 0); [lia|reflexivity].
        * intros i s Hi (L' & V'). rewrite (aget_OK d0 s) by lia. ret. rewrite (aget_OK d0 sm) by lia. ret. rewrite aset_OK by lia. ret.
          rewrite (aget_OK d0) by (zl; lia). ret. rewrite zn_upd, Z.eqb_refl by lia.
          pose proof (V' i Hi) as Vi. destruct (Z.ltb_spec i i); [lia|]. rewrite Vi. pose proof (cut_ok i _ Hi (V i ltac:(lia))) as C. cbv zeta in C.
          destruct (dltb (dsub (zn d0 x i) (zn d0 sm i)) d0).
          -- rewrite aset_OK by (zl; lia). eexists; split; [reflexivity|]. split; [zl; lia|].
             intros k Hk. rewrite zn_upd by (zl; lia). rewrite zn_upd by lia. destruct (Z.eqb_spec k i) as [->|N].
             ++ destruct (Z.ltb_spec i (i + 1)); [exact C|lia].
             ++ pose proof (V' k Hk) as Q. destruct (Z.ltb_spec k i), (Z.ltb_spec k (i + 1)); try lia; exact Q.
          -- eexists; split; [reflexivity|]. split; [zl; lia|].
             intros k Hk. rewrite zn_upd by lia. destruct (Z.eqb_spec k i) as [->|N].
             ++ destruct (Z.ltb_spec i (i + 1)); [exact C|lia].
             ++ pose proof (V' k Hk) as Q. destruct (Z.ltb_spec k i), (Z.ltb_spec k (i + 1)); try lia; exact Q.
        * exists y. splits; auto. intros i Hi. pose proof (V' i Hi) as Q. destruct (Z.ltb_spec i (zlen x)); [exact Q|lia].
  Qed.
End Threshold.
