(** The statistics of MathUtilities in IEEE doubles: cases, and sums that cancel. *)
From Coq Require Import ZArith Reals Lia Lra List.
From Flocq Require Import Core.
From Flocq.IEEE754 Require Import BinarySingleNaN.
From Verif.Base Require Import Imp Sums RealOps Dbl Double Loops.
From Verif.Maths Require Import DoubleModel DoubleProofs RealModel StatDouble StatDoubleSpec StatDoubleProofs StatNormDouble StatRoundDouble.
Import ListNotations.
Open Scope R_scope.

(** ** Values of opposite signs *)
Definition mixed : list double := [dmake 1 60; dint 100; dmake (-1) 60].
Definition is_pzero (r : res double) : bool := match r with OK (B754_zero false) => true | _ => false end.
Lemma mixed_sum : is_pzero (dsum mixed 3) = true. Proof. vm_compute. reflexivity. Qed.
Lemma is_pzero_OK r : is_pzero r = true -> r = OK d0.
Proof. destruct r as [[[|]| | |]| | |]; try discriminate. reflexivity. Qed.
Lemma keeps_zero x n : dsum x n = OK d0 -> dnormalise x n NormaliseUnitSum = OK x.
Proof. intros E. unfold dnormalise. change (for_up 0 n _ d0) with (dsum x n). rewrite E. reflexivity. Qed.
Lemma cases3 (P : Z -> Prop) : P 0%Z -> P 1%Z -> P 2%Z -> forall j, (0 <= j < 3)%Z -> P j.
Proof. intros A B C j Hj. assert (E : (j = 0 \/ j = 1 \/ j = 2)%Z) by lia. destruct E as [-> | [-> | ->]]; assumption. Qed.
Lemma rsum_3 f : rsum 3 f = f 0%Z + f 1%Z + f 2%Z.
Proof. change 3%Z with (0 + 1 + 1 + 1)%Z. rewrite !rsum_S by lia. rewrite rsum_0 by lia. change (0 + 1 + 1)%Z with 2%Z. change (0 + 1)%Z with 1%Z. ring. Qed.
Lemma mixed_vals : all_finite 3 mixed /\ dval (zn d0 mixed 0) = bpow radix2 60 /\ dval (zn d0 mixed 1) = 100 /\ dval (zn d0 mixed 2) = - bpow radix2 60.
Proof.
  destruct (make_val 1 60) as [F0 V0]; [lia|lia|]. destruct (make_val (-1) 60) as [F2 V2]; [lia|lia|]. destruct (dint_ok 100) as [F1 V1]; [reflexivity|].
  split; [split; [cbn; lia|apply cases3; assumption]|].
  change (zn d0 mixed 0) with (dmake 1 60). change (zn d0 mixed 1) with (dint 100). change (zn d0 mixed 2) with (dmake (-1) 60).
  rewrite V0, V1, V2. split; [lra|]. split; [reflexivity|lra].
Qed.
Theorem normalise_mixed_refuted : exists x, all_finite 3 x /\ zlen x = 3%Z /\ rsum 3 (val x) = 100 /\ dnormalise x 3 NormaliseUnitSum = OK x.
Proof.
  exists mixed. destruct mixed_vals as (F & V0 & V1 & V2). split; [exact F|]. split; [reflexivity|]. split.
  - rewrite rsum_3. rewrite V0, V1, V2. ring.
  - apply keeps_zero, is_pzero_OK, mixed_sum.
Qed.


(** ** Cases *)
Definition ramp : list double := [dint 1; dint 3; dint 0].
Lemma ramp_vals : all_finite 3 ramp /\ dval (zn d0 ramp 0) = 1 /\ dval (zn d0 ramp 1) = 3 /\ dval (zn d0 ramp 2) = 0.
Proof.
  destruct (dint_ok 1) as [F0 V0]; [reflexivity|]. destruct (dint_ok 3) as [F1 V1]; [reflexivity|]. destruct (dint_ok 0) as [F2 V2]; [reflexivity|].
  split; [split; [cbn; lia|apply cases3; assumption]|].
  change (zn d0 ramp 0) with (dint 1). change (zn d0 ramp 1) with (dint 3). change (zn d0 ramp 2) with (dint 0). auto.
Qed.
Lemma ramp_case : all_finite 3 ramp /\ total 3 (val ramp) <= bpow radix2 999 /\ (forall j, (0 <= j < 3)%Z -> 0 <= dval (zn d0 ramp j) <= 3) /\ 0 < dval (zn d0 ramp 1).
Proof.
  destruct ramp_vals as (F & V0 & V1 & V2). split; [exact F|]. split; [|split].
  - unfold total. rewrite rsum_3, V0, V1, V2, !Rabs_pos_eq by lra. apply Rle_trans with (bpow radix2 3); [change (bpow radix2 3) with 8; lra|apply bpow_le; lia].
  - apply cases3; rewrite ?V0, ?V1, ?V2; lra.
  - rewrite V1. lra.
Qed.
Lemma mixed_case : all_finite 3 mixed /\ total 3 (val mixed) <= bpow radix2 999 /\ dval (zn d0 mixed 2) < 0.
Proof.
  destruct mixed_vals as (F & V0 & V1 & V2). split; [exact F|]. assert (P : 100 <= bpow radix2 60) by (change (bpow radix2 60) with 1152921504606846976; lra). split.
  - unfold total. rewrite rsum_3, V0, V1, V2, Rabs_Ropp, !Rabs_pos_eq by lra. apply Rle_trans with (bpow radix2 62); [|apply bpow_le; lia].
    change 62%Z with (60 + 2)%Z. rewrite bpow_plus. change (bpow radix2 2) with 4. lra.
  - rewrite V2. lra.
Qed.
Lemma ramp_bounded : forall j, (0 <= j < zlen ramp)%Z -> finite (zn d0 ramp j) /\ Rabs (dval (zn d0 ramp j)) <= 3.
Proof.
  destruct ramp_case as ((_ & F) & _ & B & _). intros j Hj. change (zlen ramp) with 3%Z in Hj. split; [apply F; exact Hj|]. specialize (B j Hj). rewrite Rabs_pos_eq; lra.
Qed.
