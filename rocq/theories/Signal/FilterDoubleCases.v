(** Filters in IEEE doubles: cases. *)
From Coq Require Import ZArith Reals Lia Lra List.
From Flocq Require Import Core.
From Verif.Base Require Import Imp Sums RealOps Dbl Double Loops.
From Verif.Maths Require Import IntModel DoubleModel DoubleProofs StatRoundDouble.
From Verif.Signal Require Import FilterModel FilterSpec FilterDoubleSpec.
From Verif.Rate Require Import ResamplerModel ResamplerSpec.
Import ListNotations.
Open Scope R_scope.

(** y[t] = x[t] + y[t-1] / 2, whose impulse response is 2^-t. *)
Definition half_a : list double := [dint 1; dmake (-1) (-1)].
Definition half_b : list double := [dint 1; dint 0].
Definition half_h (n : Z) : R := if (n <? 0)%Z then 0 else bpow radix2 (- n).
Lemma half_vals : coefficients_finite half_a /\ coefficients_finite half_b /\ dval (zn d0 half_a 1) = - / 2 /\ dval (zn d0 half_b 0) = 1 /\ dval (zn d0 half_b 1) = 0.
Proof.
  destruct (dint_ok 1) as [F1 V1]; [reflexivity|]. destruct (dint_ok 0) as [F0 V0]; [reflexivity|]. destruct (make_val (-1) (-1)) as [Fh Vh]; [lia|lia|].
  assert (C : forall i, (0 <= i < 2)%Z -> (i = 0 \/ i = 1)%Z) by (intros; lia).
  split; [intros i Hi; destruct (C i Hi) as [-> | ->]; assumption|]. split; [intros i Hi; destruct (C i Hi) as [-> | ->]; assumption|].
  change (zn d0 half_a 1) with (dmake (-1) (-1)). change (zn d0 half_b 0) with (dint 1). change (zn d0 half_b 1) with (dint 0).
  rewrite Vh. split; [change (bpow radix2 (-1)) with (/ 2); lra|]. auto.
Qed.
Lemma half_response : recursive_response half_a half_h /\ forall n, rsum n (fun k => Rabs (half_h k)) <= 2.
Proof.
  destruct half_vals as (_ & _ & VA & _). split; [split; [|split]|].
  - intros n Hn. unfold half_h. destruct (Z.ltb_spec n 0); [reflexivity|lia].
  - reflexivity.
  - intros n Hn. change (zlen half_a - 1)%Z with (0 + 1)%Z. rewrite rsum_S, rsum_0 by lia. change (0 + 1)%Z with 1%Z. rewrite VA. unfold half_h.
    destruct (Z.ltb_spec n 0); [lia|]. destruct (Z.ltb_spec (n - 1) 0); [lia|]. replace (- n)%Z with (- (n - 1) + -1)%Z by lia. rewrite bpow_plus. change (bpow radix2 (-1)) with (/ 2). lra.
  - intros n. assert (B : forall n, (0 <= n)%Z -> rsum n (fun k => Rabs (half_h k)) = 2 - bpow radix2 (1 - n)).
    { apply natlike_ind; [rewrite rsum_0 by lia; change (bpow radix2 (1 - 0)) with 2; lra|]. intros k Hk IH. unfold Z.succ. rewrite rsum_S, IH by exact Hk. unfold half_h.
      destruct (Z.ltb_spec k 0); [lia|]. rewrite Rabs_pos_eq by apply bpow_ge_0. replace (1 - k)%Z with (- k + 1)%Z by lia. rewrite bpow_plus. change (bpow radix2 1) with 2.
      replace (1 - (k + 1))%Z with (- k)%Z by lia. lra. }
    destruct (Z_lt_le_dec n 0) as [C|C]; [rewrite rsum_0 by lia; lra|]. rewrite B by exact C. pose proof (bpow_gt_0 radix2 (1 - n)). lra.
Qed.
Lemma half_case : accepted half_a half_b /\ fir_or_order1 half_a half_b /\ coefficients_finite half_a /\ coefficients_finite half_b /\
  recursive_response half_a half_h /\ (forall n, rsum n (fun k => Rabs (half_h k)) <= 2) /\
  weight_sum half_b = 1 /\ tail_sum half_a = / 2 /\ step_error 2 * (1 + 2 * / 2 * 2) <= 1 /\
  1 * 1 + / 2 * (2 * 2 * (1 * 1 + step_tiny 2)) <= bpow radix2 990.
Proof.
  destruct half_vals as (FA & FB & VA & V0 & V1). destruct half_response as [H1 H2].
  split; [right; split; [discriminate|reflexivity]|]. split; [right; cbn; lia|]. split; [exact FA|]. split; [exact FB|]. split; [exact H1|]. split; [exact H2|].
  split; [|split; [|split]].
  - unfold weight_sum. change (zlen half_b) with (0 + 1 + 1)%Z. rewrite !rsum_S, rsum_0 by lia. change (0 + 1)%Z with 1%Z. rewrite V0, V1, Rabs_R0, Rabs_R1. lra.
  - unfold tail_sum. change (zlen half_a - 1)%Z with (0 + 1)%Z. rewrite rsum_S, rsum_0 by lia. change (0 + 1)%Z with 1%Z. rewrite VA, Rabs_Ropp, Rabs_pos_eq; lra.
  - unfold step_error. rewrite uro_val. lra.
  - unfold step_tiny. assert (bpow radix2 (-1072) <= bpow radix2 0) by (apply bpow_le; lia). change (bpow radix2 0) with 1 in *.
    apply Rle_trans with (bpow radix2 3); [change (bpow radix2 3) with 8; lra|apply bpow_le; lia].
Qed.

(** Doubling the rate with the kernel 1, 2, 1. *)
Definition tri_k : list double := [dint 1; dint 2; dint 1].
Lemma tri_case : reduced_target 22050 44100 = 2%Z /\ reduced_source 22050 44100 = 1%Z /\ zlen tri_k = 3%Z /\ finite_within 2 tri_k /\
  room 22050 44100 [([dint 1; dint (-1)], [d0; d0; d0; d0])] /\ finite_within 1 (fed [([dint 1; dint (-1)], [d0; d0; d0; d0])]) /\ finite (dint 1) /\
  IZR 3 * (1 * 2) <= bpow radix2 990 /\ Rabs (dval (dint 1)) * (1 + IZR 3 * (1 * 2)) <= bpow radix2 990.
Proof.
  destruct (dint_ok 1) as [F1 V1]; [reflexivity|]. destruct (dint_ok (-1)) as [Fm Vm]; [reflexivity|]. destruct (dint_ok 2) as [F2 V2]; [reflexivity|].
  assert (B8 : 8 <= bpow radix2 990) by (change 8 with (bpow radix2 3); apply bpow_le; lia).
  split; [reflexivity|]. split; [reflexivity|]. split; [reflexivity|]. split; [|split; [|split; [|split; [|split]]]].
  - intros t Ht. change (zlen tri_k) with 3%Z in Ht. assert (C : (t = 0 \/ t = 1 \/ t = 2)%Z) by lia.
    destruct C as [-> | [-> | ->]]; [change (zn d0 tri_k 0) with (dint 1)|change (zn d0 tri_k 1) with (dint 2)|change (zn d0 tri_k 2) with (dint 1)];
      rewrite ?V1, ?V2; (split; [assumption|]); rewrite Rabs_pos_eq; lra.
  - repeat constructor. intros c Hc. unfold is_ceil in Hc. cbn in *. lia.
  - intros t Ht. change (zlen _) with 2%Z in Ht. assert (C : (t = 0 \/ t = 1)%Z) by lia.
    destruct C as [-> | ->]; [change (zn d0 _ 0) with (dint 1)|change (zn d0 _ 1) with (dint (-1))]; rewrite ?V1, ?Vm; (split; [assumption|]); apply Rabs_le; lra.
  - exact F1.
  - lra.
  - rewrite V1, Rabs_R1. lra.
Qed.
