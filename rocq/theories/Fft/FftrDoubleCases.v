(** FFTReal in IEEE doubles: a case meeting the hypotheses. *)
From Coq Require Import ZArith Reals Lia Lra List Znumtheory.
From Verif.Base Require Import Imp Double Loops.
From Verif.Maths Require Import DoubleModel DoubleProofs.
From Verif.Fft Require Import FftDouble FftDoubleSpec FftDoubleCases FftrDouble FftrDoubleSpec FftrDoubleRuns.
Import ListNotations.
Open Scope R_scope.

Lemma zn_repeat_in {A} (a d : A) n j : (0 <= j < Z.of_nat n)%Z -> zn d (repeat a n) j = a.
Proof.
  intros Hj. unfold zn. destruct (Z.ltb_spec j 0); [lia|]. apply (repeat_spec n). apply nth_In. rewrite repeat_length. lia.
Qed.

Lemma real_case_6 : accurate (near_fun cos) cos /\ accurate (near_fun sin) sin /\
  prime_factors 6 [2; 3]%Z /\ weight [2; 3]%Z = 6 /\
  real_bounded 6 1 (repeat (dint 1) 6) /\ half_bounded 6 2 (repeat (dint 1) 4) (repeat (dint 1) 4) /\
  exists o, real_in_use (near_fun cos) (near_fun sin) 6 o.
Proof.
  destruct (dint_ok 1) as [F V]; [reflexivity|].
  split; [apply near_cos|]. split; [apply near_sin|]. split; [split; [|reflexivity]; repeat (constructor; auto using prime_2, prime_3)|].
  split; [reflexivity|]. split; [|split].
  - split; [cbn; lia|]. intros j Hj. rewrite zn_repeat_in by lia. rewrite V. split; [exact F|]. rewrite Rabs_pos_eq; lra.
  - unfold half_bounded. change (6 / 2)%Z with 3%Z. split; [cbn; lia|]. split; [cbn; lia|]. intros k Hk. rewrite !zn_repeat_in by lia. rewrite V. split; [exact F|]. split; [exact F|]. lra.
  - destruct (dnew_ready (near_fun cos) (near_fun sin) 3 ltac:(lia) (repeat (d0, d0) 3) (repeat (d0, d0) 3) (repeat (d0, d0) 6)) as (o & E & _); try reflexivity.
    exists o. eapply real_new; [| | |exact E]; reflexivity.
Qed.
