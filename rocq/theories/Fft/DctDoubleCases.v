(** DCT in IEEE doubles: a case meeting the hypotheses. *)
From Coq Require Import ZArith Reals Lia Lra List Znumtheory.
From Flocq Require Import Core.
From Verif.Base Require Import Imp Double Loops.
From Verif.Maths Require Import DoubleModel DoubleProofs.
From Verif.Fft Require Import FftDouble FftDoubleSpec FftDoubleCases FftrDouble FftrDoubleSpec FftrDoubleCases DctDouble DctDoubleSpec DctDoubleRuns.
Import ListNotations.
Open Scope R_scope.

Lemma dct_case_3 : accurate (near_fun cos) cos /\ accurate (near_fun sin) sin /\
  prime_factors (3 * 4) [2; 2; 3]%Z /\ weight [2; 2; 3]%Z = 8 /\
  real_bounded 3 1 [dint 1; dint (-1); dint 1] /\
  exists d, dct_in_use (near_fun cos) (near_fun sin) 3 1 d.
Proof.
  split; [apply near_cos|]. split; [apply near_sin|]. split; [split; [|reflexivity]; repeat (constructor; auto using prime_2, prime_3)|].
  split; [reflexivity|]. split.
  - split; [cbn; lia|]. intros j Hj. destruct (dint_ok 1) as [F V]; [reflexivity|]. destruct (dint_ok (-1)) as [F' V']; [reflexivity|].
    assert (C : (j = 0 \/ j = 1 \/ j = 2)%Z) by lia.
    destruct C as [-> | [-> | ->]]; [change (zn _ _ _) with (dint 1)|change (zn _ _ _) with (dint (-1))|change (zn _ _ _) with (dint 1)];
      rewrite ?V, ?V'; (split; [assumption|]); apply Rabs_le; lra.
  - destruct (ddct_new_ready (near_fun cos) (near_fun sin) 3 ltac:(lia) (fun _ => True) (repeat (d0, d0) 6) (repeat (d0, d0) 6) (repeat (d0, d0) 12) I) as (d & E & _); try reflexivity.
    exists d. eapply dct_in_new; [| | |exact E]; reflexivity.
Qed.
