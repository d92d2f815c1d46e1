(** A case of the hypotheses of the error bounds. *)
From Coq Require Import ZArith Reals Lia Lra List Bool Znumtheory.
From Flocq Require Import Core.
From Verif.Base Require Import Imp RealOps Dbl Double Loops.
From Verif.Maths Require Import DoubleModel DoublePi DoubleProofs.
From Verif.Fft Require Import FftGen FftGenRuns FftDouble FftDoubleSpec.
Import ListNotations.
Open Scope R_scope.

(** Correctly rounded library functions. *)
Definition near_fun (g : R -> R) (x : double) : double := dnear (g (dval x)).
Lemma near_fun_accurate g : (forall x, Rabs (g x) <= 1) -> accurate (near_fun g) g.
Proof.
  intros H x _ _. destruct (dnear_ok (g (dval x))) as [F V].
  - apply (small_huge _ 0); [apply H|lia].
  - split; [exact F|]. unfold near_fun. rewrite V. pose proof (rnd_le_bound _ 1 ltac:(lra) (H (dval x))). pose proof uro_pos. lra.
Qed.
Lemma near_cos : accurate (near_fun cos) cos.
Proof. apply near_fun_accurate. intros x. pose proof (COS_bound x). apply Rabs_le. lra. Qed.
Lemma near_sin : accurate (near_fun sin) sin.
Proof. apply near_fun_accurate. intros x. pose proof (SIN_bound x). apply Rabs_le. lra. Qed.

Lemma case_12 : accurate (near_fun cos) cos /\ accurate (near_fun sin) sin /\
  prime_factors 12 [2; 2; 3]%Z /\ weight [2; 2; 3]%Z = 8 /\
  bounded 12 1 (repeat (dint 1) 12) None /\
  exists o, in_use (near_fun cos) (near_fun sin) 12 o.
Proof.
  splits.
  - apply near_cos.
  - apply near_sin.
  - split; [|reflexivity]. repeat (constructor; auto using prime_2, prime_3).
  - reflexivity.
  - unfold bounded. split; [cbn; lia|]. split; [discriminate|]. intros j Hj.
    assert (E : re_in (repeat (dint 1) 12) j = dint 1).
    { unfold re_in. assert (Z.to_nat j < 12)%nat by lia. unfold zn. destruct (Z.ltb_spec j 0); [lia|].
      apply (repeat_spec 12). apply nth_In. rewrite repeat_length. auto. }
    rewrite E. cbn [im_in]. destruct (dint_ok 1) as [F V]; [reflexivity|]. rewrite V. split; [exact F|]. split; [reflexivity|].
    change (dval d0) with 0. lra.
  - destruct (g_new_ready (dtwiddle (near_fun cos) (near_fun sin)) 12 (repeat (d0, d0) 12) (repeat (d0, d0) 12)) as (o & E & _); [lia|reflexivity|reflexivity|].
    exists o. eapply in_use_new; [| |exact E]; reflexivity.
Qed.
