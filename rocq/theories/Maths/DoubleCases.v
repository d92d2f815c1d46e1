(** Particular angles for princarg in doubles. *)
From Coq Require Import ZArith Reals Lia Lra List.
From Flocq Require Import Core.
From Flocq.IEEE754 Require Import BinarySingleNaN.
From Verif.Base Require Import Imp Dbl Double.
From Verif.Maths Require Import DoubleModel DoubleSpec DoublePi DoubleProofs.
Import ListNotations.
Open Scope R_scope.

Lemma princarg_near ang : finite ang -> Rabs (dval ang) <= 281474976710656 ->
  let e := 10 * uro * (Rabs (dval ang) + 4) in
  finite (dprincarg ang) /\ near_angle e (dval (dprincarg ang)) (dval ang) /\ Rabs (dval (dprincarg ang)) <= PI + e.
Proof.
  intros F H e. destruct (princarg_doubles ang F H) as (A & k & B & C). split; auto. split; auto. now exists k.
Qed.

Lemma ltb_val a b : finite a -> finite b -> Bltb a b = true -> dval a < dval b.
Proof.
  intros Fa Fb H. rewrite Bltb_correct in H by assumption. revert H. case Rlt_bool_spec; [auto|discriminate].
Qed.

(** Near 37 pi; the result is at least the double after the nearest one to pi. *)
Definition ang37 : double := dmake 8179587400782884 (-46).
Definition pi_up : double := dmake 7074237752028441 (-51).
Lemma range_left : exists ang, finite ang /\ Rabs (dval ang) <= 117 /\ finite (dprincarg ang) /\ PI < dval (dprincarg ang).
Proof.
  exists ang37. assert (F : finite ang37) by (vm_compute; reflexivity). assert (F' : finite (dprincarg ang37)) by (vm_compute; reflexivity).
  split; auto. split; [|split; auto].
  - destruct (dint_ok 117 eq_refl) as [Fi Vi]. destruct (dint_ok 0 eq_refl) as [Fz Vz]. apply Rabs_le. split.
    + assert (dval (dint 0) < dval ang37) by (apply ltb_val; auto; vm_compute; reflexivity). rewrite Vz in *. lra.
    + rewrite <- Vi. left. apply ltb_val; auto; vm_compute; reflexivity.
  - assert (Fd : finite pi_up) by (vm_compute; reflexivity).
    assert (E : B2R (prec := 53) (emax := 1024) pi_up = 7074237752028441 * bpow radix2 (-51)).
    { destruct (dmake_ok 7074237752028441 (-51)) as [_ V].
      - apply (small_huge _ 10); [|lia]. unfold F2R. cbn [Fnum Fexp]. change (bpow radix2 (-51)) with (/ 2251799813685248).
        change (bpow radix2 10) with 1024. apply Rabs_le. lra.
      - change (dval pi_up = 7074237752028441 * bpow radix2 (-51)). unfold pi_up. rewrite V. unfold rnd.
        apply round_generic; [apply valid_rnd_N|]. apply generic_format_FLT.
        exists (Float radix2 7074237752028441 (-51)); [reflexivity|cbn; lia|cbn; lia]. }
    assert (G : Bltb (dprincarg ang37) pi_up = false) by (vm_compute; reflexivity).
    rewrite Bltb_correct in G by assumption. revert G. case Rlt_bool_spec; [discriminate|]. intros G _.
    fold (dval (dprincarg ang37)) in G. rewrite E in G.
    change (bpow radix2 (-51)) with (/ 2251799813685248) in G. pose proof pi_bounds. lra.
Qed.

Definition ang_big : double := dmake 7891285179895231 7.
Lemma large_result : exists ang, finite ang /\ finite (dprincarg ang) /\ 131 < dval (dprincarg ang).
Proof.
  exists ang_big. assert (F : finite ang_big) by (vm_compute; reflexivity). assert (F' : finite (dprincarg ang_big)) by (vm_compute; reflexivity).
  split; auto. split; auto. destruct (dint_ok 131 eq_refl) as [Fi Vi]. rewrite <- Vi. apply ltb_val; auto; vm_compute; reflexivity.
Qed.

Lemma case_100 : finite (dint 100) /\ Rabs (dval (dint 100)) <= 281474976710656.
Proof. destruct (dint_ok 100 eq_refl) as [F V]. split; auto. rewrite V. apply Rabs_le. lra. Qed.
