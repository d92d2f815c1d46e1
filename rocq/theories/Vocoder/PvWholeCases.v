(** The whole phase vocoder in IEEE doubles: a case meeting the hypotheses. *)
From Coq Require Import ZArith Reals Lia Lra List Znumtheory.
From Flocq Require Import Core.
From Verif.Base Require Import Imp RealOps Dbl Double Loops.
From Verif.Maths Require Import DoubleModel DoublePi DoubleProofs.
From Verif.Fft Require Import FftDouble FftDoubleSpec FftDoubleCases FftTwiddle FftrDouble FftrDoubleSpec FftrDoubleCases.
From Verif.Vocoder Require Import PvModel PvSpec PvProofs PvWholeDouble PvWholeSpec PvWholeProofs.
Import ListNotations.
Open Scope R_scope.

(** A correctly rounded atan2 (of which the zero signs are those of the exact one). *)
Definition near_atan2 (y x : double) : double := dnear (atan2 (dval y) (dval x)).
Lemma near_atan2_accurate : accurate_angle near_atan2.
Proof.
  intros y x _ _ r th. destruct (atan2_polar (dval x) (dval y)) as (R0 & C & D & [P1 P2] & _). fold r in R0, C, D.
  pose proof pi_bounds as PB. set (a := atan2 (dval y) (dval x)) in *.
  assert (Ba : Rabs a <= 32 / 10) by (apply Rabs_le; lra).
  destruct (dnear_ok a) as [F V]; [apply (small_huge _ 2); [change (bpow radix2 2) with 4; lra|lia]|].
  pose proof (rnd_le_bound a (32 / 10) ltac:(lra) Ba) as E. fold (near_atan2 y x) in F, V. fold a in F, V.
  change (dnear a) with (near_atan2 y x) in F, V. fold th in V. rewrite <- V in E. pose proof uro_pos as UP. pose proof uro_val as UV.
  assert (E' : Rabs (th - a) <= 8 * uro) by lra.
  split; [exact F|]. split; [eapply Rle_trans; [eapply near'; [exact E|exact Ba]|]; rewrite UV; lra|].
  assert (G : forall f : R -> R, (Rabs (f th - f a) <= Rabs (th - a)) -> Rabs (r * f th - r * f a) <= 8 * uro * r).
  { intros f Hf. replace (r * f th - r * f a) with (r * (f th - f a)) by ring. rewrite Rabs_mult, (Rabs_pos_eq r) by exact R0.
    rewrite (Rmult_comm (8 * uro)). apply Rmult_le_compat_l; [exact R0|lra]. }
  split; [rewrite C at 1; apply (G cos), cos_lip|rewrite D at 1; apply (G sin), sin_lip].
Qed.

(** Size 6, hop 3: one frame of samples and one of bins. *)
Definition frame_a : dframe :=
  {| fr_src := Samples (dint 1 :: repeat (dint (-1)) 5); fr_mag := repeat d0 4; fr_theta := repeat d0 4; fr_out := repeat d0 5 |}.
Definition frame_b : dframe :=
  {| fr_src := Bins (repeat (dint 2) 4) (repeat (dint 3) 4); fr_mag := repeat d0 4; fr_theta := repeat d0 4; fr_out := repeat d0 4 |}.

Lemma voc_case : accurate (near_fun cos) cos /\ accurate (near_fun sin) sin /\ accurate_angle near_atan2 /\
  prime_factors 6 [2; 3]%Z /\ weight [2; 3]%Z = 6 /\ Forall (frame_bounded 6) [frame_a; frame_b] /\
  exists o, voc_fresh (near_fun cos) (near_fun sin) near_atan2 6 3 o.
Proof.
  split; [apply near_cos|]. split; [apply near_sin|]. split; [apply near_atan2_accurate|].
  assert (P : prime_factors 6 [2; 3]%Z) by (split; [|reflexivity]; repeat (constructor; auto using prime_2, prime_3)).
  split; [exact P|]. split; [reflexivity|].
  assert (HB : bpow radix2 (-400) <= 1 <= bpow radix2 450) by (split; [change 1 with (bpow radix2 0)|change 1 with (bpow radix2 0)]; apply bpow_le; lia).
  assert (D : forall z, (Z.abs z <= 3)%Z -> finite (dint z) /\ Rabs (dval (dint z)) <= IZR (Z.abs z)).
  { intros z Hz. destruct (dint_ok z) as [F V]; [unfold two53; lia|]. split; auto. rewrite V, <- abs_IZR. lra. }
  split.
  - constructor; [|constructor; [|constructor]].
    + split; [unfold frame_room, source_room; cbn; lia|]. exists 1. split; [exact HB|]. cbn [source_bounded fr_src frame_a].
      split; [cbn; lia|]. intros j Hj. assert (J : j = 0%Z \/ (1 <= j)%Z) by lia. destruct J as [-> | J].
      * apply (D 1%Z). lia.
      * replace (zn d0 (dint 1 :: repeat (dint (-1)) 5) j) with (dint (-1)); [apply (D (-1)%Z); lia|].
        assert (JJ : j = 1%Z \/ j = 2%Z \/ j = 3%Z \/ j = 4%Z \/ j = 5%Z) by lia. destruct JJ as [-> | [-> | [-> | [-> | ->]]]]; reflexivity.
    + split; [unfold frame_room, source_room; cbn; lia|]. exists 1. split; [exact HB|]. cbn [source_bounded fr_src frame_b]. change (6 / 2)%Z with 3%Z.
      intros k Hk. rewrite !zn_repeat_in by lia. destruct (D 2%Z) as [F2 B2]; [lia|]. destruct (D 3%Z) as [F3 B3]; [lia|]. cbn [Z.abs] in B2, B3.
      split; [auto|]. split; [auto|]. lra.
  - destruct (voc_new_runs (near_fun cos) (near_fun sin) 6 3 ltac:(lia) eq_refl (repeat (d0, d0) 3) (repeat (d0, d0) 3) (repeat (d0, d0) 6) (repeat d0 6) (repeat d0 6) (repeat d0 6)) as (o & E); try reflexivity.
    exists o. left. do 6 eexists. repeat split; [| | | | | |exact E]; reflexivity.
Qed.
