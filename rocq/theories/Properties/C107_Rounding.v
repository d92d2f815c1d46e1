(** C107: Decimator and DecimatorB in IEEE doubles (dsp/rateconversion). *)
From Coq Require Import List ZArith QArith Qreals Reals Lia Lra.
From Flocq Require Import Core.
From Verif.Base Require Import Imp Dbl Double.
From Verif.Rate Require Import Df2tSpec DecimatorModel DecimatorSpec DecimatorBModel DecimatorBSpec RoundSpec RoundClass.
Import ListNotations.
Open Scope R_scope.

(** All arithmetic rounded to nearest, coefficients rounded to doubles, infinities and NaN
    included in the type: for input samples of magnitude at most M, and for streams of any length,
    every output sample is a finite number within 2e-8 M (factor 8), 1.25e-10 M (factor 4),
    4e-12 M (factor 2) of the sample of the exact response with the coefficients as written. *)
Theorem C107_decimator_doubles :
  forall (F : Type) (fz : F) (up : F -> double) (down : double -> F) junk n f calls M,
  (2 <= f)%Z -> (0 <= n)%Z -> (f | n)%Z -> blocks n (n / f) calls ->
  bpow radix2 (-900) <= M -> M <= bpow radix2 890 -> all_finite M (map up (fed calls)) ->
  exists d outs zs ys es,
    (d1 <- decimator_new d0 dlit junk n f ;; decimator_run dadd dsub dmul up down d1 calls) = OK (d, outs) /\
    got (n / f) outs = map down zs /\
    (let '(b, a) := coefficients f in
     iir_response 0 Rplus Rminus Rmult (lead Q2R b) (pairs Q2R b a) (map dval (map up (fed calls))) ys) /\
    every 0 f ys es /\
    computes (M / IZR (if f =? 8 then 50000000 else if f =? 4 then 8000000000 else 250000000000)) zs es.
Proof. exact decimator_doubles. Qed.
Print Assumptions C107_decimator_doubles.

(** Likewise for k halvings; the exact output may be as large as 2^k M (C44). *)
Theorem C107_decimatorB_doubles :
  forall (F : Type) (fz : F) (up : F -> double) (down : double -> F) junk n k calls M,
  (1 <= k <= 30)%nat -> (0 <= n)%Z -> (2 ^ Z.of_nat k | n)%Z -> blocks n (n / 2 ^ Z.of_nat k) calls ->
  bpow radix2 (-900) <= M -> M <= bpow radix2 850 -> all_finite M (map up (fed calls)) ->
  exists e outs zs es,
    (e1 <- decB_new d0 dlit junk n (2 ^ Z.of_nat k) ;; decB_run dadd dsub dmul up down e1 calls) = OK (e, outs) /\
    got (n / 2 ^ Z.of_nat k) outs = map down zs /\
    halved 0 Rplus Rminus Rmult (lead Q2R bw_b) (pairs Q2R bw_b bw_a) k (map dval (map up (fed calls))) es /\
    computes (INR k * 2 ^ k * M / 20000000000000) zs es.
Proof. exact decimatorB_doubles. Qed.
Print Assumptions C107_decimatorB_doubles.

(** Two blocks of 8 samples 1, -3/4, ...: the hypotheses hold with M = 1. *)
Definition block107 : list double := [dmake 1 0; dmake (-3) (-2); dmake 0 0; dmake 1 (-1); dmake 1 0; dmake 1 (-60); dmake 5 (-3); dmake (-1) 0].
Example C107_case :
  (8 | 8)%Z /\ blocks 8 (8 / 8) [(block107, [d0]); (block107, [d0])] /\
  all_finite 1 (map (fun v => v) (fed [(block107, [d0]); (block107, [d0])])) /\ bpow radix2 (-900) <= 1 <= bpow radix2 850.
Proof.
  assert (V : forall m e, Rabs (IZR m) * bpow radix2 e <= 1 -> finite (dmake m e) /\ Rabs (dval (dmake m e)) <= 1).
  { intros m e H. assert (H1 : Rabs (F2R (Float radix2 m e)) <= 1).
    { unfold F2R. cbn [Fnum Fexp]. rewrite Rabs_mult, (Rabs_pos_eq (bpow radix2 e)) by apply bpow_ge_0. exact H. }
    assert (B1 : 1 <= huge) by (change 1 with (bpow radix2 0); apply bpow_le; lia).
    destruct (dmake_ok m e ltac:(lra)) as [A B]. split; auto. rewrite B.
    apply Rabs_le_inv in H1. apply Rabs_le. pose proof (rnd_int 1 eq_refl) as R1. pose proof (rnd_int (-1) eq_refl) as R2.
    split; [apply Rle_trans with (rnd (IZR (-1))); [rewrite R2; lra|apply rnd_le; lra]|rewrite <- R1; apply rnd_le; lra]. }
  assert (A : Forall (fun v => finite v /\ Rabs (dval v) <= 1) block107).
  { unfold block107. do 8 (apply Forall_cons; [apply V; rewrite bpow_powerRZ; simpl; unfold Rabs; destruct (Rcase_abs _); lra|]). apply Forall_nil. }
  split; [exists 1%Z; reflexivity|]. split; [repeat constructor; cbn; discriminate|]. split.
  - intros t Ht. rewrite map_id in *.
    assert (B : Forall (fun v => finite v /\ Rabs (dval v) <= 1) (block107 ++ block107)) by now apply Forall_app.
    rewrite Forall_forall in B. apply B. unfold zn. change (fed _) with (block107 ++ block107).
    destruct (Z.ltb_spec t 0); [lia|]. apply nth_In. change (fed _) with (block107 ++ block107) in Ht. unfold zlen in Ht. lia.
  - split; [change 1 with (bpow radix2 0); apply bpow_le; lia|change 1 with (bpow radix2 0); apply bpow_le; lia].
Qed.
