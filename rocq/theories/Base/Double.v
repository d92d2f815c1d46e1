(** IEEE-754 binary64 (Flocq), rounding to nearest even: the C++ type double where the
    compiler neither contracts nor uses extended precision. *)
From Coq Require Import ZArith QArith Qreals Reals Lia Lra.
From Flocq Require Import Core.
From Flocq.Prop Require Import Relative.
From Flocq.IEEE754 Require Import BinarySingleNaN.
From Verif.Base Require Import Dbl.
Open Scope R_scope.

Definition double := binary_float 53 1024.
Definition d0 : double := B754_zero false.
Local Instance p53 : Prec_gt_0 53 := eq_refl.
Local Instance p1024 : Prec_lt_emax 53 1024 := eq_refl.
Definition dadd : double -> double -> double := Bplus mode_NE.
Definition dsub : double -> double -> double := Bminus mode_NE.
Definition dmul : double -> double -> double := Bmult mode_NE.
Definition ddiv : double -> double -> double := Bdiv mode_NE.

(** The double m * 2^e, rounded. *)
Definition dmake (m e : Z) : double := binary_normalize 53 1024 _ _ mode_NE m e false.
(** The double nearest to a real number. *)
Definition dnear (r : R) : double :=
  let v := rnd r in
  dmake (Ztrunc (scaled_mantissa radix2 (FLT_exp (-1074) 53) v)) (cexp radix2 (FLT_exp (-1074) 53) v).
(** A decimal literal of the source: the nearest double. *)
Definition dlit (q : Q) : double := dnear (Q2R q).

Definition finite (x : double) : Prop := is_finite x = true.
Definition dval (x : double) : R := B2R x.
Definition huge : R := bpow radix2 1000.

Lemma rnd_huge v : Rabs v <= huge -> Rabs (rnd v) <= huge.
Proof.
  intros H. unfold rnd. apply abs_round_le_generic; auto.
  - apply FLT_exp_valid. exact p53.
  - apply valid_rnd_N.
  - apply generic_format_bpow'; [apply FLT_exp_valid; exact p53|]. vm_compute. discriminate.
Qed.
Lemma rnd_below v : Rabs v <= huge -> Rlt_bool (Rabs (rnd v)) (bpow radix2 1024) = true.
Proof.
  intros H. apply Rlt_bool_true. eapply Rle_lt_trans; [apply rnd_huge, H|]. unfold huge. apply bpow_lt. reflexivity.
Qed.

Lemma dadd_ok x y : finite x -> finite y -> Rabs (dval x + dval y) <= huge ->
  finite (dadd x y) /\ dval (dadd x y) = rnd (dval x + dval y).
Proof.
  intros Hx Hy H. pose proof (Bplus_correct 53 1024 _ _ mode_NE x y Hx Hy) as C.
  change (round radix2 _ _ (B2R x + B2R y)) with (rnd (dval x + dval y)) in C.
  rewrite rnd_below in C by auto. destruct C as (A & B & _). auto.
Qed.
Lemma dsub_ok x y : finite x -> finite y -> Rabs (dval x - dval y) <= huge ->
  finite (dsub x y) /\ dval (dsub x y) = rnd (dval x - dval y).
Proof.
  intros Hx Hy H. pose proof (Bminus_correct 53 1024 _ _ mode_NE x y Hx Hy) as C.
  change (round radix2 _ _ (B2R x - B2R y)) with (rnd (dval x - dval y)) in C.
  rewrite rnd_below in C by auto. destruct C as (A & B & _). auto.
Qed.
Lemma dmul_ok x y : finite x -> finite y -> Rabs (dval x * dval y) <= huge ->
  finite (dmul x y) /\ dval (dmul x y) = rnd (dval x * dval y).
Proof.
  intros Hx Hy H. pose proof (Bmult_correct 53 1024 _ _ mode_NE x y) as C.
  change (round radix2 _ _ (B2R x * B2R y)) with (rnd (dval x * dval y)) in C.
  rewrite rnd_below in C by auto. destruct C as (A & B & _). split; auto.
  unfold finite, dmul. rewrite B, Hx, Hy. reflexivity.
Qed.
Lemma ddiv_ok x y : finite x -> dval y <> 0 -> Rabs (dval x / dval y) <= huge ->
  finite (ddiv x y) /\ dval (ddiv x y) = rnd (dval x / dval y).
Proof.
  intros Hx Hy H. pose proof (Bdiv_correct 53 1024 _ _ mode_NE x y Hy) as C.
  change (round radix2 _ _ (B2R x / B2R y)) with (rnd (dval x / dval y)) in C.
  rewrite rnd_below in C by auto. destruct C as (A & B & _). split; auto.
  unfold finite, ddiv. now rewrite B.
Qed.
Lemma rnd_rnd v : rnd (rnd v) = rnd v.
Proof.
  unfold rnd. apply round_generic; [apply valid_rnd_N|]. apply generic_format_round; [apply FLT_exp_valid; exact p53|apply valid_rnd_N].
Qed.
Lemma dmake_ok m e : Rabs (F2R (Float radix2 m e)) <= huge ->
  finite (dmake m e) /\ dval (dmake m e) = rnd (F2R (Float radix2 m e)).
Proof.
  intros H. pose proof (binary_normalize_correct 53 1024 _ _ mode_NE m e false) as C. cbn zeta in C.
  change (round radix2 _ _ (F2R (Float radix2 m e))) with (rnd (F2R (Float radix2 m e))) in C.
  rewrite rnd_below in C by auto. destruct C as (A & B & _). auto.
Qed.
Lemma dnear_ok r : Rabs r <= huge -> finite (dnear r) /\ dval (dnear r) = rnd r.
Proof.
  intros H.
  assert (E : F2R (Float radix2 (Ztrunc (scaled_mantissa radix2 (FLT_exp (-1074) 53) (rnd r)))
                    (cexp radix2 (FLT_exp (-1074) 53) (rnd r))) = rnd r).
  { symmetry. change (generic_format radix2 (FLT_exp (-1074) 53) (rnd r)). unfold rnd.
    apply generic_format_round; [apply FLT_exp_valid; exact p53|apply valid_rnd_N]. }
  unfold dnear. cbv zeta. match type of E with F2R (Float _ ?m ?e) = _ => destruct (dmake_ok m e) as [A B]; [rewrite E; now apply rnd_huge|] end.
  split; [exact A|]. rewrite B, E. apply rnd_rnd.
Qed.

(** The unit roundoff 2^-53, and half the least positive double. *)
Definition uro : R := bpow radix2 (-53).
Lemma rnd_error v : Rabs (rnd v - v) <= uro * Rabs v + bpow radix2 (-1075).
Proof.
  destruct (error_N_FLT radix2 (-1074) 53 eq_refl (fun t => negb (Z.even t)) v) as (e & f & He & Hf & _ & E).
  fold (rnd v) in E. change (round radix2 (FLT_exp (-1074) 53) _ v) with (rnd v) in E. rewrite E.
  replace (v * (1 + e) + f - v) with (e * v + f) by ring.
  eapply Rle_trans; [apply Rabs_triang|]. rewrite Rabs_mult.
  assert (U : / 2 * bpow radix2 (- (53) + 1) = uro) by (unfold uro; rewrite !bpow_powerRZ; simpl; lra).
  assert (V : / 2 * bpow radix2 (-1074) = bpow radix2 (-1075)).
  { change (/ 2) with (bpow radix2 (-1)). rewrite <- bpow_plus. reflexivity. }
  rewrite U in He. rewrite V in Hf. apply Rplus_le_compat; auto. apply Rmult_le_compat_r; [apply Rabs_pos|auto].
Qed.
Lemma uro_pos : 0 < uro. Proof. apply bpow_gt_0. Qed.
Lemma uro_val : uro = / 9007199254740992.
Proof. unfold uro. rewrite bpow_powerRZ. simpl. lra. Qed.

(** Rounding in units of K, where K is not tiny. *)
Lemma rnd_unit v V K : bpow radix2 (-900) <= K -> Rabs v <= V * K -> Rabs (rnd v - v) <= uro * (V + /1000) * K.
Proof.
  intros HK HV. eapply Rle_trans; [apply rnd_error|].
  assert (bpow radix2 (-1075) <= uro * / 1000 * K).
  { apply Rle_trans with (uro * bpow radix2 (-10) * bpow radix2 (-900)).
    - unfold uro. rewrite <- !bpow_plus. apply bpow_le. reflexivity || lia.
    - apply Rmult_le_compat; [|apply bpow_ge_0| |exact HK].
      + apply Rmult_le_pos; [left; apply uro_pos|apply bpow_ge_0].
      + apply Rmult_le_compat_l; [left; apply uro_pos|]. rewrite bpow_powerRZ. simpl. lra. }
  pose proof uro_pos. assert (uro * Rabs v <= uro * (V * K)) by (apply Rmult_le_compat_l; lra). lra.
Qed.
