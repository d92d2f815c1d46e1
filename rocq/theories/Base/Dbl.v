(** IEEE double rounding (Flocq) and the integer expressions [int(ceil(double(a)*b/c))]. *)
From Coq Require Import ZArith Reals Lia Lra Psatz.
From Flocq Require Import Core.
From Flocq.Prop Require Import Relative.
From Verif.Base Require Import RealOps.
Open Scope R_scope.

(** Round to nearest even, binary64 with gradual underflow. *)
Definition rnd (x : R) : R := round radix2 (FLT_exp (-1074) 53) ZnearestE x.
Definition two53 : Z := 9007199254740992.

Local Instance prec53 : Prec_gt_0 53.
Proof. unfold Prec_gt_0. lia. Qed.

Lemma rnd_int n : (Z.abs n < two53)%Z -> rnd (IZR n) = IZR n.
Proof.
  intros H. unfold rnd. apply round_generic; [apply valid_rnd_N|].
  apply generic_format_FLT. exists (Float radix2 n 0); simpl.
  - unfold F2R. simpl. lra.
  - exact H.
  - lia.
Qed.
Lemma rnd_le x y : x <= y -> rnd x <= rnd y.
Proof. intros H. unfold rnd. apply round_le; [apply FLT_exp_valid; exact prec53|apply valid_rnd_N|exact H]. Qed.

(** The ceiling of the computed quotient is the ceiling of the quotient. *)
Lemma rnd_ceil_div a b : (0 <= a < two53)%Z -> (0 < b < two53)%Z ->
  let q := RealOps.Zceil (rnd (IZR a / IZR b)) in (a <= q * b < a + b)%Z.
Proof.
  intros Ha Hb q.
  assert (Hb' : 0 < IZR b) by (apply IZR_lt; lia). assert (Ha' : 0 <= IZR a) by (apply IZR_le; lia).
  set (c := (- ((- a) / b))%Z).
  assert (Hc : (a <= c * b < a + b)%Z).
  { unfold c. pose proof (Z_div_mod_eq_full (- a) b). pose proof (Z.mod_pos_bound (- a) b ltac:(lia)). nia. }
  assert (Hc0 : (0 <= c <= a)%Z) by nia.
  assert (Up : rnd (IZR a / IZR b) <= IZR c).
  { rewrite <- (rnd_int c) by lia. apply rnd_le. apply Rmult_le_reg_r with (IZR b); [lra|].
    unfold Rdiv. rewrite Rmult_assoc, Rinv_l, Rmult_1_r by lra. rewrite <- mult_IZR. apply IZR_le. lia. }
  assert (Dn : IZR c - 1 < rnd (IZR a / IZR b)).
  { destruct (Z.eq_dec a 0) as [->|Ha0].
    - replace (0 / IZR b) with (IZR 0) by (unfold Rdiv; lra). rewrite rnd_int by (unfold two53; lia).
      replace c with 0%Z by nia. lra.
    - assert (X1 : IZR a * / IZR b >= / IZR b).
      { rewrite <- (Rmult_1_l (/ IZR b)) at 2. apply Rle_ge, Rmult_le_compat_r; [left; now apply Rinv_0_lt_compat|].
        apply IZR_le. lia. }
      assert (X0 : / IZR b >= / IZR two53).
      { apply Rle_ge, Rinv_le_contravar; [exact Hb'|]. apply IZR_le. lia. }
      pose proof (Rinv_0_lt_compat _ Hb') as Ib.
      pose proof (relative_error_N_FLT radix2 (-1074) 53 prec53 (fun x => negb (Z.even x)) (IZR a / IZR b)) as E.
      assert (Ab : Rabs (IZR a / IZR b) = IZR a / IZR b) by (apply Rabs_pos_eq; unfold Rdiv; nra).
      rewrite Ab in E.
      assert (B53 : / 2 * bpow radix2 (-52) = / IZR two53).
      { rewrite bpow_powerRZ. unfold two53. simpl. lra. }
      change (- (53) + 1)%Z with (-52)%Z in E. rewrite B53 in E. unfold Rdiv in *.
      assert (Le : bpow radix2 (-1074 + 53 - 1) <= IZR a * / IZR b).
      { apply Rle_trans with (/ IZR two53); [|lra]. change (IZR two53) with (bpow radix2 53).
        rewrite <- bpow_opp. apply bpow_le. lia. }
      specialize (E Le). apply Rabs_le_inv in E. destruct E as [E _].
      change (round radix2 (FLT_exp (-1074) 53) _ (IZR a * / IZR b)) with (rnd (IZR a * / IZR b)) in E.
      (* a/b - (c-1) >= 1/b *)
      assert (Y : IZR c - 1 + / IZR b <= IZR a * / IZR b).
      { apply Rmult_le_reg_r with (IZR b); [lra|]. rewrite Rmult_plus_distr_r, Rmult_assoc, Rinv_l by lra.
        replace ((IZR c - 1) * IZR b + 1) with (IZR ((c - 1) * b + 1)) by (rewrite plus_IZR, mult_IZR, minus_IZR; ring).
        rewrite Rmult_1_r. apply IZR_le. lia. }
      assert (W : / IZR two53 * (IZR a * / IZR b) < / IZR b).
      { rewrite <- Rmult_assoc. rewrite <- (Rmult_1_l (/ IZR b)) at 2. apply Rmult_lt_compat_r; [exact Ib|].
        apply Rmult_lt_reg_l with (IZR two53); [apply IZR_lt; reflexivity|].
        rewrite <- Rmult_assoc, Rinv_r, Rmult_1_l, Rmult_1_r by (apply not_0_IZR; discriminate).
        apply IZR_lt. lia. }
      lra. }
  assert (q = c) as ->; [|exact Hc].
  destruct (Zceil_bounds (rnd (IZR a / IZR b))) as [Q1 Q2]. fold q in Q1, Q2.
  assert (IZR (q - 1) < IZR c) by (rewrite minus_IZR; lra). assert (IZR (c - 1) < IZR q) by (rewrite minus_IZR; lra).
  apply lt_IZR in H, H0. lia.
Qed.

(** [int(ceil(double(n) * t / s))]. *)
Definition ceil_expr (n t s : Z) : Z := RealOps.Zceil (rnd (rnd (IZR n * IZR t) / IZR s)).
Theorem ceil_expr_exact n t s : (0 <= n -> 0 <= t -> n * t < two53 -> 0 < s < two53 ->
  n * t <= ceil_expr n t s * s < n * t + s)%Z.
Proof.
  intros Hn Ht H Hs. unfold ceil_expr. rewrite <- mult_IZR, rnd_int by nia. apply rnd_ceil_div; nia.
Qed.
