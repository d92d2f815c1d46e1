(** How close the double M_PI is to pi. *)
From Coq Require Import ZArith QArith Qreals Reals Lia Lra Machin Ratan AltSeries.
From Flocq Require Import Core.
From Verif.Base Require Import Dbl Double.
From Verif.Maths Require Import DoubleModel.
Open Scope R_scope.

Fixpoint qpow (q : Q) (n : nat) : Q := match n with O => 1%Q | S n => (q * qpow q n)%Q end.
Definition termQ (n : nat) : Q :=
  let k := (2 * n + 1)%nat in
  ((2 * qpow (1 # 3) k + qpow (1 # 7) k) * (1 # Z.to_pos (Z.of_nat k)) * (if Nat.even n then 1 else -1 # 1))%Q.
Fixpoint partial (n : nat) : Q := match n with O => termQ 0 | S m => Qred (partial m + termQ n)%Q end.

Lemma Q2R_pow (q : Q) (n : nat) : Q2R (qpow q n) = Q2R q ^ n.
Proof. induction n as [|n IH]; [cbn; unfold Q2R; cbn; lra|]. cbn [qpow pow]. now rewrite Q2R_mult, IH. Qed.
Lemma termQ_R n : Q2R (termQ n) = tg_alt PI_2_3_7_tg n.
Proof.
  unfold termQ, tg_alt, PI_2_3_7_tg, Ratan_seq. rewrite !Q2R_mult, Q2R_plus, Q2R_mult, !Q2R_pow.
  set (k := (2 * n + 1)%nat).
  assert (K : (0 < Z.of_nat k)%Z) by lia.
  assert (E1 : Q2R (1 # Z.to_pos (Z.of_nat k)) = / INR k).
  { unfold Q2R. cbn [Qnum Qden]. rewrite Z2Pos.id by auto. rewrite <- INR_IZR_INZ. lra. }
  assert (E2 : Q2R (if Nat.even n then 1 else -1 # 1) = (-1) ^ n).
  { destruct (Nat.even n) eqn:Ev.
    - apply Nat.even_spec in Ev. destruct Ev as [j ->]. rewrite pow_1_even. unfold Q2R. cbn. lra.
    - assert (O : Nat.odd n = true) by (unfold Nat.odd; now rewrite Ev). apply Nat.odd_spec in O. destruct O as [j ->].
      rewrite Nat.add_1_r, pow_1_odd. unfold Q2R. cbn. lra. }
  rewrite E1, E2.
  assert (E3 : Q2R (1 # 3) = / 3) by (unfold Q2R; cbn; lra).
  assert (E7 : Q2R (1 # 7) = / 7) by (unfold Q2R; cbn; lra).
  assert (E4 : Q2R 2 = 2) by (unfold Q2R; cbn; lra).
  rewrite E3, E7, E4. unfold Rdiv. ring.
Qed.
Lemma partial_R n : Q2R (partial n) = sum_f_R0 (tg_alt PI_2_3_7_tg) n.
Proof.
  induction n as [|n IH]; [apply termQ_R|]. cbn [partial sum_f_R0]. rewrite (Qeq_eqR _ _ (Qred_correct _)).
  rewrite Q2R_plus, IH, termQ_R. reflexivity.
Qed.

Lemma pi_bounds : 3141592653589793238 / 1000000000000000000 <= PI <= 3141592653589793239 / 1000000000000000000.
Proof.
  pose proof (PI_2_3_7_ineq 9) as H. rewrite <- !partial_R in H.
  assert (L : ((3141592653589793238 # 4000000000000000000) <= partial (S (2 * 9)))%Q) by (vm_compute; discriminate).
  assert (U : (partial (2 * 9) <= (3141592653589793239 # 4000000000000000000))%Q) by (vm_compute; discriminate).
  apply Qle_Rle in L. apply Qle_Rle in U. 
  set (a := Q2R (partial (S (2 * 9)))) in *. set (b := Q2R (partial (2 * 9))) in *. clearbody a b.
  unfold Q2R in L, U. cbn [Qnum Qden] in L, U. lra.
Qed.

Lemma pi_rnd x : 3141592653589793238 / 1000000000000000000 <= x <= 3141592653589793239 / 1000000000000000000 ->
  rnd x = 7074237752028440 * bpow radix2 (-51).
Proof.
  intros H. unfold rnd, round, scaled_mantissa.
  assert (C : cexp radix2 (FLT_exp (-1074) 53) x = (-51)%Z).
  { unfold cexp. rewrite (mag_unique_pos radix2 x 2); [reflexivity|]. change (bpow radix2 (2 - 1)) with 2. change (bpow radix2 2) with 4. lra. }
  rewrite C. change (bpow radix2 (- -51)) with 2251799813685248.
  rewrite (Znearest_imp _ _ 7074237752028440); [reflexivity|].
  apply Rabs_def1; lra.
Qed.
Lemma dpi_finite : finite dpi. Proof. vm_compute. reflexivity. Qed.
Lemma dpi_val : dval dpi = 7074237752028440 * bpow radix2 (-51).
Proof.
  assert (E : F2R (Float radix2 7074237752028440 (-51)) = 7074237752028440 * bpow radix2 (-51)) by reflexivity.
  destruct (dmake_ok 7074237752028440 (-51)) as [_ B].
  - rewrite E. rewrite Rabs_pos_eq; [|change (bpow radix2 (-51)) with (/ 2251799813685248); lra].
    apply Rle_trans with (bpow radix2 10); [rewrite !bpow_powerRZ; simpl; lra|]. apply bpow_le. lia.
  - unfold dpi. rewrite B, E. rewrite <- (pi_rnd PI pi_bounds). apply rnd_rnd.
Qed.
(** M_PI is the double nearest to pi, and to the literal. *)
Lemma dpi_nearest : dval dpi = rnd PI.
Proof. now rewrite dpi_val, (pi_rnd PI pi_bounds). Qed.
Lemma dpi_literal : dval dpi = rnd (314159265358979323846 / 100000000000000000000).
Proof. rewrite dpi_val, pi_rnd; [reflexivity|lra]. Qed.
Lemma dpi_error : 0 <= PI - dval dpi <= 13 / 100000000000000000.
Proof.
  rewrite dpi_val. pose proof pi_bounds. change (bpow radix2 (-51)) with (/ 2251799813685248). lra.
Qed.
