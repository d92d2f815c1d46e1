(** Products summed in IEEE doubles. *)
From Coq Require Import ZArith Reals Lia Lra Psatz List Bool.
From Flocq Require Import Core.
From Flocq.IEEE754 Require Import BinarySingleNaN.
From Verif.Base Require Import Imp Sums RealOps Dbl Double Loops.
From Verif.Maths Require Import DoubleModel DoubleProofs StatDouble StatDoubleSpec StatDoubleProofs StatThresholdDouble.
Import ListNotations.
Open Scope R_scope.

Local Notation u := uro.
Local Notation eta := (bpow radix2 (-1075)).

Lemma fsum_summed n (f : Z -> double) : (0 <= n <= 2147483647)%Z -> (forall j, (0 <= j < n)%Z -> finite (f j)) -> total n (fun j => dval (f j)) <= cap ->
  summed f n (fsum d0 dadd n f).
Proof.
  intros Hn Hf HA. destruct (sum_loop n f (fun j => OK (f j)) Hn) as (s & E & S); [auto|exact HA|].
  rewrite (for_up_fsum d0 dadd n _ f) in E by (lia || reflexivity). injection E as <-. exact S.
Qed.

Lemma dot_doubles n (f g : Z -> double) : (0 <= n <= 2147483647)%Z -> (forall j, (0 <= j < n)%Z -> finite (f j) /\ finite (g j)) ->
  total n (fun j => dval (f j) * dval (g j)) <= bpow radix2 998 ->
  let s := fsum d0 dadd n (fun j => dmul (f j) (g j)) in
  finite s /\ Rabs (dval s - rsum n (fun j => dval (f j) * dval (g j))) <=
    1001 / 1000 * IZR n * u * total n (fun j => dval (f j) * dval (g j)) + 2 * IZR n * eta.
Proof.
  intros Hn Hf HT s. set (p := fun j => dval (f j) * dval (g j)) in *. set (T := total n p) in *.
  pose proof uro_pos as U. pose proof uro_val as UV. assert (ET : 0 < eta) by apply bpow_gt_0.
  assert (N0 : 0 <= IZR n) by (apply IZR_le; lia). assert (N1 : IZR n <= 2147483647) by (apply IZR_le; lia). assert (T0 : 0 <= T) by apply total_pos.
  assert (P : forall j, (0 <= j < n)%Z -> finite (dmul (f j) (g j)) /\ Rabs (dval (dmul (f j) (g j)) - p j) <= u * Rabs (p j) + eta).
  { intros j Hj. destruct (Hf j Hj) as [Ff Fg]. pose proof (rsum_term n (fun j => Rabs (p j)) j (fun i _ => Rabs_pos _) Hj) as B. cbn beta in B. fold (total n p) in B. fold T in B.
    destruct (dmul_ok (f j) (g j) Ff Fg) as [F V]; [apply (small_huge _ 998); [fold (p j); lra|lia]|]. split; [exact F|]. rewrite V. apply rnd_error. }
  set (q := fun j => dval (dmul (f j) (g j))).
  assert (TQ : total n q <= (1 + u) * T + IZR n * eta).
  { unfold T, total. rewrite <- rsum_scal, <- (rsum_const n eta), <- rsum_plus by lia. apply rsum_le. intros j Hj. destruct (P j Hj) as [_ E].
    unfold q. pose proof (near' _ _ _ _ E (Rle_refl _)). lra. }
  assert (SQ : Rabs (rsum n q - rsum n p) <= u * T + IZR n * eta).
  { rewrite <- rsum_minus. eapply Rle_trans; [apply rsum_abs|]. unfold T, total. rewrite <- rsum_scal, <- (rsum_const n eta), <- rsum_plus by lia. apply rsum_le.
    intros j Hj. destruct (P j Hj) as [_ E]. exact E. }
  assert (NE : IZR n * eta <= bpow radix2 (-1000)).
  { apply Rle_trans with (bpow radix2 31 * eta); [apply Rmult_le_compat_r; [lra|change (bpow radix2 31) with 2147483648; lra]|]. rewrite <- bpow_plus. apply bpow_le. lia. }
  assert (C2 : cap = 2 * bpow radix2 998) by (unfold cap; change 999%Z with (1 + 998)%Z; rewrite bpow_plus; reflexivity).
  assert (SM : bpow radix2 (-1000) <= / 4 * bpow radix2 998).
  { change (/ 4) with (bpow radix2 (-2)). rewrite <- bpow_plus. apply bpow_le. lia. }
  assert (UT : u * T <= / 1000 * T) by (apply Rmult_le_compat_r; [lra|rewrite UV; lra]).
  destruct (fsum_summed n (fun j => dmul (f j) (g j)) Hn) as (F & Z0 & E).
  { intros j Hj. apply P. exact Hj. }
  { fold q. rewrite C2. lra. }
  split; [exact F|]. destruct (Z.eq_dec n 0) as [->|NZ].
  - unfold s. rewrite Z0 by reflexivity. change (dval d0) with 0. rewrite rsum_0 by lia. replace (0 - 0) with 0 by ring. rewrite Rabs_R0. cbn in *. lra.
  - specialize (E ltac:(lia)). fold s q in E. replace (dval s - rsum n p) with ((dval s - rsum n q) + (rsum n q - rsum n p)) by ring.
    eapply Rle_trans; [apply Rabs_triang|]. rewrite minus_IZR in E. set (N := IZR n) in *. assert (NP : 1 <= N) by (apply (IZR_le 1); lia).
    assert (NU : (N - 1) * u <= / 2000) by (rewrite UV; lra). assert (NU0 : 0 <= (N - 1) * u) by (apply Rmult_le_pos; lra).
    assert (E1 : (N - 1) * u * total n q <= (N - 1) * u * ((1 + u) * T + N * eta)) by (apply Rmult_le_compat_l; lra).
    assert (E2 : (N - 1) * u * (N * eta) <= / 2000 * (N * eta)) by (apply Rmult_le_compat_r; [apply Rmult_le_pos; lra|exact NU]).
    assert (E3 : (N - 1) * u * (u * T) <= / 2000 * (u * T)) by (apply Rmult_le_compat_r; [apply Rmult_le_pos; lra|exact NU]).
    assert (E4 : 0 <= u * T) by (apply Rmult_le_pos; lra). assert (E5 : u * T <= N * (u * T)) by nra.
    assert (E6 : 0 <= N * eta) by (apply Rmult_le_pos; lra). lra.
Qed.
