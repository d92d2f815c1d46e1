(** The twiddle factors in IEEE doubles. *)
From Coq Require Import ZArith Reals Lia Lra Psatz List Bool.
From Flocq Require Import Core.
From Flocq.IEEE754 Require Import BinarySingleNaN.
From Verif.Base Require Import Imp RealOps Dbl Double.
From Verif.Maths Require Import DoubleModel DoublePi DoubleProofs.
From Verif.Fft Require Import Cplx FftBfly FftGen FftDouble FftDoubleSpec FftRound.
Open Scope R_scope.
Notation u := uro.

Lemma cos_lip a b : Rabs (cos a - cos b) <= Rabs (a - b).
Proof.
  destruct (MVT_abs cos (fun x => - sin x) b a) as (c & E & _).
  { intros x _. apply derivable_pt_lim_cos. }
  rewrite E. rewrite Rabs_Ropp. pose proof (SIN_bound c). assert (Rabs (sin c) <= 1) by (apply Rabs_le; lra).
  pose proof (Rabs_pos (a - b)). nra.
Qed.
Lemma sin_lip a b : Rabs (sin a - sin b) <= Rabs (a - b).
Proof.
  destruct (MVT_abs sin cos b a) as (c & E & _).
  { intros x _. apply derivable_pt_lim_sin. }
  rewrite E. pose proof (COS_bound c). assert (Rabs (cos c) <= 1) by (apply Rabs_le; lra).
  pose proof (Rabs_pos (a - b)). nra.
Qed.

(** -2 * pi is exact. *)
Lemma m2pi : finite (dmul (dint (-2)) dpi) /\ dval (dmul (dint (-2)) dpi) = - 2 * dval dpi.
Proof.
  destruct (dint_ok (-2)) as [F2 V2]; [reflexivity|].
  destruct (dmul_ok (dint (-2)) dpi F2 dpi_finite) as [F V].
  - rewrite V2. pose proof pi_bounds. pose proof dpi_error. apply (small_huge _ 3); [|lia]. change (bpow radix2 3) with 8. apply Rabs_le. lra.
  - split; auto. rewrite V, V2. change (IZR (-2)) with (-2). replace (-2 * dval dpi) with (- 2 * dval dpi) by lra.
    unfold rnd. apply round_generic; [apply valid_rnd_N|]. rewrite dpi_val. apply generic_format_FLT.
    exists (Float radix2 (-7074237752028440) (-50)); [|cbn; lia|cbn; lia].
    unfold F2R. cbn [Fnum Fexp]. change (bpow radix2 (-51)) with (/ 2251799813685248). change (bpow radix2 (-50)) with (/ 1125899906842624). lra.
Qed.

Section Phase.
  Context (n i : Z) (Hn : (1 <= n <= 2 ^ 30)%Z) (Hi : (0 <= i < n)%Z).
  Notation x := (- 2 * PI * IZR i / IZR n).
  Definition phase0 : double := ddiv (dmul (dmul (dint (-2)) dpi) (dint i)) (dint n).

  Lemma phase0_ok : finite phase0 /\ Rabs (dval phase0 - x) <= 15 * u /\ Rabs (dval phase0) <= 7.
  Proof.
    change (2 ^ 30)%Z with 1073741824%Z in Hn.
    assert (N1 : 1 <= IZR n <= 1073741824) by (split; apply IZR_le; lia).
    assert (I0 : 0 <= IZR i) by (apply IZR_le; lia). assert (I1 : IZR i <= IZR n) by (apply IZR_le; lia).
    pose proof pi_bounds as PB. pose proof dpi_error as PE. pose proof uro_val as UV. pose proof uro_pos as UP.
    destruct m2pi as [F1 V1]. destruct (dint_ok i) as [Fi Vi]; [unfold two53; lia|]. destruct (dint_ok n) as [Fn Vn]; [unfold two53; lia|].
    set (t1 := dmul (dint (-2)) dpi) in *.
    assert (T1 : Rabs (dval t1 - - 2 * PI) <= 235 / 100 * u) by (rewrite V1, UV; apply Rabs_le; lra).
    assert (T1b : Rabs (dval t1) <= 6284 / 1000) by (rewrite V1; apply Rabs_le; lra).
    assert (P2 : Rabs (dval t1 * IZR i) <= 6284 / 1000 * IZR i).
    { rewrite Rabs_mult, (Rabs_pos_eq (IZR i)) by lra. apply Rmult_le_compat_r; lra. }
    destruct (dmul_ok t1 (dint i) F1 Fi) as [F2 V2].
    { rewrite Vi. apply (small_huge _ 40); [|lia]. change (bpow radix2 40) with 1099511627776. lra. }
    rewrite Vi in V2. set (t2 := dmul t1 (dint i)) in *.
    assert (T2 : Rabs (dval t2 - dval t1 * IZR i) <= u * (6285 / 1000) * IZR i).
    { rewrite V2. destruct (Z.eq_dec i 0) as [->|Ni].
      - replace (dval t1 * 0) with 0 by ring. unfold rnd. rewrite round_0 by apply valid_rnd_N. rewrite Rminus_0_r, Rabs_R0. lra.
      - pose proof (rnd_unit (dval t1 * IZR i) (6284 / 1000) (IZR i)) as R.
        eapply Rle_trans; [apply R; auto|].
        + apply Rle_trans with (bpow radix2 0); [apply bpow_le; lia|]. change (bpow radix2 0) with (IZR 1). apply IZR_le. lia.
        + right. field. }
    assert (Q : Rabs (dval t2 / IZR n) <= 6285 / 1000).
    { unfold Rdiv. rewrite Rabs_mult, (Rabs_pos_eq (/ IZR n)) by (left; apply Rinv_0_lt_compat; lra).
      apply (Rmult_le_reg_r (IZR n)); [lra|]. rewrite Rmult_assoc, Rinv_l, Rmult_1_r by lra.
      pose proof (near' _ _ _ _ T2 P2) as R. assert (u * (6285 / 1000) <= 1 / 1000) by (rewrite UV; lra). nra. }
    destruct (ddiv_ok t2 (dint n) F2) as [F3 V3]; [rewrite Vn; lra| |].
    { rewrite Vn. apply (small_huge _ 3); [|lia]. change (bpow radix2 3) with 8. lra. }
    rewrite Vn in V3. fold phase0 in F3, V3.
    pose proof (rnd_le_bound _ (6285 / 1000) ltac:(lra) Q) as T3. rewrite <- V3 in T3.
    split; [exact F3|]. split.
    - replace (dval phase0 - x) with ((dval phase0 - dval t2 / IZR n) + (dval t2 - dval t1 * IZR i) / IZR n + (dval t1 - - 2 * PI) * (IZR i / IZR n)) by (field; lra).
      assert (0 <= IZR i / IZR n <= 1).
      { split; [apply Rle_mult_inv_pos; lra|]. apply (Rmult_le_reg_r (IZR n)); [lra|]. unfold Rdiv. rewrite Rmult_assoc, Rinv_l; lra. }
      assert (A : Rabs ((dval t2 - dval t1 * IZR i) / IZR n) <= u * (6285 / 1000)).
      { unfold Rdiv. rewrite Rabs_mult, (Rabs_pos_eq (/ IZR n)) by (left; apply Rinv_0_lt_compat; lra).
        apply (Rmult_le_reg_r (IZR n)); [lra|]. rewrite Rmult_assoc, Rinv_l, Rmult_1_r by lra.
        eapply Rle_trans; [exact T2|]. apply Rmult_le_compat_l; [rewrite UV; lra|lra]. }
      assert (B : Rabs ((dval t1 - - 2 * PI) * (IZR i / IZR n)) <= 235 / 100 * u * 1).
      { rewrite Rabs_mult, (Rabs_pos_eq (IZR i / IZR n)) by lra. apply Rmult_le_compat; try lra. apply Rabs_pos. }
      eapply Rle_trans; [apply Rabs_triang|]. eapply Rle_trans; [apply Rplus_le_compat_r, Rabs_triang|].
      eapply Rle_trans; [apply Rplus_le_compat; [apply Rplus_le_compat; [exact T3|exact A]|exact B]|]. lra.
    - pose proof (near' _ _ _ _ T3 Q). assert (1001 / 1000 * u * (6285 / 1000) <= 1 / 1000) by (rewrite UV; lra).
      eapply Rle_trans; [eassumption|]. lra.
  Qed.

  Context (inv : bool).
  Definition phase : double := if inv then dmul phase0 (dint (-1)) else phase0.
  Notation y := (2 * PI * IZR (sg inv * i) / IZR n).
  Lemma phase_ok : finite phase /\ Rabs (dval phase - y) <= 15 * u /\ Rabs (dval phase) <= 7.
  Proof.
    assert (N0 : IZR n <> 0) by (apply not_0_IZR; lia).
    destruct phase0_ok as (F & E & B). unfold phase. rewrite mult_IZR. destruct inv; cbn [sg].
    - destruct (dint_ok (-1)) as [Fm Vm]; [reflexivity|].
      destruct (dmul_ok phase0 (dint (-1)) F Fm) as [F' V'].
      { rewrite Vm. apply (small_huge _ 3); [|lia]. change (bpow radix2 3) with 8. rewrite Rabs_mult, (Rabs_left (IZR (-1))) by lra. lra. }
      rewrite Vm in V'. replace (dval phase0 * IZR (-1)) with (- dval phase0) in V' by (change (IZR (-1)) with (-1); ring).
      assert (V2 : dval (dmul phase0 (dint (-1))) = - dval phase0).
      { rewrite V'. unfold rnd. apply round_generic; [apply valid_rnd_N|]. apply generic_format_opp. apply (generic_format_B2R 53 1024). }
      split; [exact F'|]. rewrite V2, Rabs_Ropp. split; [|exact B].
      replace (- dval phase0 - 2 * PI * (1 * IZR i) / IZR n) with (- (dval phase0 - - 2 * PI * IZR i / IZR n)) by (field; auto). now rewrite Rabs_Ropp.
    - split; [exact F|]. split; [|exact B].
      replace (2 * PI * (-1 * IZR i) / IZR n) with (- 2 * PI * IZR i / IZR n) by (field; auto). exact E.
  Qed.

  Lemma twiddle_near dcos dsin : accurate dcos cos -> accurate dsin sin ->
    ctnear (dtwiddle dcos dsin inv n i) (root n (sg inv * i)).
  Proof.
    intros Hc Hs. destruct phase_ok as (F & E & B). change (dtwiddle dcos dsin inv n i) with (dcos phase, dsin phase).
    destruct (Hc phase F B) as [C1 C2]. destruct (Hs phase F B) as [S1 S2].
    unfold root, cis, ctnear, tnear. cbn [fst snd].
    pose proof (cos_lip (dval phase) y) as L1. pose proof (sin_lip (dval phase) y) as L2.
    pose proof (COS_bound y) as B1. pose proof (SIN_bound y) as B2.
    split; (split; [assumption|]); (split; [|apply Rabs_le; lra]).
    - replace (dval (dcos phase) - cos y) with ((dval (dcos phase) - cos (dval phase)) + (cos (dval phase) - cos y)) by ring.
      eapply Rle_trans; [apply Rabs_triang|]. lra.
    - replace (dval (dsin phase) - sin y) with ((dval (dsin phase) - sin (dval phase)) + (sin (dval phase) - sin y)) by ring.
      eapply Rle_trans; [apply Rabs_triang|]. lra.
  Qed.
End Phase.
