(** princarg in IEEE doubles. *)
From Coq Require Import ZArith Reals Lia Lra Psatz.
From Flocq Require Import Core.
From Flocq.IEEE754 Require Import BinarySingleNaN.
From Verif.Base Require Import Dbl Double.
From Verif.Maths Require Import DoubleModel DoublePi.
Open Scope R_scope.

Lemma small_huge v k : Rabs v <= bpow radix2 k -> (k <= 1000)%Z -> Rabs v <= huge.
Proof. intros H K. eapply Rle_trans; [exact H|]. now apply bpow_le. Qed.

Lemma dint_ok n : (Z.abs n < two53)%Z -> finite (dint n) /\ dval (dint n) = IZR n.
Proof.
  intros H. assert (E : F2R (Float radix2 n 0) = IZR n) by (unfold F2R; cbn; lra).
  destruct (dmake_ok n 0) as [A B].
  - rewrite E. apply (small_huge _ 53); [|lia]. rewrite <- abs_IZR. change (bpow radix2 53) with (IZR two53). apply IZR_le. lia.
  - split; auto. unfold dint. rewrite B, E. now apply rnd_int.
Qed.

Lemma dfloor_ok x : finite x -> Rabs (dval x) <= 4503599627370496 ->
  finite (dfloor x) /\ dval (dfloor x) = IZR (Zfloor (dval x)).
Proof.
  intros F H. destruct x as [s|s| |s m e He]; try discriminate.
  - cbn. split; [reflexivity|]. change (dval _) with 0. rewrite (Zfloor_IZR 0). reflexivity.
  - unfold dfloor. set (n := if s then Z.neg m else Z.pos m).
    assert (V : dval (B754_finite s m e He) = IZR n * bpow radix2 e) by (unfold dval, B2R, F2R, n; destruct s; reflexivity).
    rewrite V in *.
    assert (FL : (if (0 <=? e)%Z then n * 2 ^ e else n / 2 ^ (- e))%Z = Zfloor (IZR n * bpow radix2 e)).
    { destruct (Z.leb_spec 0 e) as [P|P].
      - rewrite <- IZR_Zpower, <- mult_IZR, Zfloor_IZR by auto. reflexivity.
      - replace (IZR n * bpow radix2 e) with (IZR n / IZR (2 ^ (- e))).
        + symmetry. apply Zfloor_div. apply Z.pow_nonzero; lia.
        + replace e with (- - e)%Z at 2 by lia. rewrite bpow_opp, <- IZR_Zpower by lia. reflexivity. }
    rewrite FL. apply dint_ok.
    assert (B : (- 4503599627370496 <= Zfloor (IZR n * bpow radix2 e) <= 4503599627370496)%Z).
    { apply Rabs_le_inv in H. split.
      - rewrite <- (Zfloor_IZR (-4503599627370496)). apply Zfloor_le. lra.
      - rewrite <- (Zfloor_IZR 4503599627370496). apply Zfloor_le. lra. }
    unfold two53. lia.
Qed.

(** Rounding, relative to a bound of at least 1. *)
Lemma rnd_le_bound v V : 1 <= V -> Rabs v <= V -> Rabs (rnd v - v) <= 1001 / 1000 * uro * V.
Proof.
  intros HV H. pose proof (rnd_unit v V 1) as E. rewrite !Rmult_1_r in E.
  eapply Rle_trans; [apply E|]; auto.
  - change 1 with (bpow radix2 0). apply bpow_le. lia.
  - pose proof uro_pos. nra.
Qed.
Lemma near' a b c e : Rabs (a - b) <= e -> Rabs b <= c -> Rabs a <= c + e.
Proof. intros. replace a with (a - b + b) by ring. eapply Rle_trans; [apply Rabs_triang|]. lra. Qed.

Definition limit : R := bpow radix2 48.

Theorem princarg_doubles ang : finite ang -> Rabs (dval ang) <= limit ->
  finite (dprincarg ang) /\
  exists k : Z,
    Rabs (dval (dprincarg ang) - (dval ang + IZR k * (2 * PI))) <= 10 * uro * (Rabs (dval ang) + 4) /\
    Rabs (dval (dprincarg ang)) <= PI + 10 * uro * (Rabs (dval ang) + 4).
Proof.
  intros F H. pose proof uro_pos as U0. pose proof uro_val as UV.
  assert (LV : limit = 281474976710656) by reflexivity.
  set (A := Rabs (dval ang) + 4). set (u := uro) in *.
  assert (A4 : 4 <= A) by (unfold A; pose proof (Rabs_pos (dval ang)); lra).
  assert (AL : A <= 281474976710660) by (unfold A; lra).
  assert (UA : u * A <= 4 / 100) by (rewrite UV; lra).
  assert (UA0 : u * 4 <= u * A) by (apply Rmult_le_compat_l; lra).
  pose proof dpi_error as PE. pose proof pi_bounds as PB. set (p := dval dpi) in *.
  assert (HP : 31415 / 10000 <= p <= 31416 / 10000) by lra.
  (* x *)
  assert (B1 : Rabs (dval ang + p) <= A - 8 / 10).
  { eapply Rle_trans; [apply Rabs_triang|]. unfold A. rewrite (Rabs_pos_eq p) by lra. lra. }
  destruct (dadd_ok ang dpi F dpi_finite) as [Fx Vx].
  { apply (small_huge _ 50); [|lia]. fold p. change (bpow radix2 50) with 1125899906842624. lra. }
  fold p in Vx. set (x := dadd ang dpi) in *.
  pose proof (rnd_le_bound (dval ang + p) A ltac:(lra) ltac:(lra)) as E1. rewrite <- Vx in E1. fold u in E1.
  assert (BX : Rabs (dval x) <= A).
  { pose proof (near' _ _ _ _ E1 B1). lra. }
  (* y *)
  assert (Y : finite (dmul (dint (-2)) dpi) /\ dval (dmul (dint (-2)) dpi) = -2 * p).
  { destruct (dint_ok (-2) eq_refl) as [F2 V2].
    destruct (dmul_ok (dint (-2)) dpi F2 dpi_finite) as [Fm Vm].
    - rewrite V2. fold p. apply (small_huge _ 10); [|lia]. change (bpow radix2 10) with 1024. apply Rabs_le. lra.
    - split; auto. rewrite Vm, V2. unfold p. rewrite dpi_val.
      replace (-2 * (7074237752028440 * bpow radix2 (-51))) with (IZR (-7074237752028440) * bpow radix2 (-50)).
      + unfold rnd. apply round_generic; [apply valid_rnd_N|]. apply generic_format_FLT.
        exists (Float radix2 (-7074237752028440) (-50)); [reflexivity|cbn; lia|cbn; lia].
      + change (bpow radix2 (-50)) with (/ 1125899906842624). change (bpow radix2 (-51)) with (/ 2251799813685248). lra. }
  destruct Y as [Fy Vy]. set (y := dmul (dint (-2)) dpi) in *.
  (* q *)
  set (r := dval x / dval y).
  assert (BR : Rabs r <= A / 6).
  { unfold r, Rdiv. rewrite Rabs_mult, Rabs_inv. rewrite Vy, (Rabs_left (-2 * p)) by lra.
    apply Rmult_le_compat; [apply Rabs_pos|left; apply Rinv_0_lt_compat; lra|auto|].
    apply Rinv_le_contravar; lra. }
  destruct (ddiv_ok x y Fx ltac:(lra)) as [Fq Vq].
  { fold r. apply (small_huge _ 50); [|lia]. change (bpow radix2 50) with 1125899906842624. lra. }
  fold r in Vq. set (q := ddiv x y) in *.
  pose proof (rnd_le_bound r (A / 6 + 1) ltac:(lra) ltac:(lra)) as E2. rewrite <- Vq in E2. fold u in E2.
  assert (E2' : Rabs (dval q - r) <= u * A / 2).
  { eapply Rle_trans; [exact E2|]. lra. }
  assert (BQ : Rabs (dval q) <= A / 6 + 2 / 100) by (pose proof (near' _ _ _ _ E2' BR); lra).
  (* a *)
  destruct (dfloor_ok q Fq) as [Fa Va]; [lra|].
  set (a := Zfloor (dval q)) in *.
  pose proof (Zfloor_lb (dval q)) as LB. pose proof (Zfloor_ub (dval q)) as UB. fold a in LB, UB.
  assert (BA : Rabs (IZR a) <= A / 6 + 102 / 100).
  { apply Rabs_le. apply Rabs_le_inv in BQ. lra. }
  (* m *)
  assert (BM : Rabs (dval y * IZR a) <= 28 / 10 * A).
  { rewrite Rabs_mult, Vy, (Rabs_left (-2 * p)) by lra.
    apply Rle_trans with (6284 / 1000 * (A / 6 + 102 / 100)).
    - apply Rmult_le_compat; try apply Rabs_pos; lra.
    - lra. }
  destruct (dmul_ok y (dfloor q) Fy Fa) as [Fm Vm].
  { rewrite Va. apply (small_huge _ 60); [|lia]. change (bpow radix2 60) with 1152921504606846976. lra. }
  rewrite Va in Vm. set (m := dmul y (dfloor q)) in *.
  pose proof (rnd_le_bound (dval y * IZR a) (28 / 10 * A) ltac:(lra) BM) as E3. rewrite <- Vm in E3. fold u in E3.
  assert (E3' : Rabs (dval m - dval y * IZR a) <= 29 / 10 * (u * A)) by (eapply Rle_trans; [exact E3|]; lra).
  (* x - y a *)
  assert (XY : - 2 * p - 32 / 10 * (u * A) <= dval x - dval y * IZR a <= 32 / 10 * (u * A)).
  { assert (XR : dval x = dval y * r) by (unfold r; field; lra).
    rewrite XR, Vy. apply Rabs_le_inv in E2'.
    replace (-2 * p * r - -2 * p * IZR a) with (2 * p * (IZR a - r)) by ring.
    assert (L1 : - 1 - u * A / 2 <= IZR a - r) by lra. assert (L2 : IZR a - r <= u * A / 2) by lra.
    assert (0 <= 2 * p) by lra. assert (0 <= u * A) by lra.
    split; nra. }
  assert (BB : Rabs (dval x - dval m) <= 7).
  { apply Rabs_le. apply Rabs_le_inv in E3'. lra. }
  destruct (dsub_ok x m Fx Fm) as [Fb Vb].
  { apply (small_huge _ 10); [|lia]. change (bpow radix2 10) with 1024. lra. }
  set (b := dsub x m) in *.
  pose proof (rnd_le_bound (dval x - dval m) 7 ltac:(lra) BB) as E4. rewrite <- Vb in E4. fold u in E4.
  assert (E4' : Rabs (dval b - (dval x - dval m)) <= 18 / 10 * (u * A)) by (eapply Rle_trans; [exact E4|]; lra).
  assert (BC : Rabs (dval b + p) <= 4).
  { apply Rabs_le. apply Rabs_le_inv in E3', E4'. lra. }
  destruct (dadd_ok b dpi Fb dpi_finite) as [Fc Vc].
  { fold p. apply (small_huge _ 10); [|lia]. change (bpow radix2 10) with 1024. lra. }
  fold p in Vc. change (dadd b dpi) with (dprincarg ang) in Fc, Vc.
  pose proof (rnd_le_bound (dval b + p) 4 ltac:(lra) BC) as E5. rewrite <- Vc in E5. fold u in E5.
  assert (E5' : Rabs (dval (dprincarg ang) - (dval b + p)) <= 101 / 100 * (u * A)) by (eapply Rle_trans; [exact E5|]; lra).
  split; auto. exists (1 + a)%Z.
  apply Rabs_le_inv in E1, E3', E4', E5'.
  assert (PU : 13 / 100000000000000000 <= 118 / 100 * u) by (rewrite UV; lra).
  split.
  - rewrite plus_IZR. set (d := PI - p) in *.
    replace PI with (p + d) by (unfold d; ring).
    assert (DA : Rabs (d * (1 + IZR a)) <= 118 / 100 * u * (A / 6 + 202 / 100)).
    { rewrite Rabs_mult, (Rabs_pos_eq d) by lra. apply Rmult_le_compat; [lra|apply Rabs_pos|lra|].
      eapply Rle_trans; [apply Rabs_triang|]. rewrite Rabs_R1. lra. }
    apply Rabs_le_inv in DA. rewrite Vy in E3'.
    apply Rabs_le. lra.
  - apply Rabs_le. lra.
Qed.
