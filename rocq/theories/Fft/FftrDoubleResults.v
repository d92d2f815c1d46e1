(** Class FFTReal in IEEE doubles. *)
From Coq Require Import ZArith Reals Lia Lra Psatz List Bool Znumtheory.
From Flocq Require Import Core.
From Flocq.IEEE754 Require Import BinarySingleNaN.
From Coquelicot Require Import Complex.
From Verif.Base Require Import Imp Sums RealOps Dbl Double Loops.
From Verif.Maths Require Import DoubleModel DoubleProofs.
From Verif.Fft Require Import Cplx FftModel FftSpec FftBfly FftWork FftProofs FftrModel FftrProofs FftReal FftGen FftGenProofs FftGenRuns FftDouble FftDoubleSpec
  FftRadix FftRound FftDoubleWork FftTwiddle FftDoubleProofs FftrDouble FftrDoubleSpec FftrTwiddle FftrDoubleRuns FftrDoubleProofs FftrDoubleInverse.
Import ListNotations.
Open Scope R_scope.

(** *** Square root of a sum of squares *)
Lemma sqrt_near s v S : 0 <= s -> 0 <= v -> bpow radix2 (-400) <= S -> sqrt v <= 143 / 100 * S ->
  Rabs (s - v) <= 2001 / 1000 * u * v + 4 * bpow radix2 (-1075) -> Rabs (sqrt s - sqrt v) <= 3 * u * S.
Proof.
  intros Hs Hv HS Hsv D. pose proof uro_pos as UP. pose proof uro_val as UV. pose proof (sqrt_pos s) as P1. pose proof (sqrt_pos v) as P2.
  assert (SP : 0 < S) by (eapply Rlt_le_trans; [apply bpow_gt_0|eauto]).
  set (t := bpow radix2 (-480)). assert (TP : 0 < t) by apply bpow_gt_0.
  assert (T2 : bpow radix2 (-1075) <= bpow radix2 (-115) * (t * t)) by (unfold t; rewrite <- !bpow_plus; right; reflexivity).
  assert (TS : 64 * t <= u * S).
  { replace u with (bpow radix2 (-53)) by (rewrite UV; reflexivity).
    apply Rle_trans with (bpow radix2 (-53) * bpow radix2 (-400)); [|apply Rmult_le_compat_l; [apply bpow_ge_0|exact HS]].
    change 64 with (bpow radix2 6). unfold t. rewrite <- !bpow_plus. apply bpow_le. lia. }
  assert (K : bpow radix2 (-115) <= u * / 1000).
  { rewrite UV. change (bpow radix2 (-115)) with (/ 41538374868278621028243970633760768). rewrite <- Rinv_mult. apply Rinv_le; lra. }
  pose proof (bpow_gt_0 radix2 (-115)) as KP.
  destruct (Rle_lt_dec v (t * t)) as [L|L].
  - assert (V1 : sqrt v <= t) by (rewrite <- (sqrt_square t) by lra; apply sqrt_le_1_alt; exact L).
    assert (TT : 0 <= t * t) by (apply Rmult_le_pos; lra).
    assert (S1 : s <= 4 * (t * t)).
    { apply Rabs_le_inv in D. assert (2001 / 1000 * u * v <= 1 * (t * t)) by (apply Rmult_le_compat; try lra; rewrite UV; lra).
      assert (bpow radix2 (-115) * (t * t) <= 1 / 8 * (t * t)) by (apply Rmult_le_compat_r; [lra|]; rewrite UV in K; lra). lra. }
    assert (S2 : sqrt s <= 2 * t).
    { rewrite <- (sqrt_square (2 * t)) by lra. apply sqrt_le_1_alt. lra. }
    apply Rabs_le. lra.
  - assert (V1 : t <= sqrt v) by (rewrite <- (sqrt_square t) by lra; apply sqrt_le_1_alt; lra).
    assert (Q : (sqrt s - sqrt v) * (sqrt s + sqrt v) = s - v).
    { replace ((sqrt s - sqrt v) * (sqrt s + sqrt v)) with (sqrt s * sqrt s - sqrt v * sqrt v) by ring. rewrite !sqrt_sqrt; lra. }
    assert (VV : sqrt v * sqrt v = v) by (apply sqrt_sqrt; lra).
    apply (Rmult_le_reg_r (sqrt v)); [lra|].
    apply Rle_trans with (Rabs (s - v)).
    { rewrite <- Q, Rabs_mult. apply Rmult_le_compat_l; [apply Rabs_pos|]. rewrite Rabs_pos_eq; lra. }
    eapply Rle_trans; [exact D|].
    assert (T3 : t * t <= v) by (rewrite <- VV; apply Rmult_le_compat; lra).
    assert (A1 : 4 * bpow radix2 (-1075) <= 4 * (u * / 1000 * v)).
    { apply Rmult_le_compat_l; [lra|]. eapply Rle_trans; [exact T2|]. apply Rmult_le_compat; try lra. apply Rmult_le_pos; lra. }
    assert (A2 : v <= 143 / 100 * S * sqrt v) by (rewrite <- VV at 1; apply Rmult_le_compat_r; lra).
    assert (A3 : (2001 / 1000 * u + 4 / 1000 * u) * v <= (2001 / 1000 * u + 4 / 1000 * u) * (143 / 100 * S * sqrt v)) by (apply Rmult_le_compat_l; lra).
    assert (A4 : 0 <= u * S * sqrt v) by (repeat apply Rmult_le_pos; lra).
    replace ((2001 / 1000 * u + 4 / 1000 * u) * (143 / 100 * S * sqrt v)) with (2005 / 1000 * 143 / 100 * (u * S * sqrt v)) in A3 by lra.
    replace (3 * u * S * sqrt v) with (3 * (u * S * sqrt v)) by ring. lra.
Qed.

Lemma hypot_ok a b S : finite a -> finite b -> bpow radix2 (-400) <= S <= bpow radix2 490 -> Rabs (dval a) <= 101 / 100 * S -> Rabs (dval b) <= 101 / 100 * S ->
  finite (dsqrt (dadd (dmul a a) (dmul b b))) /\
  Rabs (dval (dsqrt (dadd (dmul a a) (dmul b b))) - sqrt (dval a * dval a + dval b * dval b)) <= 5 * u * S.
Proof.
  intros Fa Fb [S1 S2] Ba Bb. pose proof uro_pos as UP. pose proof uro_val as UV.
  assert (SP : 0 < S) by (eapply Rlt_le_trans; [apply bpow_gt_0|eauto]).
  set (h := bpow radix2 980). assert (HP : 0 < h) by apply bpow_gt_0.
  assert (SS : S * S <= h) by (unfold h; change 980%Z with (490 + 490)%Z; rewrite bpow_plus; apply Rmult_le_compat; lra).
  assert (HH : forall v, Rabs v <= 8 * h -> Rabs v <= huge).
  { intros v Hv. apply (small_huge _ 983); [|lia]. eapply Rle_trans; [exact Hv|]. unfold h. change 8 with (bpow radix2 3). rewrite <- bpow_plus. apply bpow_le. lia. }
  assert (SQ : forall d, Rabs (dval d) <= 101 / 100 * S -> 0 <= dval d * dval d <= 10201 / 10000 * (S * S)).
  { intros d H. split; [apply Rle_0_sqr|]. replace (dval d * dval d) with (Rabs (dval d) * Rabs (dval d)) by (rewrite <- Rabs_mult; apply Rabs_pos_eq, Rle_0_sqr).
    replace (10201 / 10000 * (S * S)) with (101 / 100 * S * (101 / 100 * S)) by lra. apply Rmult_le_compat; auto using Rabs_pos. }
  pose proof (SQ a Ba) as Qa. pose proof (SQ b Bb) as Qb. clear SQ.
  destruct (dmul_ok a a Fa Fa) as [Fp Vp]; [apply HH, Rabs_le; lra|].
  destruct (dmul_ok b b Fb Fb) as [Fq Vq]; [apply HH, Rabs_le; lra|].
  set (p := dmul a a) in *. set (q := dmul b b) in *. set (A := dval a * dval a) in *. set (B := dval b * dval b) in *.
  set (eta := bpow radix2 (-1075)). assert (EP : 0 < eta) by apply bpow_gt_0.
  assert (ES : eta <= / 100 * (S * S)).
  { apply Rle_trans with (/ 128 * (bpow radix2 (-400) * bpow radix2 (-400))).
    - change (/ 128) with (bpow radix2 (-7)). unfold eta. rewrite <- !bpow_plus. apply bpow_le. lia.
    - apply Rmult_le_compat; try lra; [apply Rmult_le_pos; apply bpow_ge_0|]. apply Rmult_le_compat; auto using bpow_ge_0. }
  pose proof (rnd_error A) as Ep. pose proof (rnd_error B) as Eq. rewrite <- Vp in Ep. rewrite <- Vq in Eq. fold eta in Ep, Eq.
  rewrite (Rabs_pos_eq A) in Ep by lra. rewrite (Rabs_pos_eq B) in Eq by lra.
  assert (P0 : 0 <= dval p) by (rewrite Vp; unfold rnd; rewrite <- (round_0 radix2 (FLT_exp (-1074) 53) (Znearest (fun x => negb (Z.even x)))); apply round_le; [apply FLT_exp_valid; reflexivity|apply valid_rnd_N|lra]).
  assert (Q0 : 0 <= dval q) by (rewrite Vq; unfold rnd; rewrite <- (round_0 radix2 (FLT_exp (-1074) 53) (Znearest (fun x => negb (Z.even x)))); apply round_le; [apply FLT_exp_valid; reflexivity|apply valid_rnd_N|lra]).
  apply Rabs_le_inv in Ep. apply Rabs_le_inv in Eq.
  assert (UA : u * A <= / 100 * A) by (apply Rmult_le_compat_r; lra). assert (UB : u * B <= / 100 * B) by (apply Rmult_le_compat_r; lra).
  destruct (dadd_ok p q Fp Fq) as [Fs Vs]; [apply HH, Rabs_le; lra|]. set (s := dadd p q) in *.
  pose proof (rnd_error (dval p + dval q)) as Es. rewrite <- Vs in Es. fold eta in Es. rewrite (Rabs_pos_eq (dval p + dval q)) in Es by lra. 
  assert (S0 : 0 <= dval s) by (rewrite Vs; unfold rnd; rewrite <- (round_0 radix2 (FLT_exp (-1074) 53) (Znearest (fun x => negb (Z.even x)))); apply round_le; [apply FLT_exp_valid; reflexivity|apply valid_rnd_N|lra]).
  set (v := A + B). assert (V0 : 0 <= v) by (unfold v; lra).
  assert (D : Rabs (dval s - v) <= 2001 / 1000 * u * v + 4 * eta).
  { apply Rabs_le_inv in Es. 
    assert (PQ : u * (dval p + dval q) <= u * ((1 + u) * v + 2 * eta)) by (apply Rmult_le_compat_l; [lra|unfold v; lra]).
    assert (UU : u * (u * v) <= / 1000 * (u * v)) by (apply Rmult_le_compat_r; [apply Rmult_le_pos; lra|lra]).
    assert (UE : u * eta <= / 100 * eta) by (apply Rmult_le_compat_r; lra).
    assert (VU : u * v = u * A + u * B) by (unfold v; ring).
    replace (u * ((1 + u) * v + 2 * eta)) with (u * v + u * (u * v) + 2 * (u * eta)) in PQ by ring.
    replace (2001 / 1000 * u * v) with (2001 / 1000 * (u * v)) by ring. apply Rabs_le. unfold v in *. lra. }
  assert (SV : sqrt v <= 143 / 100 * S).
  { rewrite <- (sqrt_square (143 / 100 * S)) by lra. apply sqrt_le_1_alt. unfold v. assert (0 <= S * S) by (apply Rmult_le_pos; lra). lra. }
  pose proof (sqrt_near (dval s) v S S0 V0 S1 SV D) as R.
  destruct (dsqrt_ok s Fs S0) as [Fr Vr]. split; [exact Fr|].
  assert (SB : Rabs (sqrt (dval s)) <= 144 / 100 * S).
  { rewrite Rabs_pos_eq by apply sqrt_pos. apply Rabs_le_inv in R. assert (3 * u * S <= / 100 * S) by (apply Rmult_le_compat_r; lra). lra. }
  assert (S900 : bpow radix2 (-900) <= S) by (eapply Rle_trans; [|exact S1]; apply bpow_le; lia).
  pose proof (rnd_unit _ _ S S900 SB) as E2. rewrite <- Vr in E2.
  replace (dval (dsqrt s) - sqrt v) with ((dval (dsqrt s) - sqrt (dval s)) + (sqrt (dval s) - sqrt v)) by ring.
  eapply Rle_trans; [apply Rabs_triang|]. assert (0 <= u * S) by (apply Rmult_le_pos; lra).
  replace (u * (144 / 100 + / 1000) * S) with (1441 / 1000 * (u * S)) in E2 by lra.
  replace (3 * u * S) with (3 * (u * S)) in R by ring. replace (5 * u * S) with (5 * (u * S)) by ring. lra.
Qed.
