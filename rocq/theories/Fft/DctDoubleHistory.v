(** DCT in IEEE doubles: the forward transform depends on what the object was used for before. *)
From Coq Require Import ZArith Reals Lia Lra List Bool Znumtheory.
From Flocq Require Import Core BinarySingleNaN.
From Verif.Base Require Import Imp RealOps Dbl Double Loops.
From Verif.Maths Require Import DoubleModel DoublePi DoubleProofs.
From Verif.Fft Require Import FftSpec FftGen FftDouble FftDoubleSpec FftDoubleCases FftrDouble FftrDoubleSpec FftrDoubleCases DctDouble DctDoubleSpec.
Import ListNotations.
Open Scope R_scope.

(** ** A C library
    cos and sin at the arguments that a DCT of size 3 uses (the multiples of pi/6 as the code
    computes them), with the values that glibc returns; correctly rounded elsewhere. *)
Definition glibc_tab : list (Z * Z * (Z * Z) * (Z * Z)) :=
  [((4716158501352293, -52, (4503599627370497, -53)), (7800463371553962, -53));
   ((4716158501352293, -51, (-9007199254740988, -54)), (7800463371553963, -53));
   ((5895198126690366, -51, (-7800463371553961, -53)), (4503599627370499, -53));
   ((7074237752028440, -51, (-4503599627370496, -52)), (4967757600021511, -105));
   ((4716158501352293, -50, (-4503599627370500, -53)), (-7800463371553960, -53));
   ((5895198126690367, -50, (4503599627370497, -53)), (-7800463371553962, -53))]%Z.
Definition glibc_at (m : positive) (e : Z) : option ((Z * Z) * (Z * Z)) :=
  match find (fun r => let '(m', e', _, _) := r in (Zpos m =? m')%Z && (e =? e')%Z) glibc_tab with
  | Some (_, _, c, s) => Some (c, s)
  | None => None
  end.
Definition tcos (x : double) : double :=
  match x with
  | B754_zero _ => dint 1
  | B754_finite _ m e _ => match glibc_at m e with Some (c, _) => dmake (fst c) (snd c) | None => near_fun cos x end
  | _ => x
  end.
Definition tsin (x : double) : double :=
  match x with
  | B754_zero _ => x
  | B754_finite s m e _ =>
      match glibc_at m e with Some (_, v) => let v := dmake (fst v) (snd v) in if s then dopp v else v | None => near_fun sin x end
  | _ => x
  end.

(** ** It is accurate *)
Lemma shift t a d : Rabs (t - a - d) <= 2 / 1000000000000000000 -> Rabs d <= 1 / 1000000000000000 ->
  Rabs (cos (t - a) - 1) <= 1 / 10000000000000000000 /\ Rabs (sin (t - a) - d) <= 21 / 10000000000000000000.
Proof.
  intros H D. set (h := t - a) in *.
  assert (A : Rabs h <= 2 / 1000000000000000).
  { replace h with ((h - d) + d) by ring. eapply Rle_trans; [apply Rabs_triang|]. lra. }
  assert (G : forall y, 0 <= y <= 2 / 1000000000000000 -> 1 - 1 / 10000000000000000000 <= cos y <= 1 /\ y - 1 / 10000000000000000000 <= sin y <= y).
  { intros y Hy. pose proof PI_RGT_0. pose proof pi_bounds as PB.
    assert (YY : y * y <= 1 / 10000000000000000000) by (apply Rle_trans with (2 / 1000000000000000 * (2 / 1000000000000000)); [apply Rmult_le_compat; lra|lra]).
    assert (Y0 : 0 <= y * y) by (apply Rmult_le_pos; lra).
    destruct (sin_bound y 0) as [S1 _]; [lra|lra|]. destruct (cos_bound y 0) as [C1 _]; [lra|lra|].
    unfold sin_approx, sin_term, cos_approx, cos_term in *. cbn [sum_f_R0 Nat.mul Nat.add pow fact INR] in *.
    pose proof (COS_bound y).
    assert (SY : sin y <= y) by (destruct (Req_dec y 0) as [->|]; [rewrite sin_0; lra|apply Rlt_le, sin_lt_x; lra]).
    assert (Y3 : y * (y * y) <= 1 / 10000000000000000000).
    { apply Rle_trans with (1 * (1 / 10000000000000000000)); [apply Rmult_le_compat; lra|lra]. }
    replace (INR (2 * 0 + 1 + 0)) with 1 in * by reflexivity.
    split; split; lra. }
  destruct (Rle_dec 0 h) as [P|P].
  - rewrite Rabs_pos_eq in A by lra. destruct (G h) as [C S]; [lra|].
    split; apply Rabs_le; [lra|]. assert (K := H). apply Rabs_le_inv in K. lra.
  - rewrite Rabs_left in A by lra. destruct (G (- h)) as [C S]; [lra|]. rewrite cos_neg in C. rewrite sin_neg in S.
    split; apply Rabs_le; [lra|]. assert (K := H). apply Rabs_le_inv in K. lra.
Qed.
Lemma cos_shift a c s t d : cos a = c -> sin a = s -> Rabs (t - a - d) <= 2 / 1000000000000000000 -> Rabs d <= 1 / 1000000000000000 ->
  Rabs (cos t - (c - s * d)) <= 3 / 1000000000000000000 /\ Rabs (sin t - (s + c * d)) <= 3 / 1000000000000000000.
Proof.
  intros <- <- H D. destruct (shift t a d H D) as [C S].
  assert (X : forall p q, Rabs p <= 1 -> Rabs q <= 1 -> Rabs (p * (cos (t - a) - 1) + q * (sin (t - a) - d)) <= 3 / 1000000000000000000).
  { intros p q Hp Hq. eapply Rle_trans; [apply Rabs_triang|]. rewrite !Rabs_mult.
    pose proof (Rmult_le_compat _ _ _ _ (Rabs_pos p) (Rabs_pos _) Hp C). pose proof (Rmult_le_compat _ _ _ _ (Rabs_pos q) (Rabs_pos _) Hq S). lra. }
  assert (CB : Rabs (cos a) <= 1) by (pose proof (COS_bound a); apply Rabs_le; lra). assert (SB : Rabs (sin a) <= 1) by (pose proof (SIN_bound a); apply Rabs_le; lra).
  assert (Ct : cos t = cos a * cos (t - a) - sin a * sin (t - a)) by (rewrite <- cos_plus; f_equal; ring).
  assert (St : sin t = sin a * cos (t - a) + cos a * sin (t - a)) by (rewrite <- sin_plus; f_equal; ring). rewrite Ct, St. split.
  - replace (cos a * cos (t - a) - sin a * sin (t - a) - (cos a - sin a * d)) with (cos a * (cos (t - a) - 1) + (- sin a) * (sin (t - a) - d)) by ring.
    apply X; [exact CB|rewrite Rabs_Ropp; exact SB].
  - replace (sin a * cos (t - a) + cos a * sin (t - a) - (sin a + cos a * d)) with (sin a * (cos (t - a) - 1) + cos a * (sin (t - a) - d)) by ring.
    apply X; assumption.
Qed.
Lemma sqrt3_bounds : 17320508075688772935 / 10000000000000000000 <= sqrt 3 <= 17320508075688772936 / 10000000000000000000.
Proof.
  split.
  - rewrite <- (sqrt_Rsqr (17320508075688772935 / 10000000000000000000)) by lra. apply sqrt_le_1_alt. unfold Rsqr. lra.
  - rewrite <- (sqrt_Rsqr (17320508075688772936 / 10000000000000000000)) by lra. apply sqrt_le_1_alt. unfold Rsqr. lra.
Qed.

Lemma cos_k4 : cos (4 * PI / 6) = - / 2 /\ sin (4 * PI / 6) = sqrt 3 / 2.
Proof. replace (4 * PI / 6) with (PI - PI / 3) by field. rewrite cos_minus, sin_minus, cos_PI, sin_PI, cos_PI3, sin_PI3. split; field. Qed.
Lemma cos_k2 : cos (2 * PI / 6) = / 2 /\ sin (2 * PI / 6) = sqrt 3 / 2.
Proof. replace (2 * PI / 6) with (PI / 3) by field. rewrite cos_PI3, sin_PI3. split; field. Qed.
Lemma cos_k5 : cos (5 * PI / 6) = - (sqrt 3 / 2) /\ sin (5 * PI / 6) = / 2.
Proof. replace (5 * PI / 6) with (PI - PI / 6) by field. rewrite cos_minus, sin_minus, cos_PI, sin_PI, cos_PI6, sin_PI6. split; field. Qed.
Lemma cos_k6 : cos (6 * PI / 6) = - 1 /\ sin (6 * PI / 6) = 0.
Proof. replace (6 * PI / 6) with PI by field. rewrite cos_PI, sin_PI. auto. Qed.
Lemma cos_k8 : cos (8 * PI / 6) = - / 2 /\ sin (8 * PI / 6) = - (sqrt 3 / 2).
Proof. replace (8 * PI / 6) with (PI + PI / 3) by field. rewrite cos_plus, sin_plus, cos_PI, sin_PI, cos_PI3, sin_PI3. split; field. Qed.
Lemma cos_k10 : cos (10 * PI / 6) = / 2 /\ sin (10 * PI / 6) = - (sqrt 3 / 2).
Proof. replace (10 * PI / 6) with (2 * PI - PI / 3) by field. rewrite cos_minus, sin_minus, cos_2PI, sin_2PI, cos_PI3, sin_PI3. split; field. Qed.

Lemma entry k (c s : R) (d : R) (m e : Z) (cm ce sm se : Z) :
  cos (k * PI / 6) = c /\ sin (k * PI / 6) = s -> Rabs (IZR m * bpow radix2 e - k * PI / 6 - d) <= 2 / 1000000000000000000 -> Rabs d <= 1 / 1000000000000000 ->
  (finite (dmake cm ce) /\ dval (dmake cm ce) = IZR cm * bpow radix2 ce) -> (finite (dmake sm se) /\ dval (dmake sm se) = IZR sm * bpow radix2 se) ->
  Rabs (IZR cm * bpow radix2 ce - (c - s * d)) <= 2 / 10000000000000000 -> Rabs (IZR sm * bpow radix2 se - (s + c * d)) <= 2 / 10000000000000000 ->
  (finite (dmake cm ce) /\ Rabs (dval (dmake cm ce) - cos (IZR m * bpow radix2 e)) <= 2 * uro) /\
  (finite (dmake sm se) /\ Rabs (dval (dmake sm se) - sin (IZR m * bpow radix2 e)) <= 2 * uro).
Proof.
  intros [Hc Hs] Ht Hd [Fc Vc] [Fs Vs] Ec Es. destruct (cos_shift _ c s (IZR m * bpow radix2 e) d Hc Hs Ht Hd) as [C S].
  assert (U : uro = / 9007199254740992) by apply uro_val. rewrite Vc, Vs. splits; auto.
  - replace (IZR cm * bpow radix2 ce - cos (IZR m * bpow radix2 e)) with ((IZR cm * bpow radix2 ce - (c - s * d)) - (cos (IZR m * bpow radix2 e) - (c - s * d))) by ring.
    eapply Rle_trans; [apply Rabs_triang|]. rewrite Rabs_Ropp. lra.
  - replace (IZR sm * bpow radix2 se - sin (IZR m * bpow radix2 e)) with ((IZR sm * bpow radix2 se - (s + c * d)) - (sin (IZR m * bpow radix2 e) - (s + c * d))) by ring.
    eapply Rle_trans; [apply Rabs_triang|]. rewrite Rabs_Ropp. lra.
Qed.
Lemma bp50 : bpow radix2 (-50) = / 1125899906842624. Proof. reflexivity. Qed.
Lemma bp51 : bpow radix2 (-51) = / 2251799813685248. Proof. reflexivity. Qed.
Lemma bp52 : bpow radix2 (-52) = / 4503599627370496. Proof. reflexivity. Qed.
Lemma bp53 : bpow radix2 (-53) = / 9007199254740992. Proof. reflexivity. Qed.
Lemma bp54 : bpow radix2 (-54) = / 18014398509481984. Proof. reflexivity. Qed.
Lemma bp105 : bpow radix2 (-105) = / 40564819207303340847894502572032. Proof. reflexivity. Qed.
Lemma dmake_exact m e : (Z.abs m < 2 ^ 53)%Z -> (-1000 <= e <= 900)%Z -> finite (dmake m e) /\ dval (dmake m e) = IZR m * bpow radix2 e.
Proof.
  intros Hm He. assert (E : F2R (Float radix2 m e) = IZR m * bpow radix2 e) by reflexivity.
  assert (B : Rabs (IZR m) <= bpow radix2 53) by (rewrite <- abs_IZR; change (bpow radix2 53) with (IZR (2 ^ 53)); apply IZR_le; lia).
  destruct (dmake_ok m e) as [F V].
  - rewrite E, Rabs_mult, (Rabs_pos_eq (bpow radix2 e)) by apply bpow_ge_0. unfold huge. apply Rle_trans with (bpow radix2 53 * bpow radix2 e).
    + apply Rmult_le_compat_r; [apply bpow_ge_0|exact B].
    + rewrite <- bpow_plus. apply bpow_le. lia.
  - split; [exact F|]. rewrite V, <- E. apply round_generic; [apply valid_rnd_N|]. apply generic_format_FLT. exists (Float radix2 m e); [reflexivity|exact Hm|cbn; lia].
Qed.
Ltac made := apply dmake_exact; lia.
Ltac numeric := pose proof pi_bounds; pose proof sqrt3_bounds; rewrite ?bp50, ?bp51, ?bp52, ?bp53, ?bp54, ?bp105; apply Rabs_le; lra.

Definition good (m e : Z) (c s : Z * Z) : Prop :=
  (finite (dmake (fst c) (snd c)) /\ Rabs (dval (dmake (fst c) (snd c)) - cos (IZR m * bpow radix2 e)) <= 2 * uro) /\
  (finite (dmake (fst s) (snd s)) /\ Rabs (dval (dmake (fst s) (snd s)) - sin (IZR m * bpow radix2 e)) <= 2 * uro).
Lemma glibc_good : Forall (fun r => let '(m, e, c, s) := r in good m e c s) glibc_tab.
Proof.
  unfold glibc_tab. repeat match goal with |- Forall _ _ => constructor end; unfold good; cbn [fst snd].
  - eapply (entry 2 _ _ (-115 / 1000000000000000000)); [apply cos_k2|numeric|numeric|made|made|numeric|numeric].
  - eapply (entry 4 _ _ (-229 / 1000000000000000000)); [apply cos_k4|numeric|numeric|made|made|numeric|numeric].
  - eapply (entry 5 _ _ (-398 / 1000000000000000000)); [apply cos_k5|numeric|numeric|made|made|numeric|numeric].
  - eapply (entry 6 _ _ (-122 / 1000000000000000000)); [apply cos_k6|numeric|numeric|made|made|numeric|numeric].
  - eapply (entry 8 _ _ (-459 / 1000000000000000000)); [apply cos_k8|numeric|numeric|made|made|numeric|numeric].
  - eapply (entry 10 _ _ (93 / 1000000000000000000)); [apply cos_k10|numeric|numeric|made|made|numeric|numeric].
Qed.

Lemma glibc_at_ok m e c s : glibc_at m e = Some (c, s) -> good (Zpos m) e c s.
Proof.
  unfold glibc_at. destruct (find _ _) as [[[[m' e'] c'] s']|] eqn:E; [|discriminate]. intros H. injection H as -> ->.
  apply find_some in E. destruct E as [I E]. apply andb_prop in E. destruct E as [E1 E2]. apply Z.eqb_eq in E1. apply Z.eqb_eq in E2. subst m' e'.
  exact (proj1 (Forall_forall _ _) glibc_good _ I).
Qed.
Lemma tcos_accurate : accurate tcos cos.
Proof.
  intros x F B. destruct x as [s| | |s m e H]; try discriminate.
  - unfold tcos. destruct (dint_ok 1) as [F1 V]; [reflexivity|]. rewrite V. change (dval (B754_zero s)) with 0. rewrite cos_0. split; [exact F1|].
    replace (1 - 1) with 0 by ring. rewrite Rabs_R0. pose proof uro_pos. lra.
  - unfold tcos. destruct (glibc_at m e) as [[c v]|] eqn:E.
    + apply glibc_at_ok in E. destruct E as [E _]. destruct E as [F1 V]. split; [exact F1|].
      unfold dval at 2, B2R, F2R. cbn [Fnum Fexp]. destruct s; cbn [cond_Zopp]; [|exact V].
      change (Z.neg m) with (- Z.pos m)%Z. rewrite opp_IZR, Ropp_mult_distr_l_reverse, cos_neg. exact V.
    + apply near_cos; assumption.
Qed.
Lemma tsin_accurate : accurate tsin sin.
Proof.
  intros x F B. destruct x as [s| | |s m e H]; try discriminate.
  - unfold tsin. split; [reflexivity|]. change (dval (B754_zero s)) with 0. rewrite sin_0, Rminus_0_r, Rabs_R0. pose proof uro_pos. lra.
  - unfold tsin. destruct (glibc_at m e) as [[c v]|] eqn:E.
    + apply glibc_at_ok in E. destruct E as [_ [F1 V]]. cbv zeta.
      unfold dval at 2, B2R, F2R. cbn [Fnum Fexp]. destruct s; cbn [cond_Zopp]; [|split; assumption].
      unfold finite, dopp, dval in *. rewrite is_finite_Bopp, B2R_Bopp. split; [exact F1|].
      change (Z.neg m) with (- Z.pos m)%Z. rewrite opp_IZR, Ropp_mult_distr_l_reverse, sin_neg.
      replace (- B2R (dmake (fst v) (snd v)) - - sin (IZR (Z.pos m) * bpow radix2 e)) with (- (B2R (dmake (fst v) (snd v)) - sin (IZR (Z.pos m) * bpow radix2 e))) by ring.
      rewrite Rabs_Ropp. exact V.
    + apply near_sin; assumption.
Qed.

(** ** The run
    A new DCT of size 3, inverse of (0, 2^200, 0), then forward of (0, 0, 0). *)
Definition big : double := dmake 1 200.
Definition hist_new : res ddct := ddct_new tcos tsin 3 (repeat (d0, d0) 6) (repeat (d0, d0) 6) (repeat (d0, d0) 12).
Definition run_inv (new : res ddct) : res (ddct * list double) := d <- new ;; ddct_inverse d [d0; big; d0] [d0; d0; d0].
Definition run_both (new : res ddct) : res (ddct * list double) := '(d, _) <- run_inv new ;; ddct_forward d [d0; d0; d0] [d0; d0; d0].
Definition run_fresh (new : res ddct) : res (ddct * list double) := d <- new ;; ddct_forward d [d0; d0; d0] [d0; d0; d0].
Definition second (r : res (ddct * list double)) : double := match r with OK (_, o) => zn d0 o 1 | _ => d0 end.
Definition bits (x : double) : option (bool * positive * Z) := match x with B754_finite s m e _ => Some (s, m, e) | _ => None end.

Lemma hist_run_value : bits (second (run_both hist_new)) = Some (false, 7057083411852503%positive, 94%Z).
Proof. vm_compute. reflexivity. Qed.
Definition is_zero (x : double) : bool := match x with B754_zero _ => true | _ => false end.
Definition got (r : res (ddct * list double)) : bool := match r with OK _ => true | _ => false end.
Lemma fresh_run_value : got (run_fresh hist_new) = true /\ is_zero (second (run_fresh hist_new)) = true.
Proof. vm_compute. split; reflexivity. Qed.

Lemma second_some r b : bits (second r) = Some b -> exists d o, r = OK (d, o) /\ bits (zn d0 o 1) = Some b.
Proof. intros H. destruct r as [[d o]| | |]; [|discriminate..]. exists d, o. auto. Qed.
Lemma second_zero r : got r = true /\ is_zero (second r) = true -> exists d o, r = OK (d, o) /\ dval (zn d0 o 1) = 0.
Proof.
  intros [G H]. destruct r as [[d o]| | |]; [|discriminate..]. exists d, o. split; [reflexivity|]. cbn [second] in H.
  destruct (zn d0 o 1); [reflexivity|discriminate..].
Qed.
Lemma run_fresh_inv new r : run_fresh new = OK r -> exists d, new = OK d /\ ddct_forward d [d0; d0; d0] [d0; d0; d0] = OK r.
Proof. unfold run_fresh. intros E. apply bind_OK in E. exact E. Qed.
Lemma run_both_inv new r : run_both new = OK r ->
  exists d0' d out, new = OK d0' /\ ddct_inverse d0' [d0; big; d0] [d0; d0; d0] = OK (d, out) /\ ddct_forward d [d0; d0; d0] [d0; d0; d0] = OK r.
Proof.
  unfold run_both, run_inv. intros E. apply bind_OK in E. destruct E as ([d out] & I & R). apply bind_OK in I. destruct I as (d2 & N2 & R2).
  exists d2, d, out. auto.
Qed.

Lemma bits_big x : bits x = Some (false, 7057083411852503%positive, 94%Z) -> bpow radix2 146 <= dval x.
Proof.
  destruct x as [s| | |s m e Hb]; try discriminate. intros H. injection H as -> -> ->. unfold dval, B2R, F2R. cbn [Fnum Fexp cond_Zopp].
  change (bpow radix2 146) with (bpow radix2 (52 + 94)). rewrite bpow_plus. apply Rmult_le_compat_r; [apply bpow_ge_0|].
  change (bpow radix2 52) with 4503599627370496. lra.
Qed.
Lemma big_bounded : real_bounded 3 (bpow radix2 200) [d0; big; d0].
Proof.
  split; [cbn; lia|]. intros j Hj. destruct (dmake_exact 1 200) as [F V]; [lia|lia|].
  assert (C : (j = 0 \/ j = 1 \/ j = 2)%Z) by lia. destruct C as [-> | [-> | ->]];
    [change (zn d0 [d0; big; d0] 0) with d0|change (zn d0 [d0; big; d0] 1) with big|change (zn d0 [d0; big; d0] 2) with d0].
  - split; [reflexivity|]. change (dval d0) with 0. rewrite Rabs_R0. apply bpow_ge_0.
  - split; [exact F|]. unfold big. rewrite V, Rmult_1_l, Rabs_pos_eq; [lra|apply bpow_ge_0].
  - split; [reflexivity|]. change (dval d0) with 0. rewrite Rabs_R0. apply bpow_ge_0.
Qed.
Lemma zeros_dct : dct2 3 (fun j => dval (zn d0 [d0; d0; d0] j)) 1 = 0.
Proof.
  assert (Z0 : forall j, zn d0 [d0; d0; d0] j = d0).
  { intros j. unfold zn. destruct (j <? 0)%Z; [reflexivity|]. destruct (Z.to_nat j) as [|[|[|[|k]]]]; reflexivity. }
  unfold dct2. rewrite (rsum_ext 3 _ (fun _ => 0 * 0)).
  - rewrite (rsum_scal 3 0 (fun _ => 0)). ring.
  - intros j _. rewrite Z0. change (dval d0) with 0. ring.
Qed.
Lemma hist_new_use d M : hist_new = OK d -> dct_in_use tcos tsin 3 M d.
Proof. unfold hist_new. intros E. eapply dct_in_new; [| | |exact E]; reflexivity. Qed.

Theorem dct_history_refuted : exists d d1 d' d1' o o1,
  dct_in_use tcos tsin 3 (bpow radix2 200) d /\ dct_in_use tcos tsin 3 (bpow radix2 200) d1 /\
  ddct_forward d [d0; d0; d0] [d0; d0; d0] = OK (d', o) /\ bpow radix2 146 <= dval (zn d0 o 1) /\
  ddct_forward d1 [d0; d0; d0] [d0; d0; d0] = OK (d1', o1) /\ dval (zn d0 o1 1) = 0 /\
  dct2 3 (fun j => dval (zn d0 [d0; d0; d0] j)) 1 = 0.
Proof.
  destruct (second_zero _ fresh_run_value) as (d1' & o1 & E1 & V1). destruct (second_some _ _ hist_run_value) as (d' & o & E & V).
  destruct (run_fresh_inv _ _ E1) as (d1 & N1 & R1). destruct (run_both_inv _ _ E) as (d2 & d & out & N2 & R2 & R).
  pose proof (hist_new_use _ (bpow radix2 200) N1) as U1. pose proof (hist_new_use _ (bpow radix2 200) N2) as U2.
  exists d, d1, d', d1', o, o1. split; [|split; [exact U1|split; [exact R|split; [apply bits_big; exact V|split; [exact R1|split; [exact V1|exact zeros_dct]]]]]].
  eapply dct_in_inverse; [exact U2|exact big_bounded| |exact R2]. cbn. lia.
Qed.
