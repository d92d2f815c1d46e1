(** Frequency response of the Decimator and DecimatorB classes. *)
From Coq Require Import List ZArith QArith Qreals Reals Lia Lra Psatz Bool.
From Verif.Base Require Import Imp Sums RealOps.
From Verif.Rate Require Import Df2tSpec DecimatorModel DecimatorSpec DecimatorProofs
  DecimatorBModel DecimatorBSpec DecimatorBProofs StableSpec StableProofs StableClass ToneSpec ToneProofs TonePoly.
Import ListNotations.
Open Scope R_scope.

(** *** Cosines *)
Lemma cos_pi5 : 809016 <= 1000000 * cos (PI / 5).
Proof.
  set (y := cos (PI / 5)). pose proof PI_RGT_0 as P.
  assert (Y0 : 0 < y) by (apply cos_gt_0; lra).
  assert (E : cos (3 * (PI / 5)) = - cos (2 * (PI / 5))).
  { replace (3 * (PI / 5)) with (PI - 2 * (PI / 5)) by field. rewrite Rtrigo_facts.cos_pi_minus. reflexivity. }
  replace (3 * (PI / 5)) with (PI / 5 + 2 * (PI / 5)) in E by field.
  rewrite cos_plus, sin_2a, cos_2a_cos in E. pose proof (sin2_cos2 (PI / 5)) as S2. unfold Rsqr in S2. fold y in E, S2.
  set (z := sin (PI / 5)) in *. assert (S3 : z * z = 1 - y * y) by lra.
  assert (E' : y * (2 * y * y - 1) - 2 * (z * z) * y = - (2 * y * y - 1)) by lra. rewrite S3 in E'. clear E. rename E' into E.
  assert (F : (y + 1) * (4 * y * y - 2 * y - 1) = 0) by lra.
  apply Rmult_integral in F as [F|F]; [lra|].
  destruct (Rle_lt_dec 809016 (1000000 * y)) as [|H]; auto. exfalso.
  assert (0 < (0.809016 - y) * (4 * y + 1.236064)) by (apply Rmult_lt_0_compat; lra). lra.
Qed.
Lemma cos_2pi5 : 3090 <= 10000 * cos (2 * (PI / 5)).
Proof.
  assert (Y0 : 0 < cos (PI / 5)) by (apply cos_gt_0; pose proof PI_RGT_0; lra).
  rewrite cos_2a_cos. pose proof cos_pi5. nra.
Qed.
Lemma cos_pi10 : 9510 <= 10000 * cos (PI / 10).
Proof.
  assert (Y0 : 0 < cos (PI / 10)) by (apply cos_gt_0; pose proof PI_RGT_0; lra).
  pose proof cos_pi5 as H. replace (PI / 5) with (2 * (PI / 10)) in H by field. rewrite cos_2a_cos in H. nra.
Qed.
Lemma cos_pi4 : 70710 <= 100000 * cos (PI / 4) <= 70711.
Proof.
  assert (Y0 : 0 < cos (PI / 4)) by (apply cos_gt_0; pose proof PI_RGT_0; lra).
  pose proof cos_PI2 as H. replace (PI / 2) with (2 * (PI / 4)) in H by field. rewrite cos_2a_cos in H. nra.
Qed.
Lemma cos_pi8 : 10000 * cos (PI / 8) <= 9239.
Proof.
  assert (Y0 : 0 < cos (PI / 8)) by (apply cos_gt_0; pose proof PI_RGT_0; lra).
  destruct cos_pi4 as [_ H]. replace (PI / 4) with (2 * (PI / 8)) in H by field. rewrite cos_2a_cos in H. nra.
Qed.

(** *** The checks *)
Notation sc := (map scaled).
Lemma top_2 : gain_le (sc a_2) (sc b_2) 100001 100000 1 (-1) 1 = true. Proof. vm_compute. reflexivity. Qed.
Lemma top_4 : gain_le (sc a_4) (sc b_4) 100001 100000 1 (-1) 1 = true. Proof. vm_compute. reflexivity. Qed.
Lemma top_8 : gain_le (sc a_8) (sc b_8) 100001 100000 1 (-1) 1 = true. Proof. vm_compute. reflexivity. Qed.
Lemma top_w : gain_le (sc bw_a) (sc bw_b) 100001 100000 1 (-1) 1 = true. Proof. vm_compute. reflexivity. Qed.
Lemma stop_2 : gain_le (sc a_2) (sc b_2) 10005 100000 1 (-1) 0 = true. Proof. vm_compute. reflexivity. Qed.
Lemma stop_4 : gain_le (sc a_4) (sc b_4) 10005 100000 10000 (-10000) 7072 = true. Proof. vm_compute. reflexivity. Qed.
Lemma stop_8 : gain_le (sc a_8) (sc b_8) 10005 100000 10000 (-10000) 9239 = true. Proof. vm_compute. reflexivity. Qed.
Lemma stop_w : gain_le (sc bw_a) (sc bw_b) 70712 100000 1 (-1) 0 = true. Proof. vm_compute. reflexivity. Qed.
Lemma deep_w : gain_le (sc bw_a) (sc bw_b) 52 10000 10000 (-10000) (-7071) = true. Proof. vm_compute. reflexivity. Qed.
Lemma pass_2 : gain_ge (sc a_2) (sc b_2) 9998 10000 10000 3090 10000 = true. Proof. vm_compute. reflexivity. Qed.
Lemma pass_4 : gain_ge (sc a_4) (sc b_4) 9998 10000 10000 8090 10000 = true. Proof. vm_compute. reflexivity. Qed.
Lemma pass_8 : gain_ge (sc a_8) (sc b_8) 9998 10000 10000 9510 10000 = true. Proof. vm_compute. reflexivity. Qed.
Lemma pass_w : gain_ge (sc bw_a) (sc bw_b) 9893 10000 10000 3090 10000 = true. Proof. vm_compute. reflexivity. Qed.

Definition supported (f : Z) : Prop := (f = 2 \/ f = 4 \/ f = 8)%Z.

(** Gain and phase of the filter chosen for factor f. *)
Definition dgain (f : Z) : R -> R := let '(b, a) := coefficients f in gain (sc a) (sc b).
Definition dphase (f : Z) : R -> R := let '(b, a) := coefficients f in phase (sc a) (sc b).

Lemma dgain_top f w : supported f -> 0 <= dgain f w <= 1.00001.
Proof.
  intros H. pose proof (COS_bound w) as C. split.
  - unfold dgain. destruct (coefficients f). apply gain_nonneg.
  - replace 1.00001 with (100001 / 100000) by lra.
    destruct H as [->|[->| ->]]; [eapply gain_le_ok; [apply (table_sq _ _ _ _ ok_2)|exact top_2|lra]
      |eapply gain_le_ok; [apply (table_sq _ _ _ _ ok_4)|exact top_4|lra]|eapply gain_le_ok; [apply (table_sq _ _ _ _ ok_8)|exact top_8|lra]].
Qed.
Lemma dgain_stop f w : supported f -> PI / IZR f <= w <= PI -> dgain f w <= 0.10005.
Proof.
  intros H Hw. pose proof (COS_bound w) as C. pose proof PI_RGT_0. replace 0.10005 with (10005 / 100000) by lra.
  destruct H as [->|[->| ->]].
  - assert (cos w <= cos (PI / 2)) by (apply cos_decr_1; lra). rewrite cos_PI2 in *.
    eapply gain_le_ok; [apply (table_sq _ _ _ _ ok_2)|exact stop_2|lra].
  - assert (cos w <= cos (PI / 4)) by (apply cos_decr_1; lra). pose proof cos_pi4.
    eapply gain_le_ok; [apply (table_sq _ _ _ _ ok_4)|exact stop_4|lra].
  - assert (cos w <= cos (PI / 8)) by (apply cos_decr_1; lra). pose proof cos_pi8.
    eapply gain_le_ok; [apply (table_sq _ _ _ _ ok_8)|exact stop_8|lra].
Qed.
Lemma dgain_pass f w : supported f -> 0 <= w <= 0.8 * (PI / IZR f) -> 0.9998 <= dgain f w.
Proof.
  intros H Hw. pose proof (COS_bound w) as C. pose proof PI_RGT_0. replace 0.9998 with (9998 / 10000) by lra.
  destruct H as [->|[->| ->]].
  - assert (cos (2 * (PI / 5)) <= cos w) by (apply cos_decr_1; lra). pose proof cos_2pi5.
    eapply gain_ge_ok; [apply (table_sq _ _ _ _ ok_2)|exact pass_2|lra].
  - assert (cos (PI / 5) <= cos w) by (apply cos_decr_1; lra). pose proof cos_pi5.
    eapply gain_ge_ok; [apply (table_sq _ _ _ _ ok_4)|exact pass_4|lra].
  - assert (cos (PI / 10) <= cos w) by (apply cos_decr_1; lra). pose proof cos_pi10.
    eapply gain_ge_ok; [apply (table_sq _ _ _ _ ok_8)|exact pass_8|lra].
Qed.

Lemma sampled_near f x t0 e : 0 <= e -> sampled f x -> near t0 e f x.
Proof. intros He H t H0 Ht. rewrite H by lia. unfold Rminus. rewrite Rplus_opp_r, Rabs_R0. auto. Qed.
Lemma sampled_bounded l Am x : total l <= Am -> sampled (chord l) x -> bounded Am x.
Proof. intros Hl H t Ht. rewrite H by auto. eapply Rle_trans; [apply chord_bound|auto]. Qed.

(** *** Decimator *)
Theorem decimator_response f : supported f ->
  exists g s : R -> R,
    (forall w, 0 <= g w <= 1.00001) /\
    (forall w, 0 <= w <= 0.8 * (PI / IZR f) -> 0.9998 <= g w) /\
    (forall w, PI / IZR f <= w <= PI -> g w <= 0.10005) /\
    forall Am eps, 0 <= Am -> 0 < eps -> exists t0,
    forall junk n calls l, (0 <= n)%Z -> (f | n)%Z -> blocks n (n / f) calls ->
      total l <= Am -> sampled (chord l) (fed calls) ->
      exists d outs,
        bind (decimator_new 0 Q2R junk n f) (fun d0 =>
          decimator_run Rplus Rminus Rmult (fun v => v) (fun v => v) d0 calls) = OK (d, outs) /\
        near t0 eps (chord (through (IZR f) g s l)) (got (n / f) outs).
Proof.
  intros Hs. exists (dgain f), (dphase f). split; [intros; now apply dgain_top|]. split; [intros; now apply dgain_pass|].
  split; [intros; now apply dgain_stop|]. intros Am eps HA He.
  assert (Hf : (2 <= f)%Z) by (unfold supported in Hs; lia).
  pose proof (coefficients_ok f) as OKF. pose proof (dgain_top f) as TOP. unfold dgain, dphase in *.
  destruct (coefficients f) as [b a] eqn:EC. destruct OKF as (m & T & N).
  destruct (table_chord b a m 3 T N Am Am 1.00001 0 0 eps He HA ltac:(lra) HA) as (t1 & Ht1 & HC).
  { intros w. apply TOP. auto. }
  exists t1. intros junk n calls l Hn Hd HB Hl HX.
  destruct (decimator_stream 0 Rplus Rminus Rmult Q2R 0 (fun v => v) (fun v => v) junk n f calls Hf Hn Hd HB)
    as (d & outs & ys & zs & E & R & V & G & _).
  exists d, outs. split; auto. rewrite G, map_id. rewrite map_id, EC in R.
  eapply (every_near f ys zs); [lia|auto|exact V|intros; apply through_every|].
  replace eps with (3 * 0 + eps) by ring. apply (HC l (fed calls)); auto.
  - now apply (sampled_bounded l).
  - apply sampled_near; auto; lra.
Qed.

(** *** DecimatorB *)
Notation wgain := (gain (sc bw_a) (sc bw_b)).
Notation wphase := (phase (sc bw_a) (sc bw_b)).
Fixpoint cgain (k : nat) (w : R) : R := match k with O => 1 | S k => cgain k (2 * w) * wgain w end.
Fixpoint cphase (k : nat) (w : R) : R := match k with O => 0 | S k => wphase w + cphase k (2 * w) end.

Lemma wgain_top w : 0 <= wgain w <= 1.00001.
Proof.
  split; [apply gain_nonneg|]. pose proof (COS_bound w). replace 1.00001 with (100001 / 100000) by lra.
  eapply gain_le_ok; [apply (table_sq _ _ _ _ ok_w)|exact top_w|lra].
Qed.
Lemma wgain_stop w : PI / 2 <= w <= PI -> wgain w <= 0.70712.
Proof.
  intros Hw. pose proof (COS_bound w). pose proof PI_RGT_0. replace 0.70712 with (70712 / 100000) by lra.
  assert (cos w <= cos (PI / 2)) by (apply cos_decr_1; lra). rewrite cos_PI2 in *.
  eapply gain_le_ok; [apply (table_sq _ _ _ _ ok_w)|exact stop_w|lra].
Qed.
Lemma wgain_deep w : 3 / 4 * PI <= w <= PI -> wgain w <= 0.0052.
Proof.
  intros Hw. pose proof (COS_bound w). pose proof PI_RGT_0. replace 0.0052 with (52 / 10000) by lra.
  assert (cos w <= cos (PI - PI / 4)) by (apply cos_decr_1; lra). rewrite Rtrigo_facts.cos_pi_minus in *. pose proof cos_pi4.
  eapply gain_le_ok; [apply (table_sq _ _ _ _ ok_w)|exact deep_w|lra].
Qed.
Lemma wgain_pass w : 0 <= w <= 2 / 5 * PI -> 0.9893 <= wgain w.
Proof.
  intros Hw. pose proof (COS_bound w). pose proof PI_RGT_0. replace 0.9893 with (9893 / 10000) by lra.
  assert (cos (2 * (PI / 5)) <= cos w) by (apply cos_decr_1; lra). pose proof cos_2pi5.
  eapply gain_ge_ok; [apply (table_sq _ _ _ _ ok_w)|exact pass_w|lra].
Qed.

Lemma cgain_top k w : 0 <= cgain k w <= 1.00001 ^ k.
Proof.
  revert w. induction k as [|k IH]; intros w; cbn [cgain pow]; [lra|].
  specialize (IH (2 * w)). pose proof (wgain_top w). split; [apply Rmult_le_pos; lra|].
  rewrite Rmult_comm. apply Rmult_le_compat; lra.
Qed.
Lemma cgain_pass k w : 0 <= w -> 2 ^ k * w <= 4 / 5 * PI -> 0.9893 ^ k <= cgain k w.
Proof.
  revert w. induction k as [|k IH]; intros w H0; cbn [cgain pow]; [lra|]. intros Hw.
  assert (P : 1 <= 2 ^ k) by (apply pow_R1_Rle; lra).
  specialize (IH (2 * w) ltac:(lra) ltac:(lra)).
  pose proof (wgain_pass w ltac:(nra)). rewrite Rmult_comm. assert (0 < 0.9893 ^ k) by (apply pow_lt; lra).
  apply Rmult_le_compat; lra.
Qed.
(** One attenuating stage attenuates the whole. *)
Lemma cgain_stage k i c w : (i < k)%nat -> 0 <= c -> wgain (2 ^ i * w) <= c -> cgain k w <= c * 1.00001 ^ (k - 1).
Proof.
  revert i w. induction k as [|k IH]; intros i w Hi Hc H; [lia|]. cbn [cgain]. pose proof (wgain_top w) as W.
  pose proof (cgain_top k (2 * w)) as CT. replace (S k - 1)%nat with k by lia. destruct i as [|i].
  - cbn [pow] in H. rewrite Rmult_1_l in H. rewrite Rmult_comm. apply Rmult_le_compat; lra.
  - specialize (IH i (2 * w) ltac:(lia) Hc). cbn [pow] in H. replace (2 ^ i * (2 * w)) with (2 * 2 ^ i * w) in IH by ring. specialize (IH H).
    destruct k as [|k]; [lia|]. replace (S k - 1)%nat with k in IH by lia. cbn [pow].
    replace (c * (1.00001 * 1.00001 ^ k)) with (c * 1.00001 ^ k * 1.00001) by ring.
    apply Rmult_le_compat; try lra; try apply CT. 
Qed.
Lemma cgain_stop k w : PI / 2 ^ k <= w <= PI -> (0 < k)%nat -> cgain k w <= 0.70712 * 1.00001 ^ (k - 1).
Proof.
  intros Hw Hk. assert (exists i, (i < k)%nat /\ PI / 2 <= 2 ^ i * w <= PI) as (i & Hi & HW).
  { revert w Hw. induction k as [|k IH]; intros w Hw; [lia|].
    destruct (Rle_lt_dec (PI / 2) w); [exists 0%nat; split; [lia|]; cbn; lra|].
    destruct k as [|k]; [cbn in Hw; lra|].
    destruct (IH ltac:(lia) (2 * w)) as (i & Hi & HW).
    - assert (P : 0 < 2 ^ S k) by (apply pow_lt; lra). split; [|lra]. destruct Hw as [Hw _].
      change (2 ^ S (S k)) with (2 * 2 ^ S k) in Hw.
      replace (PI / 2 ^ S k) with (2 * (PI / (2 * 2 ^ S k))) by (field; lra). lra.
    - exists (S i). split; [lia|]. cbn [pow]. replace (2 * 2 ^ i * w) with (2 ^ i * (2 * w)) by ring. auto. }
  apply (cgain_stage k i); auto; [lra|]. now apply wgain_stop.
Qed.

Lemma through_id l : through 1 (fun _ => 1) (fun _ => 0) l = l.
Proof. unfold through. rewrite <- map_id. apply map_ext. intros [[a w] p]. f_equal; [f_equal|]; ring. Qed.
Lemma through_ext f g s g' s' l : (forall w, g w = g' w) -> (forall w, s w = s' w) -> through f g s l = through f g' s' l.
Proof. intros H1 H2. unfold through. apply map_ext. intros [[a w] p]. now rewrite H1, H2. Qed.

Lemma cascade k : forall Am M e t0 eps, 0 < eps -> 0 <= M -> 0 <= e -> 0 <= Am -> exists t1, (0 <= t1)%Z /\
  forall l x z, total l <= Am -> bounded M x -> near t0 e (chord l) x ->
    halved 0 Rplus Rminus Rmult (lead Q2R bw_b) (pairs Q2R bw_b bw_a) k x z ->
    near t1 (2 ^ k * e + eps) (chord (through (2 ^ k) (cgain k) (cphase k) l)) z.
Proof.
  induction k as [|k IH]; intros Am M e t0 eps Heps HM He HA.
  - exists (Z.max 0 t0). split; [lia|]. intros l x z Hl HB HN ->. cbn [pow].
    change (cgain 0) with (fun _ : R => 1). change (cphase 0) with (fun _ : R => 0). rewrite through_id.
    intros t H0 Ht. specialize (HN t H0 ltac:(lia)). lra.
  - set (eps' := eps / (2 * 2 ^ k)). assert (P : 0 < 2 ^ k) by (apply pow_lt; lra).
    assert (E' : 2 ^ k * eps' = eps / 2) by (unfold eps'; field; lra).
    assert (Hp : 0 < eps') by (unfold eps'; apply Rmult_lt_0_compat; [auto|apply Rinv_0_lt_compat; lra]).
    destruct (table_chord bw_b bw_a 20 2 ok_w ltac:(discriminate) Am M 1.00001 e t0 eps' Hp HM He HA) as (t1 & Ht1 & HC).
    { intros w. apply wgain_top. }
    destruct (IH (1.00001 * Am) (2 * M) (2 * e + eps') t1 (eps / 2)) as (t2 & Ht2 & H2); try lra.
    exists t2. split; auto. intros l x z Hl HB HN (y & w & R & V & H).
    specialize (HC l x y Hl R HB HN).
    assert (N1 : near t1 (2 * e + eps') (chord (through 2 wgain wphase l)) w).
    { eapply (every_near 2 y w); [lia|auto|exact V|intros; apply (through_every 2)|exact HC]. }
    specialize (H2 (through 2 wgain wphase l) w z).
    rewrite through_through in H2. cbn [pow].
    replace (2 * 2 ^ k * e + eps) with (2 ^ k * (2 * e + eps') + eps / 2) by lra.
    replace (2 * 2 ^ k) with (2 ^ k * 2) by ring. apply H2; auto.
    + eapply Rle_trans; [apply (through_total _ _ _ _ 1.00001); apply wgain_top|]. lra.
    + apply (every_bounded 2 y w); auto; [lia|]. intros t Ht.
      apply (table_bound bw_b bw_a 20 2 ok_w ltac:(discriminate) x y M R HM HB t Ht).
Qed.

Theorem decimatorB_response k : (1 <= k <= 30)%nat ->
  exists g s : R -> R,
    (forall w, 0 <= g w <= 1.00001 ^ k) /\
    (forall w, 0 <= w <= 0.8 * (PI / 2 ^ k) -> 0.9893 ^ k <= g w) /\
    (forall w, PI / 2 ^ k <= w <= PI -> g w <= 0.70712 * 1.00001 ^ (k - 1)) /\
    (forall w i, (i < k)%nat -> 3 / 4 * PI <= 2 ^ i * w <= PI -> g w <= 0.0052 * 1.00001 ^ (k - 1)) /\
    forall Am eps, 0 <= Am -> 0 < eps -> exists t0,
    forall junk n calls l, (0 <= n)%Z -> (2 ^ Z.of_nat k | n)%Z -> blocks n (n / 2 ^ Z.of_nat k) calls ->
      total l <= Am -> sampled (chord l) (fed calls) ->
      exists d outs,
        bind (decB_new 0 Q2R junk n (2 ^ Z.of_nat k)) (fun e0 =>
          decB_run Rplus Rminus Rmult (fun v => v) (fun v => v) e0 calls) = OK (d, outs) /\
        near t0 eps (chord (through (2 ^ k) g s l)) (got (n / 2 ^ Z.of_nat k) outs).
Proof.
  intros Hk. exists (cgain k), (cphase k). split; [intros; apply cgain_top|]. split.
  { intros w Hw. assert (P : 0 < 2 ^ k) by (apply pow_lt; lra). apply cgain_pass; [lra|].
    assert (2 ^ k * w <= 2 ^ k * (0.8 * (PI / 2 ^ k))) by (apply Rmult_le_compat_l; lra).
    replace (2 ^ k * (0.8 * (PI / 2 ^ k))) with (0.8 * PI) in H by (field; lra). lra. }
  split; [intros; apply cgain_stop; auto; lia|].
  split; [intros w i Hi Hw; apply (cgain_stage k i); auto; [lra|]; now apply wgain_deep|].
  intros Am eps HA He. destruct (cascade k Am Am 0 0 eps He HA ltac:(lra) HA) as (t1 & Ht1 & HC).
  exists t1. intros junk n calls l Hn Hd HB Hl HX.
  destruct (decimatorB_stream 0 Rplus Rminus Rmult Q2R 0 (fun v => v) (fun v => v) junk n k calls Hk Hn Hd HB)
    as (e & outs & zs & E & H & G & _).
  exists e, outs. split; auto. rewrite G, map_id. rewrite map_id in H.
  replace eps with (2 ^ k * 0 + eps) by ring. apply (HC l (fed calls)); auto.
  - now apply (sampled_bounded l).
  - apply sampled_near; auto; lra.
Qed.

(** *** Other factors: no filter at all *)
Lemma unfiltered x y : rsp b_1 a_1 x y -> y = x.
Proof.
  intros HR. pose proof HR as [L _]. apply (zn_ext 0); auto. intros t Ht.
  pose proof (table_eq b_1 a_1 1 3 ok_1 ltac:(discriminate) x y HR t ltac:(lia)) as E.
  change (sc a_1) with (10000000000000000000 :: repeat 0 7)%Z in E. change (sc b_1) with (10000000000000000000 :: repeat 0 7)%Z in E.
  cbn [map repeat rapply] in E. lra.
Qed.

Theorem decimator_other junk n f calls : (2 <= f)%Z -> ~ supported f -> (0 <= n)%Z -> (f | n)%Z -> blocks n (n / f) calls ->
  exists d outs,
    bind (decimator_new 0 Q2R junk n f) (fun d0 =>
      decimator_run Rplus Rminus Rmult (fun v => v) (fun v => v) d0 calls) = OK (d, outs) /\
    every 0 f (fed calls) (got (n / f) outs).
Proof.
  intros Hf Hs Hn Hd HB.
  destruct (decimator_stream 0 Rplus Rminus Rmult Q2R 0 (fun v => v) (fun v => v) junk n f calls Hf Hn Hd HB)
    as (d & outs & ys & zs & E & R & V & G & _).
  exists d, outs. split; auto. rewrite G, map_id. rewrite map_id in R.
  replace (coefficients f) with (b_1, a_1) in R.
  2: { unfold coefficients, supported in *. destruct (Z.eqb_spec f 8); [exfalso; auto|]. destruct (Z.eqb_spec f 4); [exfalso; auto|].
       destruct (Z.eqb_spec f 2); [exfalso; auto|]. reflexivity. }
  apply unfiltered in R. subst ys. auto.
Qed.

(** A tone at the output rate comes out as a constant, at full strength. *)
Theorem decimator_other_alias junk n f calls A p : (2 <= f)%Z -> ~ supported f -> (0 <= n)%Z -> (f | n)%Z -> blocks n (n / f) calls ->
  sampled (tone A (2 * PI / IZR f) p) (fed calls) ->
  exists d outs,
    bind (decimator_new 0 Q2R junk n f) (fun d0 =>
      decimator_run Rplus Rminus Rmult (fun v => v) (fun v => v) d0 calls) = OK (d, outs) /\
    constant (A * cos p) (got (n / f) outs).
Proof.
  intros Hf Hs Hn Hd HB HX. destruct (decimator_other junk n f calls Hf Hs Hn Hd HB) as (d & outs & E & [L V]).
  exists d, outs. split; auto. intros t Ht. rewrite V by auto.
  pose proof (zlen_nonneg (fed calls)). assert (f * (zlen (fed calls) / f) <= zlen (fed calls))%Z by (apply Z.mul_div_le; lia).
  rewrite HX by nia. unfold tone. f_equal. rewrite mult_IZR.
  assert (F : IZR f <> 0) by (apply not_0_IZR; lia).
  replace (2 * PI / IZR f * (IZR f * IZR t) + p) with (p + 2 * INR (Z.to_nat t) * PI).
  - apply cos_period.
  - rewrite INR_IZR_INZ, Z2Nat.id by lia. field. auto.
Qed.

(** Signals all of whose components would alias come out attenuated. *)
Theorem decimator_alias f Am eps : supported f -> 0 <= Am -> 0 < eps -> exists t0,
  forall junk n calls l, (0 <= n)%Z -> (f | n)%Z -> blocks n (n / f) calls ->
    total l <= Am -> Forall (fun '(_, w, _) => PI / IZR f <= w <= PI) l -> sampled (chord l) (fed calls) ->
    exists d outs,
      bind (decimator_new 0 Q2R junk n f) (fun d0 =>
        decimator_run Rplus Rminus Rmult (fun v => v) (fun v => v) d0 calls) = OK (d, outs) /\
      near t0 (0.10005 * Am + eps) (fun _ => 0) (got (n / f) outs).
Proof.
  intros Hs HA He. destruct (decimator_response f Hs) as (g & s & T & _ & S & H). destruct (H Am eps HA He) as (t0 & H0).
  exists t0. intros junk n calls l Hn Hd HB Hl HF HX. destruct (H0 junk n calls l Hn Hd HB Hl HX) as (d & outs & E & N).
  exists d, outs. split; auto. intros t Ht Ht0. specialize (N t Ht Ht0). rewrite Rminus_0_r.
  assert (B : Rabs (chord (through (IZR f) g s l) t) <= 0.10005 * Am).
  { eapply Rle_trans; [apply chord_bound|]. eapply Rle_trans with (0.10005 * total l); [|lra].
    clear -HF S T. induction HF as [|[[a w] p] l Hw HF IH]; [unfold total; cbn; lra|].
    change (total ((a, w, p) :: l)) with (Rabs a + total l).
    change (total (through (IZR f) g s ((a, w, p) :: l))) with (Rabs (g w * a) + total (through (IZR f) g s l)).
    rewrite Rabs_mult, (Rabs_pos_eq (g w)) by apply T.
    assert (g w * Rabs a <= 0.10005 * Rabs a) by (apply Rmult_le_compat_r; [apply Rabs_pos|auto]). lra. }
  set (y := zn 0 _ t) in *. set (c := chord _ t) in *.
  replace y with (y - c + c) by ring. eapply Rle_trans; [apply Rabs_triang|]. lra.
Qed.
