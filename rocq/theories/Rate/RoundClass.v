(** Decimator and DecimatorB in IEEE doubles. *)
From Coq Require Import List ZArith QArith Qreals Reals Lia Lra Bool.
From Flocq Require Import Core.
From Verif.Base Require Import Imp Sums RealOps Dbl Double.
From Verif.Rate Require Import Df2tSpec Df2tProofs DecimatorModel DecimatorSpec DecimatorProofs
  DecimatorBModel DecimatorBSpec DecimatorBProofs StableSpec StableProofs RoundSpec RoundProofs.
Import ListNotations.
Open Scope R_scope.

Lemma coefficients_noise f : (2 <= f)%Z -> let '(b, a) := coefficients f in
  exists n m GA, table_ok b a n 3 = true /\
    noise_ok b a m GA (if f =? 8 then 50000000 else if f =? 4 then 8000000000 else 250000000000)%Z = true /\ a <> [].
Proof.
  intros Hf. unfold coefficients.
  destruct (f =? 8)%Z; [do 3 eexists; split; [exact ok_8|split; [exact noise_8|discriminate]]|].
  destruct (f =? 4)%Z; [do 3 eexists; split; [exact ok_4|split; [exact noise_4|discriminate]]|].
  destruct (f =? 2)%Z; [do 3 eexists; split; [exact ok_2|split; [exact noise_2|discriminate]]|].
  exists 1%nat, 1%nat, 1%Z. split; [exact ok_1|]. split; [|discriminate].
  vm_compute. reflexivity.
Qed.

Lemma every_computes e f x y (u : list double) (v : list R) : (1 <= f)%Z ->
  every d0 f x u -> every 0 f y v -> computes e x y -> computes e u v.
Proof.
  intros Hf [L1 V1] [L2 V2] [L C]. pose proof (zlen_nonneg x). split; [congruence|].
  intros t Ht. rewrite V1, V2 by (rewrite ?L2, <- ?L, <- ?L1; lia). apply C.
  assert (f * (zlen x / f) <= zlen x)%Z by (apply Z.mul_div_le; lia). nia.
Qed.

Theorem decimator_rounding (F : Type) (fz : F) (up : F -> double) (down : double -> F) junk n f calls M :
  (2 <= f)%Z -> (0 <= n)%Z -> (f | n)%Z -> blocks n (n / f) calls ->
  bpow radix2 (-900) <= M -> M <= bpow radix2 890 -> all_finite M (map up (fed calls)) ->
  exists d outs zs,
    bind (decimator_new d0 dlit junk n f) (fun d => decimator_run dadd dsub dmul up down d calls) = OK (d, outs) /\
    got (n / f) outs = map down zs /\
    forall ys es,
      (let '(b, a) := coefficients f in
       iir_response 0 Rplus Rminus Rmult (lead Q2R b) (pairs Q2R b a) (map dval (map up (fed calls))) ys) ->
      every 0 f ys es ->
      computes (M / IZR (if f =? 8 then 50000000 else if f =? 4 then 8000000000 else 250000000000)) zs es.
Proof.
  intros Hf Hn Hd HB M1 M2 HX.
  destruct (decimator_stream d0 dadd dsub dmul dlit fz up down junk n f calls Hf Hn Hd HB)
    as (d & outs & ws & zs & E & R & V & G & _).
  exists d, outs, zs. split; auto. split; auto. intros ys es RY VE.
  pose proof (coefficients_noise f Hf) as C. destruct (coefficients f) as [b a].
  destruct C as (n1 & m1 & GA & T & N & A).
  apply (every_computes _ f ws ys zs es); auto; [lia|].
  pose proof R as [L1 _]. pose proof RY as [L2 _]. rewrite zlen_map in L2. split; [lia|].
  intros t Ht. apply (filter_rounding b a n1 m1 GA _ T N A (map up (fed calls)) ws ys M M1 M2 HX R RY). lia.
Qed.

Lemma ok_w3 : table_ok bw_b bw_a 20 3 = true. Proof. vm_compute. reflexivity. Qed.
Notation wr := (iir_response 0 Rplus Rminus Rmult (lead Q2R bw_b) (pairs Q2R bw_b bw_a)).

(** The response depends on the input with gain 2. *)
Lemma difference x x' y y' e : wr x y -> wr x' y' -> zlen x = zlen x' -> 0 <= e ->
  (forall t, (0 <= t < zlen x)%Z -> Rabs (zn 0 x t - zn 0 x' t) <= e) ->
  forall t, (0 <= t < zlen x)%Z -> Rabs (zn 0 y t - zn 0 y' t) <= 2 * e.
Proof.
  intros R R' LL He HX t Ht. pose proof R as [L _]. pose proof R' as [L' _].
  pose proof ok_w as OW. unfold table_ok in OW. rewrite !andb_true_iff in OW. destruct OW as [[[_ HD] _] _].
  apply (dominated_bound _ _ _ _ HD (fun s => zn 0 x s - zn 0 x' s) (fun s => zn 0 y s - zn 0 y' s) (zlen x) e); auto; try lia.
  - intros s Hs. rewrite !rapply_minus. f_equal.
    + apply (table_eq bw_b bw_a 20 2 ok_w ltac:(discriminate) x y R). lia.
    + apply (table_eq bw_b bw_a 20 2 ok_w ltac:(discriminate) x' y' R'). lia.
  - intros s Hs. rewrite !zn_out by lia. lra.
  - intros s. destruct (Z.lt_ge_cases s 0); [rewrite !zn_out by lia; rewrite Rminus_0_r, Rabs_R0; lra|].
    destruct (Z.lt_ge_cases s (zlen x)); [apply HX; lia|rewrite !zn_out by lia; rewrite Rminus_0_r, Rabs_R0; lra].
Qed.

Definition D : R := 20000000000000.

Lemma halved_rounding k : forall M e x z xr zr,
  bpow radix2 (-900) <= M -> 2 ^ k * M <= bpow radix2 880 -> 0 <= e -> e <= M ->
  halved d0 dadd dsub dmul (lead dlit bw_b) (pairs dlit bw_b bw_a) k x z ->
  halved 0 Rplus Rminus Rmult (lead Q2R bw_b) (pairs Q2R bw_b bw_a) k xr zr ->
  computes e x xr -> bounded M xr -> 2 ^ k * e + INR k * 2 ^ k * M / D <= 2 ^ k * M ->
  computes (2 ^ k * e + INR k * 2 ^ k * M / D) z zr.
Proof.
  induction k as [|k IH]; intros M e x z xr zr M1 M2 He HeM HD HR HC HB HE.
  - cbn [halved] in HD, HR. subst. cbn [pow INR]. destruct HC as [L C]. split; auto. intros t Ht.
    destruct (C t Ht) as [F E]. split; auto. unfold D. lra.
  - cbn [halved] in HD, HR. destruct HD as (y & w & R & V & H). destruct HR as (yr & wr' & Rr & Vr & Hr).
    assert (M0 : 0 < M) by (pose proof (bpow_gt_0 radix2 (-900)); lra).
    assert (P0 : 0 < 2 ^ k) by (apply pow_lt; lra). cbn [pow] in M2, HE |- *. rewrite S_INR in HE |- *.
    assert (P1 : 1 <= 2 ^ k) by (apply pow_R1_Rle; lra).
    assert (I0 : 0 <= INR k) by apply pos_INR. unfold D in *.
    destruct HC as [L C].
    assert (HX : forall t, (0 <= t < zlen x)%Z -> finite (zn d0 x t) /\ Rabs (dval (zn d0 x t)) <= 2 * M).
    { intros t Ht. destruct (C t Ht) as [Fx Ex]. split; auto. pose proof (near _ _ _ _ Ex (HB t ltac:(lia))). lra. }
    pose proof (grun_response 0 Rplus Rminus Rmult (lead Q2R bw_b) (pairs Q2R bw_b bw_a) (map dval x) ltac:(discriminate)) as GR.
    destruct (grun _ _ _ _ _ _ _ _) as [o y']. destruct GR as [R' _].
    assert (N0 : 1 * M <= 2 ^ k * M) by (apply Rmult_le_compat_r; lra).
    assert (B2 : 2 * M <= bpow radix2 890).
    { apply Rle_trans with (bpow radix2 880); [lra|]. apply bpow_le. lia. }
    pose proof (filter_rounding bw_b bw_a 20 20 4 _ ok_w3 noise_w ltac:(discriminate) x y y' (2 * M) ltac:(lra) B2 HX R R') as FR.
    assert (DF : forall t, (0 <= t < zlen (map dval x))%Z -> Rabs (zn 0 y' t - zn 0 yr t) <= 2 * e).
    { apply (difference (map dval x) xr y' yr e R' Rr); auto; [rewrite zlen_map; lia|].
      intros t Ht. rewrite zlen_map in Ht. rewrite zn_dval. now apply C. }
    rewrite zlen_map in DF.
    set (e' := 2 * e + 2 * M / 20000000000000).
    assert (HE' : 2 ^ k * e' + INR k * 2 ^ k * (2 * M) / 20000000000000 = 2 * 2 ^ k * e + (INR k + 1) * (2 * 2 ^ k) * M / 20000000000000).
    { unfold e'. field. }
    pose proof R as [LY _]. pose proof Rr as [LYr _].
    assert (CW : computes e' w wr').
    { apply (every_computes _ 2 y yr w wr'); auto; [lia|]. split; [lia|]. intros t Ht.
      destruct (FR t ltac:(lia)) as [F E]. split; auto. pose proof (chain _ _ _ _ _ E (DF t ltac:(lia))) as E2.
      unfold e'. lra. }
    assert (BW : bounded (2 * M) wr').
    { intros t Ht. destruct Vr as [Lw Vw]. rewrite Vw by auto.
      assert (2 * (zlen yr / 2) <= zlen yr)%Z by (apply Z.mul_div_le; lia).
      apply (table_bound bw_b bw_a 20 2 ok_w ltac:(discriminate) xr yr M Rr); [lra|exact HB|]. lia. }
    rewrite <- HE' in HE |- *.
    assert (Q0 : 0 <= INR k * 2 ^ k * (2 * M) / 20000000000000).
    { unfold Rdiv. repeat apply Rmult_le_pos; lra. }
    apply (IH (2 * M) e' w z wr' zr); auto; try (unfold e'; lra).
    apply (Rmult_le_reg_l (2 ^ k)); auto. lra.
Qed.

Theorem decimatorB_rounding (F : Type) (fz : F) (up : F -> double) (down : double -> F) junk n k calls M :
  (1 <= k <= 30)%nat -> (0 <= n)%Z -> (2 ^ Z.of_nat k | n)%Z -> blocks n (n / 2 ^ Z.of_nat k) calls ->
  bpow radix2 (-900) <= M -> M <= bpow radix2 850 -> all_finite M (map up (fed calls)) ->
  exists e outs zs,
    bind (decB_new d0 dlit junk n (2 ^ Z.of_nat k)) (fun e => decB_run dadd dsub dmul up down e calls) = OK (e, outs) /\
    got (n / 2 ^ Z.of_nat k) outs = map down zs /\
    forall es, halved 0 Rplus Rminus Rmult (lead Q2R bw_b) (pairs Q2R bw_b bw_a) k (map dval (map up (fed calls))) es ->
      computes (INR k * 2 ^ k * M / 20000000000000) zs es.
Proof.
  intros Hk Hn Hd HB M1 M2 HX.
  destruct (decimatorB_stream d0 dadd dsub dmul dlit fz up down junk n k calls Hk Hn Hd HB)
    as (d & outs & zs & E & H & G & _).
  exists d, outs, zs. split; auto. split; auto. intros es HE.
  assert (M0 : 0 < M) by (pose proof (bpow_gt_0 radix2 (-900)); lra).
  assert (P0 : 0 < 2 ^ k) by (apply pow_lt; lra).
  assert (P30 : 2 ^ k <= bpow radix2 30).
  { rewrite bpow_powerRZ. simpl IZR. apply Rle_trans with (2 ^ 30); [apply Rle_pow; [lra|lia]|]. rewrite <- pow_powerRZ || idtac. simpl. lra. }
  assert (I30 : INR k <= 30) by (change 30 with (IZR (Z.of_nat 30)); rewrite <- INR_IZR_INZ; apply le_INR; lia).
  replace (INR k * 2 ^ k * M / 20000000000000) with (2 ^ k * 0 + INR k * 2 ^ k * M / D) by (unfold D; field).
  apply (halved_rounding k M 0 (map up (fed calls)) zs (map dval (map up (fed calls))) es); auto; try lra.
  - apply Rle_trans with (bpow radix2 30 * bpow radix2 850); [apply Rmult_le_compat; lra|]. rewrite <- bpow_plus. apply bpow_le. lia.
  - split; [now rewrite !zlen_map|]. intros t Ht. rewrite zn_dval. destruct (HX t Ht) as [A B]. split; auto.
    rewrite Rminus_eq_0, Rabs_R0. lra.
  - intros t Ht. rewrite zlen_map in Ht. rewrite zn_dval. now apply HX.
  - unfold D. assert (INR k * (2 ^ k * M) <= 30 * (2 ^ k * M)).
    { apply Rmult_le_compat_r; [apply Rmult_le_pos; lra|lra]. }
    assert (0 <= 2 ^ k * M) by (apply Rmult_le_pos; lra). lra.
Qed.

(** The exact responses exist. *)
Theorem decimator_exact (F : Type) (fz : F) (up : F -> R) n f (calls : list (list F * list F)) :
  (2 <= f)%Z -> (0 <= n)%Z -> (f | n)%Z -> blocks n (n / f) calls ->
  exists ys es,
    (let '(b, a) := coefficients f in
     iir_response 0 Rplus Rminus Rmult (lead Q2R b) (pairs Q2R b a) (map up (fed calls)) ys) /\ every 0 f ys es.
Proof.
  intros Hf Hn Hd HB.
  destruct (decimator_stream 0 Rplus Rminus Rmult Q2R fz up (fun _ => fz) 0 n f calls Hf Hn Hd HB)
    as (d & outs & ws & zs & _ & R & V & _). exists ws, zs. auto.
Qed.
Theorem decimatorB_exact (F : Type) (fz : F) (up : F -> R) n k (calls : list (list F * list F)) :
  (1 <= k <= 30)%nat -> (0 <= n)%Z -> (2 ^ Z.of_nat k | n)%Z -> blocks n (n / 2 ^ Z.of_nat k) calls ->
  exists es, halved 0 Rplus Rminus Rmult (lead Q2R bw_b) (pairs Q2R bw_b bw_a) k (map up (fed calls)) es.
Proof.
  intros Hk Hn Hd HB.
  destruct (decimatorB_stream 0 Rplus Rminus Rmult Q2R fz up (fun _ => fz) 0 n k calls Hk Hn Hd HB)
    as (d & outs & zs & _ & H & _). exists zs. auto.
Qed.

Theorem decimator_doubles (F : Type) (fz : F) (up : F -> double) (down : double -> F) junk n f calls M :
  (2 <= f)%Z -> (0 <= n)%Z -> (f | n)%Z -> blocks n (n / f) calls ->
  bpow radix2 (-900) <= M -> M <= bpow radix2 890 -> all_finite M (map up (fed calls)) ->
  exists d outs zs ys es,
    bind (decimator_new d0 dlit junk n f) (fun d => decimator_run dadd dsub dmul up down d calls) = OK (d, outs) /\
    got (n / f) outs = map down zs /\
    (let '(b, a) := coefficients f in
     iir_response 0 Rplus Rminus Rmult (lead Q2R b) (pairs Q2R b a) (map dval (map up (fed calls))) ys) /\
    every 0 f ys es /\
    computes (M / IZR (if f =? 8 then 50000000 else if f =? 4 then 8000000000 else 250000000000)) zs es.
Proof.
  intros Hf Hn Hd HB M1 M2 HX.
  destruct (decimator_rounding F fz up down junk n f calls M Hf Hn Hd HB M1 M2 HX) as (d & outs & zs & E & G & H).
  destruct (decimator_exact F fz (fun v => dval (up v)) n f calls Hf Hn Hd HB) as (ys & es & R & V).
  assert (EM : map dval (map up (fed calls)) = map (fun v => dval (up v)) (fed calls)) by apply map_map.
  rewrite EM in H |- *. exists d, outs, zs, ys, es. split; [exact E|]. split; [exact G|]. split; [exact R|]. split; [exact V|]. apply (H ys es R V).
Qed.
Theorem decimatorB_doubles (F : Type) (fz : F) (up : F -> double) (down : double -> F) junk n k calls M :
  (1 <= k <= 30)%nat -> (0 <= n)%Z -> (2 ^ Z.of_nat k | n)%Z -> blocks n (n / 2 ^ Z.of_nat k) calls ->
  bpow radix2 (-900) <= M -> M <= bpow radix2 850 -> all_finite M (map up (fed calls)) ->
  exists e outs zs es,
    bind (decB_new d0 dlit junk n (2 ^ Z.of_nat k)) (fun e => decB_run dadd dsub dmul up down e calls) = OK (e, outs) /\
    got (n / 2 ^ Z.of_nat k) outs = map down zs /\
    halved 0 Rplus Rminus Rmult (lead Q2R bw_b) (pairs Q2R bw_b bw_a) k (map dval (map up (fed calls))) es /\
    computes (INR k * 2 ^ k * M / 20000000000000) zs es.
Proof.
  intros Hk Hn Hd HB M1 M2 HX.
  destruct (decimatorB_rounding F fz up down junk n k calls M Hk Hn Hd HB M1 M2 HX) as (d & outs & zs & E & G & H).
  destruct (decimatorB_exact F fz (fun v => dval (up v)) n k calls Hk Hn Hd HB) as (es & R).
  assert (EM : map dval (map up (fed calls)) = map (fun v => dval (up v)) (fed calls)) by apply map_map.
  rewrite EM in H |- *. exists d, outs, zs, es. split; [exact E|]. split; [exact G|]. split; [exact R|]. apply (H es R).
Qed.
