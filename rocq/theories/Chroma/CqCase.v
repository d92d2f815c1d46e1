(** A small case: one bin, quality 1, frames of four samples. *)
From Coq Require Import List ZArith Reals Lia Lra Bool.
From Verif.Base Require Import Imp Sums RealOps Loops.
From Verif.Maths Require Import IntModel IntSpec IntProofs.
From Verif.Fft Require Import Cplx FftModel FftBfly FftSpec FftProofs FftResults.
From Verif.Chroma Require Import CqModel CqSpec CqLoops CqProofs CqTime CqResults.
Import ListNotations.
Open Scope Z_scope.

Definition small : cqconfig := {| c_fs := 4; c_min := 1; c_max := 2; c_bpo := 1; c_thresh := 1 / 10 |}%R.

Lemma Zceil_IZR k : Zceil (IZR k) = k.
Proof. unfold Zceil. rewrite <- opp_IZR, Zfloor_IZR. lia. Qed.
Lemma quality_1 : quality 1 = 1%R.
Proof. unfold quality. replace (1 / 1)%R with 1%R by field. rewrite Rpower_1 by lra. field. Qed.
Lemma small_usable : usable small.
Proof. unfold usable. cbn. split; [lia|lra]. Qed.
Lemma small_length : Zceil (quality (c_bpo small) * c_fs small / c_min small) = 4.
Proof. cbn [small c_bpo c_fs c_min]. rewrite quality_1. replace (1 * 4 / 1)%R with 4%R by field. apply Zceil_IZR. Qed.
Lemma small_bins : Zceil (IZR (c_bpo small) * ln (c_max small / c_min small) / ln 2) = 1.
Proof.
  cbn [small c_bpo c_max c_min]. replace (2 / 1)%R with 2%R by field.
  assert (0 < ln 2)%R by (rewrite <- ln_1; apply ln_increasing; lra).
  replace (1 * ln 2 / ln 2)%R with 1%R by (field; lra). apply Zceil_IZR.
Qed.

(** Such objects exist, with one bin and frames of four. *)
Lemma small_object : exists o, cq_uses small true o /\ q_uk o = 1 /\ q_len o = 4.
Proof.
  destruct (cq_constructed small [0%R; 0%R]) as (o & E).
  { exact small_usable. } { rewrite small_length. lia. } { rewrite small_bins. lia. }
  assert (Huk : q_uk o = 1).
  { unfold cq_new in E. apply bind_OK in E as (uk & E1 & E). apply int_inv in E1 as [-> _]. rewrite small_bins in E.
    apply bind_OK in E as (l & _ & E). apply bind_OK in E as (p & _ & E). apply bind_OK in E as (q & E2 & E). apply int_inv in E2 as [-> _].
    cbn [Z.ltb Z.mul Z.compare Pos.mul] in E. injection E as <-. reflexivity. }
  pose proof (cu_new small _ o E ltac:(rewrite Huk; reflexivity)) as U0.
  destruct (cq_parameters small false o small_usable U0) as (_ & _ & P & _). rewrite small_length in P.
  assert (Hl : q_len o = 4).
  { destruct P as ((k & Hk & ->) & A & B). specialize (B 4 ltac:(exists 2; split; [lia|reflexivity]) ltac:(lia)). lia. }
  destruct (cq_kernel_made small false o (repeat 0%R 4) (repeat 0%R 4) (repeat 0%R 4) (repeat 0%R 4) (repeat c0 4) (repeat c0 4) small_usable U0)
    as (o' & E' & U'); try (rewrite Hl; reflexivity).
  destruct (cq_parameters small true o' small_usable U') as (_ & B & P' & _). rewrite small_length in P'. rewrite small_bins in B.
  exists o'. splits; auto.
  destruct P' as ((k & Hk & ->) & A & C). specialize (C 4 ltac:(exists 2; split; [lia|reflexivity]) ltac:(lia)). lia.
Qed.

Lemma root_4_1 : root 4 1 = (0, 1)%R.
Proof. unfold root, cis. replace (2 * PI * 1 / 4)%R with (PI / 2)%R by field. now rewrite cos_PI2, sin_PI2. Qed.
Lemma root_4_2 : root 4 2 = (-1, 0)%R.
Proof. change 2 with (1 + 1). rewrite root_add, root_4_1. apply cplx_eq; cbn; ring. Qed.
Lemma root_4_3 : root 4 3 = (0, -1)%R.
Proof. change 3 with (2 + 1). rewrite root_add, root_4_1, root_4_2. apply cplx_eq; cbn; ring. Qed.

Lemma small_window : window_length 4 1 1 0 = 4.
Proof. unfold window_length. rewrite centre_0, quality_1. replace (1 * 4 / 1)%R with 4%R by field. apply Zceil_IZR. Qed.

Definition small_atom (t : Z) : cplx :=
  (if t =? 0 then (2/100, 0) else if t =? 1 then (0, 135/1000) else if t =? 2 then (-1/4, 0) else (0, -135/1000))%R.
Lemma small_atom_ok t : 0 <= t < 4 -> atom 4 1 1 4 0 t = small_atom t.
Proof.
  intros Ht. unfold atom. rewrite small_window, quality_1. cbv zeta. change (4 / 2 - 4 / 2) with 0. rewrite Z.sub_0_r.
  assert (E : cis (2 * PI * 1 * IZR t / 4) = root 4 t) by (unfold root; f_equal; field).
  assert (H : hamming 4 t = (0.54 - 0.46 * fst (root 4 t))%R).
  { unfold hamming. zcase. reflexivity. }
  rewrite E, H. destruct (Z.leb_spec 0 t), (Z.ltb_spec t 4); try lia. cbn [andb].
  assert (C : t = 0 \/ t = 1 \/ t = 2 \/ t = 3) by lia.
  destruct C as [->|[->|[->| ->]]]; rewrite ?root_0, ?root_4_1, ?root_4_2, ?root_4_3; apply cplx_eq; cbn; lra.
Qed.

Lemma csum_1 f : csum 1 f = f 0.
Proof. change 1 with (0 + 1). rewrite csum_S, csum_0 by lia. ring. Qed.
Lemma csum_3 f : csum 3 f = cadd (cadd (f 0) (f 1)) (f 2).
Proof. change 3 with (0 + 1 + 1 + 1). rewrite !csum_S, csum_0 by lia. cbn [Z.add Pos.add Pos.succ]. ring. Qed.
Lemma csum_4 f : csum 4 f = cadd (cadd (cadd (f 0) (f 1)) (f 2)) (f 3).
Proof. change 4 with (0 + 1 + 1 + 1 + 1). rewrite !csum_S, csum_0 by lia. cbn [Z.add Pos.add Pos.succ]. ring. Qed.

Lemma small_kernel b : 1 <= b <= 3 -> kernel_bin 4 1 1 4 0 b = (if b =? 1 then (-54/100, 0) else if b =? 2 then (-23/100, 0) else (0, 0))%R.
Proof.
  intros Hb. unfold kernel_bin. rewrite spectrum_cdft by lia. unfold cdft. rewrite csum_4. cbn [sg].
  unfold rotated. change (4 / 2) with 2. cbn [Z.add Pos.add Pos.succ].
  change (2 mod 4) with 2. change (3 mod 4) with 3. change (4 mod 4) with 0. change (5 mod 4) with 1.
  rewrite !small_atom_ok by lia.
  rewrite <- !(root_mod 4 (-1 * _)) by lia.
  assert (C : b = 1 \/ b = 2 \/ b = 3) by lia.
  destruct C as [->|[->| ->]];
  match goal with |- context [root 4 ?a] => idtac end;
  repeat match goal with |- context [root 4 (?a mod 4)] => let v := eval vm_compute in (a mod 4) in change (a mod 4) with v end;
  rewrite ?root_0, ?root_4_1, ?root_4_2, ?root_4_3; unfold small_atom; cbn [Z.eqb Pos.eqb]; apply cplx_eq; cbn; lra.
Qed.

Lemma cabs_real a : cabs (a, 0%R) = Rabs a.
Proof. apply cabs_re. Qed.

(** The transform of this configuration in numbers. *)
Lemma small_transform X : cq_bin 4 1 1 (1 / 10) 4 X 0 =
  cadd (cmul (cre (-135/1000)) (X 3)) (cmul (cre (-575/10000)) (X 2)).
Proof.
  unfold cq_bin. change (4 - 1) with 3. rewrite csum_3. change (0 + 1) with 1. change (1 + 1) with 2. change (2 + 1) with 3.
  change (4 - 1) with 3. change (4 - 2) with 2. change (4 - 3) with 1.
  assert (K1 : kept_bin 4 1 1 (1 / 10) 4 0 1 = cre (-135/1000)).
  { unfold kept_bin. rewrite small_kernel by lia. cbn [Z.eqb Pos.eqb]. rewrite cabs_real.
    destruct Rle_dec as [H|H].
    - rewrite Rabs_left in H by lra. rewrite Rabs_pos_eq in H by lra. lra.
    - apply cplx_eq; cbn; lra. }
  assert (K2 : kept_bin 4 1 1 (1 / 10) 4 0 2 = cre (-575/10000)).
  { unfold kept_bin. rewrite small_kernel by lia. cbn [Z.eqb Pos.eqb]. rewrite cabs_real.
    destruct Rle_dec as [H|H].
    - rewrite Rabs_left in H by lra. rewrite Rabs_pos_eq in H by lra. lra.
    - apply cplx_eq; cbn; lra. }
  assert (K3 : kept_bin 4 1 1 (1 / 10) 4 0 3 = c0).
  { unfold kept_bin. rewrite small_kernel by lia. cbn [Z.eqb Pos.eqb]. rewrite cabs_real.
    destruct Rle_dec as [H|H]; auto. contradict H. rewrite Rabs_R0. apply Rabs_pos. }
  rewrite K1, K2, K3. ring.
Qed.

(** The overloads differ, even with an array long enough: a frame and an object with results -0.135 and 0. *)
Theorem cq_overloads_agree_refuted :
  exists o fre fim fft d ore oim d',
    cq_uses small true o /\ q_len o = 4 /\ q_uk o = 1 /\ zlen fre = 4 /\ zlen fim = 4 /\ zlen fft = 8 /\ zlen d = 3 /\
    (forall b, 0 <= b < 4 -> zn 0%R fft (2 * b) = zn 0%R fre b /\ zn 0%R fft (2 * b + 1) = zn 0%R fim b) /\
    cq_process o fre fim [0%R] [0%R] = OK (ore, oim) /\ interleaved o fft d = OK d' /\
    zn 0%R ore 0 = (-135 / 1000)%R /\ zn 0%R d' 0 = 0%R.
Proof.
  destruct small_object as (o & U & Hu & Hn).
  pose (fre := [0; 0; 0; 1]%R). pose (fim := [0; 0; 0; 0]%R). pose (fft := [0; 0; 0; 0; 0; 0; 1; 0]%R). pose (d := [0; 0; 0]%R).
  destruct (cq_product small o fre fim [0%R] [0%R] small_usable U) as (a & b & E & (_ & P & _) & _);
    try (rewrite ?Hn, ?Hu; cbv; congruence).
  assert (F : forall b, 0 <= b < 4 -> zn 0%R fft (2 * b) = zn 0%R fre b /\ zn 0%R fft (2 * b + 1) = zn 0%R fim b).
  { intros k Hk. assert (C : k = 0 \/ k = 1 \/ k = 2 \/ k = 3) by lia. destruct C as [->|[->|[->| ->]]]; split; reflexivity. }
  destruct (cq_interleaved_off_by_one small o fre fim fft d small_usable U) as (d' & E' & V);
    try (rewrite ?Hn, ?Hu; cbv; congruence).
  { rewrite Hn. exact F. }
  exists o, fre, fim, fft, d, a, b, d'. splits; auto.
  - rewrite P by lia. rewrite Hn. cbn [small c_fs c_min c_bpo c_thresh]. rewrite small_transform.
    unfold frame. change (zn 0%R fre 3) with 1%R. change (zn 0%R fre 2) with 0%R. change (zn 0%R fim 3) with 0%R. change (zn 0%R fim 2) with 0%R.
    cbn. lra.
  - specialize (V 0 ltac:(lia)). rewrite Hn in V. cbn [small c_fs c_min c_bpo c_thresh] in V. rewrite small_transform in V.
    apply (f_equal fst) in V. cbn [fst Z.mul] in V. rewrite V.
    change (3 - 1) with 2. change (2 - 1) with 1.
    unfold frame. change (zn 0%R fre 1) with 0%R. change (zn 0%R fre 2) with 0%R. change (zn 0%R fim 1) with 0%R. change (zn 0%R fim 2) with 0%R.
    cbn. lra.
Qed.
