(** The unwrapped phase in doubles. *)
From Coq Require Import ZArith Reals List Lia Lra Psatz.
From Flocq Require Import Core.
From Flocq.IEEE754 Require Import BinarySingleNaN.
From Verif.Base Require Import Imp Dbl Double Loops.
From Verif.Maths Require Import DoubleModel DoubleSpec DoublePi DoubleProofs.
From Verif.Vocoder Require Import PvSpec PvDouble PvDoubleSpec.
Import ListNotations.
Open Scope R_scope.

Lemma mono_uro a b : a <= b -> uro * a <= uro * b.
Proof. intros. apply Rmult_le_compat_l; [left; apply uro_pos|auto]. Qed.

(** One frame, one bin. *)
Section Step.
  Context (W B : R) (HW : 4 <= W) (HW' : W <= 8388608) (HB : W <= B) (HB' : B <= 281474976710656).
  Context (om ph th un : double) (Fo : finite om) (Fp : finite ph) (Ft : finite th) (Fu : finite un).
  Context (Bo : Rabs (dval om) <= W) (Bp : Rabs (dval ph) <= W) (Bt : Rabs (dval th) <= 4) (Bu : Rabs (dval un) <= B).
  Notation un' := (dadd (dadd un om) (dprincarg (dsub th (dadd ph om)))).

  Lemma unwrap_step :
    finite un' /\ Rabs (dval un') <= B + 2 * W /\
    Rabs (dval un' - (dval un + dval om)) <= PI + uro * (54 * W + 21 / 10 * B) /\
    exists k : Z, Rabs (dval un' - dval th - (dval un - dval ph) - IZR k * (2 * PI)) <= uro * (54 * W + 21 / 10 * B).
  Proof.
    pose proof uro_pos as U0. pose proof uro_val as UV. pose proof pi_bounds as PB.
    set (u := uro) in *.
    assert (UW : u * W <= / 100000000) by (rewrite UV; lra). assert (UB : u * B <= 4 / 100) by (rewrite UV; lra).
    assert (UW0 : u * 4 <= u * W) by (apply Rmult_le_compat_l; lra). assert (UB0 : u * W <= u * B) by (apply Rmult_le_compat_l; lra).
    (* expected *)
    assert (B1 : Rabs (dval ph + dval om) <= 2 * W) by (eapply Rle_trans; [apply Rabs_triang|]; lra).
    destruct (dadd_ok ph om Fp Fo) as [F1 V1].
    { apply (small_huge _ 60); [|lia]. change (bpow radix2 60) with 1152921504606846976. lra. }
    set (ex := dadd ph om) in *.
    pose proof (rnd_le_bound _ (2 * W) ltac:(lra) B1) as E1. rewrite <- V1 in E1. fold u in E1.
    assert (B1' : Rabs (dval ex) <= 201 / 100 * W) by (pose proof (near' _ _ _ _ E1 B1); lra).
    (* difference *)
    assert (B2 : Rabs (dval th - dval ex) <= 301 / 100 * W).
    { unfold Rminus. eapply Rle_trans; [apply Rabs_triang|]. rewrite Rabs_Ropp. lra. }
    destruct (dsub_ok th ex Ft F1) as [F2 V2].
    { apply (small_huge _ 60); [|lia]. change (bpow radix2 60) with 1152921504606846976. lra. }
    set (df := dsub th ex) in *.
    pose proof (rnd_le_bound _ (301 / 100 * W) ltac:(lra) B2) as E2. rewrite <- V2 in E2. fold u in E2.
    assert (B2' : Rabs (dval df) <= 302 / 100 * W) by (pose proof (near' _ _ _ _ E2 B2); lra).
    (* princarg *)
    destruct (princarg_doubles df F2) as (F3 & k & E3 & B3).
    { change limit with 281474976710656. lra. }
    fold u in E3, B3. set (er := dprincarg df) in *.
    assert (X3 : 10 * u * (Rabs (dval df) + 4) <= 403 / 10 * (u * W)).
    { replace (10 * u * (Rabs (dval df) + 4)) with (u * (10 * (Rabs (dval df) + 4))) by ring.
      replace (403 / 10 * (u * W)) with (u * (403 / 10 * W)) by field. apply Rmult_le_compat_l; lra. }
    assert (B3' : Rabs (dval er) <= 32 / 10) by lra.
    (* un + om *)
    assert (B4 : Rabs (dval un + dval om) <= B + W) by (eapply Rle_trans; [apply Rabs_triang|]; lra).
    destruct (dadd_ok un om Fu Fo) as [F4 V4].
    { apply (small_huge _ 60); [|lia]. change (bpow radix2 60) with 1152921504606846976. lra. }
    set (s := dadd un om) in *.
    pose proof (rnd_le_bound _ (B + W) ltac:(lra) B4) as E4. rewrite <- V4 in E4. fold u in E4.
    assert (E4' : Rabs (dval s - (dval un + dval om)) <= 1001 / 1000 * (u * B) + 1001 / 1000 * (u * W)) by (eapply Rle_trans; [exact E4|]; lra).
    assert (B4' : Rabs (dval s) <= B + W + / 10) by (pose proof (near' _ _ _ _ E4' B4); lra).
    (* un' *)
    assert (B5 : Rabs (dval s + dval er) <= B + 2 * W - 6 / 10) by (eapply Rle_trans; [apply Rabs_triang|]; lra).
    destruct (dadd_ok s er F4 F3) as [F5 V5].
    { apply (small_huge _ 60); [|lia]. change (bpow radix2 60) with 1152921504606846976. lra. }
    set (v := dadd s er) in *.
    assert (B5' : Rabs (dval s + dval er) <= B + 2 * W) by lra.
    pose proof (rnd_le_bound _ (B + 2 * W) ltac:(lra) B5') as E5. rewrite <- V5 in E5. fold u in E5.
    assert (E5' : Rabs (dval v - (dval s + dval er)) <= 1001 / 1000 * (u * B) + 2002 / 1000 * (u * W)) by (eapply Rle_trans; [exact E5|]; lra).
    split; auto. split.
    { pose proof (near' _ _ _ _ E5' B5). lra. }
    replace (u * (54 * W + 21 / 10 * B)) with (54 * (u * W) + 21 / 10 * (u * B)) by ring.
    apply Rabs_le_inv in E1, E2, E3, B3, E4', E5'. split.
    - apply Rabs_le. lra.
    - exists k. apply Rabs_le. lra.
  Qed.
End Step.

(** The advance of a bin. *)
Lemma omega_bound n hop i : (2 <= n < 2 ^ 31)%Z -> (1 <= hop <= 1048576)%Z -> (0 <= i <= n / 2)%Z ->
  finite (dpv_omega n hop i) /\ Rabs (dval (dpv_omega n hop i)) <= 4 * IZR hop /\
  Rabs (dval (dpv_omega n hop i) - advance n hop i) <= 12 * (uro * IZR hop).
Proof.
  intros Hn Hh Hi. pose proof uro_pos as U0. pose proof uro_val as UV. pose proof pi_bounds as PB. pose proof dpi_error as PE.
  assert (Hi2 : (2 * i <= n)%Z) by (pose proof (Z.mul_div_le n 2); lia).
  destruct (dint_ok 2 eq_refl) as [F2 V2].
  destruct (dint_ok hop) as [Fh Vh]; [unfold two53; lia|].
  destruct (dint_ok i) as [Fi Vi]; [unfold two53; lia|].
  destruct (dint_ok n) as [Fn Vn]; [unfold two53; lia|].
  assert (RH : 1 <= IZR hop <= 1048576) by (split; apply IZR_le; lia).
  assert (RI : 0 <= IZR i) by (apply IZR_le; lia). assert (RN : 2 <= IZR n <= 2147483648) by (split; apply IZR_le; lia).
  assert (RI2 : 2 * IZR i <= IZR n) by (rewrite <- mult_IZR; apply IZR_le; lia).
  set (p := dval dpi) in *. assert (HP : 31415 / 10000 <= p <= 31416 / 10000) by lra.
  assert (Y : finite (dmul (dint 2) dpi) /\ dval (dmul (dint 2) dpi) = 2 * p).
  { destruct (dmul_ok (dint 2) dpi F2 dpi_finite) as [Fm Vm].
    - rewrite V2. fold p. apply (small_huge _ 10); [|lia]. change (bpow radix2 10) with 1024. apply Rabs_le. lra.
    - split; auto. rewrite Vm, V2. unfold p. rewrite dpi_val.
      replace (2 * (7074237752028440 * bpow radix2 (-51))) with (IZR 7074237752028440 * bpow radix2 (-50)).
      + unfold rnd. apply round_generic; [apply valid_rnd_N|]. apply generic_format_FLT.
        exists (Float radix2 7074237752028440 (-50)); [reflexivity|cbn; lia|cbn; lia].
      + change (bpow radix2 (-50)) with (/ 1125899906842624). change (bpow radix2 (-51)) with (/ 2251799813685248). lra. }
  destruct Y as [Fy Vy]. unfold dpv_omega. set (y := dmul (dint 2) dpi) in *.
  set (h := IZR hop) in *. set (x := IZR i) in *. set (m := IZR n) in *. set (u := uro) in *.
  assert (UH : 0 < u * h) by (apply Rmult_lt_0_compat; lra). assert (UH' : u * h <= / 1000000000) by (rewrite UV; lra).
  (* 2 pi hop *)
  assert (B1 : 0 <= 2 * p * h <= 62832 / 10000 * h) by (split; nra).
  destruct (dmul_ok y (dint hop) Fy Fh) as [F1 V1].
  { rewrite Vy, Vh. fold h. apply (small_huge _ 60); [|lia]. change (bpow radix2 60) with 1152921504606846976. rewrite Rabs_pos_eq; lra. }
  rewrite Vy, Vh in V1. fold h in V1. set (a := dmul y (dint hop)) in *.
  assert (E1 : Rabs (rnd (2 * p * h) - 2 * p * h) <= 1001 / 1000 * u * (62832 / 10000 * h)) by (apply rnd_le_bound; [lra|rewrite Rabs_pos_eq; lra]).
  rewrite <- V1 in E1. assert (E1' : Rabs (dval a - 2 * p * h) <= 629 / 100 * (u * h)) by (eapply Rle_trans; [exact E1|]; lra).
  apply Rabs_le_inv in E1'. assert (A0 : 0 <= dval a <= 63 / 10 * h) by (split; nra).
  (* times i *)
  assert (B2 : 0 <= dval a * x <= 315 / 100 * (h * m)) by (split; nra).
  assert (HM : 2 <= h * m) by nra. assert (HM' : h * m <= 1048576 * 2147483648) by nra.
  destruct (dmul_ok a (dint i) F1 Fi) as [F3 V3].
  { rewrite Vi. fold x. apply (small_huge _ 60); [|lia]. change (bpow radix2 60) with 1152921504606846976. rewrite Rabs_pos_eq; lra. }
  rewrite Vi in V3. fold x in V3. set (b := dmul a (dint i)) in *.
  assert (E3 : Rabs (rnd (dval a * x) - dval a * x) <= 1001 / 1000 * u * (315 / 100 * (h * m))) by (apply rnd_le_bound; [lra|rewrite Rabs_pos_eq; lra]).
  rewrite <- V3 in E3. assert (E3' : Rabs (dval b - dval a * x) <= 316 / 100 * (u * h) * m).
  { eapply Rle_trans; [exact E3|]. assert (0 < u * h * m) by (apply Rmult_lt_0_compat; lra). lra. }
  (* over n *)
  assert (IM : / m <= / 2) by (apply Rinv_le_contravar; lra). assert (IM0 : 0 < / m) by (apply Rinv_0_lt_compat; lra).
  assert (E3d : Rabs (dval b / m - dval a * (x / m)) <= 316 / 100 * (u * h)).
  { replace (dval b / m - dval a * (x / m)) with ((dval b - dval a * x) * / m) by (field; lra).
    rewrite Rabs_mult, (Rabs_pos_eq (/ m)) by lra.
    replace (316 / 100 * (u * h)) with (316 / 100 * (u * h) * m * / m) by (field; lra).
    apply Rmult_le_compat_r; lra. }
  assert (XM : 0 <= x / m <= / 2).
  { unfold Rdiv. split; [nra|]. replace (/ 2) with (m / 2 * / m) by (field; lra). apply Rmult_le_compat_r; lra. }
  set (z := x / m) in *. apply Rabs_le_inv in E3d.
  assert (AZ : 0 <= dval a * z <= 315 / 100 * h) by (split; nra).
  assert (B4 : Rabs (dval b / m) <= 316 / 100 * h) by (apply Rabs_le; lra).
  destruct (ddiv_ok b (dint n) F3 ltac:(rewrite Vn; fold m; lra)) as [F5 V5].
  { rewrite Vn. fold m. apply (small_huge _ 60); [|lia]. change (bpow radix2 60) with 1152921504606846976. lra. }
  rewrite Vn in V5. fold m in V5. set (o := ddiv b (dint n)) in *.
  pose proof (rnd_le_bound _ (316 / 100 * h) ltac:(lra) B4) as E5. rewrite <- V5 in E5. fold u in E5.
  assert (E5' : Rabs (dval o - dval b / m) <= 317 / 100 * (u * h)) by (eapply Rle_trans; [exact E5|]; lra).
  split; auto. split.
  - pose proof (near' _ _ _ _ E5' B4). lra.
  - replace (advance n hop i) with (2 * PI * h * z) by (unfold advance, z; fold h x m; field; lra).
    apply Rabs_le_inv in E5'.
    assert (G1 : Rabs ((dval a - 2 * p * h) * z) <= 315 / 100 * (u * h)).
    { rewrite Rabs_mult, (Rabs_pos_eq z) by lra. assert (Rabs (dval a - 2 * p * h) <= 629 / 100 * (u * h)) by (apply Rabs_le; lra).
      pose proof (Rabs_pos (dval a - 2 * p * h)). nra. }
    assert (G2 : Rabs ((2 * p * h - 2 * PI * h) * z) <= 12 / 10 * (u * h)).
    { replace ((2 * p * h - 2 * PI * h) * z) with ((p - PI) * (h * (2 * z))) by ring.
      rewrite Rabs_mult, (Rabs_pos_eq (h * (2 * z))) by nra.
      assert (Rabs (p - PI) <= 12 / 10 * u) by (apply Rabs_le; rewrite UV; lra).
      replace (12 / 10 * (u * h)) with (12 / 10 * u * (h * 1)) by ring.
      apply Rmult_le_compat; [apply Rabs_pos|nra|auto|]. apply Rmult_le_compat_l; lra. }
    apply Rabs_le_inv in G1, G2. apply Rabs_le.
    assert (EQ : dval o - 2 * PI * h * z = (dval o - dval b / m) + (dval b / m - dval a * z) + (dval a - 2 * p * h) * z + (2 * p * h - 2 * PI * h) * z) by ring.
    rewrite EQ. lra.
Qed.

(** The loops. *)
Section Loops.
  Context (n hop : Z).
  Notation m := (n / 2)%Z.
  Open Scope Z_scope.

  Lemma reset_runs ph un : 0 <= m -> zlen ph = m + 1 -> zlen un = m + 1 ->
    exists ph' un', dpv_reset n hop ph un = OK (ph', un') /\ zlen ph' = m + 1 /\ zlen un' = m + 1 /\
      forall k, 0 <= k <= m -> zn d0 ph' k = dneg (dpv_omega n hop k) /\ zn d0 un' k = dneg (dpv_omega n hop k).
  Proof.
    intros H L1 L2. unfold dpv_reset.
    match goal with |- context [for_up 0 (m + 1) ?B ?S] =>
      destruct (for_up_inv (fun i (x : list double * list double) => let '(ph, un) := x in
        zlen ph = m + 1 /\ zlen un = m + 1 /\
        (forall k, 0 <= k < i -> zn d0 ph k = dneg (dpv_omega n hop k) /\ zn d0 un k = dneg (dpv_omega n hop k))) 0 (m + 1) B S)
        as ((p' & u') & E & I1 & I2 & I3); [lia| | |] end.
    - splits; auto; lia.
    - intros i (p & u) Hi (I1 & I2 & I3). rewrite aset_OK by lia. ret. rewrite aset_OK by lia. ret.
      eexists; split; [reflexivity|]. cbv beta iota. splits; try (zl; lia).
      intros k Hk. rewrite !zn_upd by lia. destruct (Z.eqb_spec k i) as [->|]; [auto|apply I3; lia].
    - exists p', u'. splits; auto. intros k Hk. apply I3. lia.
  Qed.

  Definition nextv (ph un th : double) (k : Z) : double :=
    dadd (dadd un (dpv_omega n hop k)) (dprincarg (dsub th (dadd ph (dpv_omega n hop k)))).

  Lemma unwrap_runs theta ph un out : 0 <= m -> zlen ph = m + 1 -> zlen un = m + 1 -> m + 1 <= zlen theta -> m + 1 <= zlen out ->
    exists ph' un' out', dpv_unwrap n hop theta ph un out = OK (ph', un', out') /\ zlen ph' = m + 1 /\ zlen un' = m + 1 /\
      (forall k, 0 <= k <= m -> zn d0 ph' k = zn d0 theta k /\ zn d0 un' k = zn d0 out' k /\
        zn d0 out' k = nextv (zn d0 ph k) (zn d0 un k) (zn d0 theta k) k) /\
      zlen out' = zlen out /\ forall k, m < k -> zn d0 out' k = zn d0 out k.
  Proof.
    intros H L1 L2 L3 L4. unfold dpv_unwrap.
    match goal with |- context [for_up 0 (m + 1) ?B ?S] =>
      destruct (for_up_inv (fun i (x : list double * list double * list double) => let '(p, u, o) := x in
        zlen p = m + 1 /\ zlen u = m + 1 /\ zlen o = zlen out /\
        (forall k, 0 <= k < i -> zn d0 p k = zn d0 theta k /\ zn d0 u k = zn d0 o k /\
          zn d0 o k = nextv (zn d0 ph k) (zn d0 un k) (zn d0 theta k) k) /\
        (forall k, i <= k <= m -> zn d0 p k = zn d0 ph k /\ zn d0 u k = zn d0 un k) /\
        (forall k, i <= k -> zn d0 o k = zn d0 out k)) 0 (m + 1) B S)
        as (((p' & u') & o') & E & I1 & I2 & I3 & I4 & I5 & I6); [lia| | |] end.
    - splits; auto; lia.
    - intros i ((p & u) & o) Hi (I1 & I2 & I3 & I4 & I5 & I6).
      rewrite !(aget_OK d0) by lia. ret. ret. ret. rewrite aset_OK by lia. ret. rewrite aset_OK by lia. ret.
      rewrite (aget_OK d0) by (zl; lia). ret. rewrite zn_upd by lia. rewrite Z.eqb_refl. rewrite aset_OK by lia. ret.
      eexists; split; [reflexivity|]. cbv beta iota. destruct (I5 i) as (P1 & P2); [lia|].
      splits; try (zl; lia).
      + intros k Hk. rewrite !zn_upd by lia. destruct (Z.eqb_spec k i) as [->|]; [|apply I4; lia].
        unfold nextv. rewrite P1, P2. splits; auto.
      + intros k Hk. rewrite !zn_upd by lia. destruct (Z.eqb_spec k i); [lia|]. apply I5; lia.
      + intros k Hk. rewrite !zn_upd by lia. destruct (Z.eqb_spec k i); [lia|]. apply I6; lia.
    - exists p', u', o'. split; [exact E|]. split; [exact I1|]. split; [exact I2|]. split; [|split; [exact I3|]]; intros k Hk; [apply I4|apply I6]; lia.
  Qed.
End Loops.

(** Frames. *)
Section Frames.
  Context (n hop : Z) (Hn : (2 <= n < 2 ^ 31)%Z) (Hh : (1 <= hop <= 1048576)%Z).
  Notation m := (n / 2)%Z.
  Notation W := (4 * IZR hop).

  (** What holds of one bin before frame t. *)
  Definition bin_ok (t k : Z) (prev : R) (ph un : double) : Prop :=
    finite ph /\ finite un /\ Rabs (dval ph) <= W /\ Rabs (dval un) <= IZR (2 * t + 1) * W /\
    Rabs (dval un - prev) <= 12 * (uro * IZR hop) /\
    near_angle (12 * uro * IZR hop * IZR (t * (t + 20))) (dval un) (dval ph).

  Lemma hop_real : 1 <= IZR hop <= 1048576.
  Proof. split; apply IZR_le; lia. Qed.

  Lemma bin_step t k prev ph un th : (0 <= t)%Z -> ((2 * t + 1) * (4 * hop) <= 281474976710656)%Z -> (0 <= k <= m)%Z ->
    bin_ok t k prev ph un -> finite th -> Rabs (dval th) <= 4 ->
    let v := nextv n hop ph un th k in
    finite v /\ unwraps_within (tolerance hop t) n hop k prev (dval th) (dval v) /\ bin_ok (t + 1) k (dval v) th v.
  Proof.
    intros Ht Hb Hk (Fp & Fu & Bp & Bu & Pv & K & NK) Ft Bt v.
    pose proof hop_real as RH. pose proof uro_pos as U0.
    destruct (omega_bound n hop k) as (Fo & Bo & Eo); auto.
    assert (RB : IZR (2 * t + 1) * W <= 281474976710656).
    { replace W with (IZR (4 * hop)) by (rewrite mult_IZR; reflexivity). rewrite <- mult_IZR. apply IZR_le. lia. }
    assert (T0 : 0 <= IZR t) by (apply IZR_le; lia).
    assert (TB : IZR (2 * t + 1) = 2 * IZR t + 1) by (rewrite plus_IZR, mult_IZR; reflexivity).
    destruct (unwrap_step W (IZR (2 * t + 1) * W)) with (om := dpv_omega n hop k) (ph := ph) (th := th) (un := un)
      as (Fv & Bv & Iv & j & Cv); auto; try lra.
    { rewrite TB. nra. }
    change (dadd (dadd un (dpv_omega n hop k)) (dprincarg (dsub th (dadd ph (dpv_omega n hop k))))) with v in *.
    set (h := IZR hop) in *. set (s := IZR t) in *. set (u := uro) in *.
    assert (UH : 0 < u * h) by (apply Rmult_lt_0_compat; lra).
    assert (USH : 0 <= u * h * s) by (apply Rmult_le_pos; lra). assert (USS : 0 <= u * h * s * s) by (apply Rmult_le_pos; lra).
    assert (EB : u * (54 * (4 * h) + 21 / 10 * (IZR (2 * t + 1) * (4 * h))) = 2244 / 10 * (u * h) + 168 / 10 * (u * h * s)).
    { rewrite TB. field. }
    rewrite EB in Iv, Cv.
    assert (TOL : tolerance hop t = 12 * (u * h * s * s) + 264 * (u * h * s) + 252 * (u * h)).
    { unfold tolerance. rewrite mult_IZR, !plus_IZR. fold h s u. ring. }
    assert (OLD : 12 * u * h * IZR (t * (t + 20)) = 12 * (u * h * s * s) + 240 * (u * h * s)).
    { rewrite mult_IZR, plus_IZR. fold s. ring. }
    rewrite OLD in NK. apply Rabs_le_inv in Iv, Cv, NK, Eo, Pv.
    assert (NV : near_angle (tolerance hop t) (dval v) (dval th)).
    { exists (K + j)%Z. rewrite plus_IZR, TOL. apply Rabs_le. lra. }
    split; auto. split.
    - split; auto. rewrite TOL. apply Rabs_le. lra.
    - unfold bin_ok. splits; auto.
      + fold h; lra.
      + fold h. replace (2 * (t + 1) + 1)%Z with (2 * t + 1 + 2)%Z by ring. rewrite plus_IZR. lra.
      + unfold Rminus. rewrite Rplus_opp_r, Rabs_R0. fold u h. lra.
      + replace (t + 1 + 20)%Z with (t + 21)%Z by ring. exact NV.
  Qed.

  Lemma frames_run : forall frames t ph un prev, (0 <= t)%Z ->
    ((2 * (t + Z.of_nat (length frames)) + 1) * (4 * hop) <= 281474976710656)%Z ->
    phase_frames (m + 1) frames -> zlen ph = (m + 1)%Z -> zlen un = (m + 1)%Z ->
    (forall k, (0 <= k <= m)%Z -> bin_ok t k (prev k) (zn d0 ph k) (zn d0 un k)) ->
    exists outs, dpv_frames n hop ph un frames = OK outs /\
      forall k, (0 <= k <= m)%Z -> tracks n hop k t (prev k) frames outs.
  Proof.
    assert (M0 : (0 <= m)%Z) by (apply Z.div_pos; lia).
    induction frames as [|[theta out] frames IH]; intros t ph un prev Ht Hb PF L1 L2 B.
    - exists []. split; auto. intros; exact I.
    - inversion PF as [|? ? (P1 & P2 & P3) PF']; subst. cbn [fst snd] in P1, P2, P3. cbn [length] in Hb.
      destruct (unwrap_runs n hop theta ph un out) as (ph' & un' & o' & E & L1' & L2' & V & _); auto.
      assert (S : forall k, (0 <= k <= m)%Z -> finite (zn d0 o' k) /\
        unwraps_within (tolerance hop t) n hop k (prev k) (dval (zn d0 theta k)) (dval (zn d0 o' k)) /\
        bin_ok (t + 1) k (dval (zn d0 o' k)) (zn d0 theta k) (zn d0 o' k)).
      { intros k Hk. destruct (V k Hk) as (_ & _ & ->). destruct (P3 k) as [Ft Bt]; [lia|].
        apply bin_step; auto. nia. }
      destruct (IH (t + 1)%Z ph' un' (fun k => dval (zn d0 o' k))) as (outs & EO & T); auto; [lia|nia| |].
      { intros k Hk. destruct (V k Hk) as (-> & -> & _). apply S; auto. }
      exists (o' :: outs). split.
      + cbn [dpv_frames]. rewrite E. ret. rewrite EO. ret. reflexivity.
      + intros k Hk. cbn [tracks]. destruct (S k Hk) as (S1 & S2 & _). splits; auto; apply T; auto.
  Qed.

  Lemma reset_tracks frames ph0 un0 : ((2 * Z.of_nat (length frames) + 1) * (4 * hop) <= 281474976710656)%Z ->
    phase_frames (m + 1) frames -> zlen ph0 = (m + 1)%Z -> zlen un0 = (m + 1)%Z ->
    exists ph un outs, dpv_reset n hop ph0 un0 = OK (ph, un) /\ dpv_frames n hop ph un frames = OK outs /\
      forall k, (0 <= k <= m)%Z -> tracks n hop k 0 (- advance n hop k) frames outs.
  Proof.
    intros Hb PF L L0. assert (M0 : (0 <= m)%Z) by (apply Z.div_pos; lia).
    destruct (reset_runs n hop _ _ M0 L L0) as (ph & un & E & L1 & L2 & V).
    destruct (frames_run frames 0%Z ph un (fun k => - advance n hop k)) as (outs & EO & T); auto; [lia| |].
    - intros k Hk. destruct (V k Hk) as [-> ->]. destruct (omega_bound n hop k) as (Fo & Bo & Eo); auto.
      pose proof hop_real as RH. pose proof uro_pos as U0.
      assert (ND : dval (dneg (dpv_omega n hop k)) = - dval (dpv_omega n hop k)) by apply B2R_Bopp.
      assert (NF : finite (dneg (dpv_omega n hop k))) by (unfold finite, dneg; rewrite is_finite_Bopp; exact Fo).
      unfold bin_ok. rewrite ND, Rabs_Ropp. splits; auto.
      + replace (IZR (2 * 0 + 1)) with 1 by reflexivity. lra.
      + replace (- dval (dpv_omega n hop k) - - advance n hop k) with (- (dval (dpv_omega n hop k) - advance n hop k)) by ring.
        now rewrite Rabs_Ropp.
      + exists 0%Z. rewrite Rmult_0_l, Rplus_0_r. unfold Rminus. rewrite Rplus_opp_r, Rabs_R0. cbn. lra.
    - exists ph, un, outs. auto.
  Qed.

  Lemma run_tracks frames : ((2 * Z.of_nat (length frames) + 1) * (4 * hop) <= 281474976710656)%Z ->
    phase_frames (m + 1) frames ->
    exists outs, dpv_run n hop frames = OK outs /\
      forall k, (0 <= k <= m)%Z -> tracks n hop k 0 (- advance n hop k) frames outs.
  Proof.
    intros Hb PF. assert (M0 : (0 <= m)%Z) by (apply Z.div_pos; lia).
    assert (L : zlen (repeat d0 (Z.to_nat (m + 1))) = (m + 1)%Z) by (unfold zlen; rewrite repeat_length; lia).
    destruct (reset_tracks frames _ _ Hb PF L L) as (ph & un & outs & E & EO & T).
    exists outs. split; auto. unfold dpv_run. cbv zeta. rewrite E. ret. exact EO.
  Qed.
End Frames.

Lemma case_frames : phase_frames (2 / 2 + 1) [([dint 1; dint (-3)], [d0; d0]); ([dint 2; dint 3], [d0; d0; d0])].
Proof.
  assert (S : forall z, (Z.abs z <= 4)%Z -> finite (dint z) /\ Rabs (dval (dint z)) <= 4).
  { intros z Hz. destruct (dint_ok z) as [F V]; [unfold two53; lia|]. split; auto. rewrite V, <- abs_IZR. now apply IZR_le. }
  change (2 / 2 + 1)%Z with 2%Z. unfold phase_frames.
  do 2 (apply Forall_cons; [cbn [fst snd]; split; [unfold zlen; cbn [length]; lia|split; [unfold zlen; cbn [length]; lia|]];
    intros k Hk; assert (KK : k = 0%Z \/ k = 1%Z) by lia; destruct KK as [-> | ->]; apply S; lia|]). constructor.
Qed.
