(** Proofs about the phase vocoder. *)
From Coq Require Import Reals ZArith Lia Lra List Bool Ring.
From Verif.Base Require Import Imp Sums RealOps Loops.
From Verif.Maths Require Import RealModel RealSpec RealProofs.
From Verif.Fft Require Import Cplx FftModel FftSpec FftBfly FftWork FftProofs FftrModel FftrProofs FftReal FftResults.
From Verif.Vocoder Require Import PvModel PvSpec.
Import ListNotations.
Open Scope Z_scope.

(** *** atan2 *)
Lemma sqrt_sum_pos x y : (x <> 0 \/ y <> 0 -> 0 < sqrt (x * x + y * y))%R.
Proof. intros H. apply sqrt_lt_R0. destruct H; nra. Qed.

Lemma cos_atan_pos x : (cos (atan x) = / sqrt (1 + x * x) /\ sin (atan x) = x / sqrt (1 + x * x))%R.
Proof.
  pose proof (cos_atan x) as C. pose proof (sin_atan x) as S. unfold Rsqr in *. rewrite C, S. split; [|reflexivity].
  unfold Rdiv. ring.
Qed.

Lemma sqrt_quot x y : (0 < x -> sqrt (x * x + y * y) = x * sqrt (1 + y / x * (y / x)))%R.
Proof.
  intros H. replace (x * x + y * y)%R with ((x * x) * (1 + y / x * (y / x)))%R by (field; lra).
  rewrite sqrt_mult; [|nra|]. 2:{ assert (0 <= y / x * (y / x))%R by nra. lra. }
  rewrite sqrt_square; lra.
Qed.

Lemma atan2_polar re im : polar re im (sqrt (re * re + im * im)) (atan2 im re).
Proof.
  unfold polar. pose proof PI_RGT_0 as P. split; [apply sqrt_pos|].
  assert (N : forall a b, a <> 0%R -> sqrt (a * a + b * b) = 0%R -> False).
  { intros a b Ha E. pose proof (sqrt_sum_pos a b (or_introl Ha)). lra. }
  assert (Q : forall t, (1 <= 1 + t * t)%R) by (intros; nra).
  assert (Qs : forall t, (0 < sqrt (1 + t * t))%R) by (intros t; apply sqrt_lt_R0; specialize (Q t); lra).
  unfold atan2. destruct (Rltb_spec 0 re) as [H|H].
  - destruct (cos_atan_pos (im / re)) as (-> & ->). rewrite (sqrt_quot re im H).
    pose proof (atan_bound (im / re)) as B. specialize (Qs (im / re)%R).
    splits; try lra; try (field; lra). intros E. exfalso. rewrite <- (sqrt_quot re im H) in E. apply (N re im); auto; lra.
  - destruct (Rltb_spec re 0) as [G|G].
    + assert (E : sqrt (re * re + im * im) = (- re * sqrt (1 + im / re * (im / re)))%R).
      { replace (re * re + im * im)%R with ((- re) * (- re) + im * im)%R by ring. rewrite sqrt_quot by lra.
        do 3 f_equal. field. lra. }
      destruct (cos_atan_pos (im / re)) as (C & S). pose proof (atan_bound (im / re)) as B. specialize (Qs (im / re)%R).
      assert (Z0 : sqrt (re * re + im * im) = 0%R -> False) by (apply N; lra). rewrite E in *.
      destruct (Rleb_spec 0 im) as [I|I].
      * assert (A : (atan (im / re) <= 0)%R).
        { destruct (Req_dec im 0) as [->|I']; [replace (0 / re)%R with 0%R by (field; lra); rewrite atan_0; lra|].
          assert (im / re < 0)%R by (apply Rmult_lt_reg_r with (- re)%R; [lra|]; replace (im / re * - re)%R with (- im)%R by (field; lra); lra).
          apply atan_increasing in H0. rewrite atan_0 in H0. lra. }
        rewrite neg_cos, neg_sin, C, S. splits; try lra; try (field; lra); intros; exfalso; auto.
      * assert (A : (0 < atan (im / re))%R).
        { assert (0 < im / re)%R by (apply Rmult_lt_reg_r with (- re)%R; [lra|]; replace (im / re * - re)%R with (- im)%R by (field; lra); lra).
          apply atan_increasing in H0. rewrite atan_0 in H0. lra. }
        assert (X1 : cos (atan (im / re) - PI) = (- cos (atan (im / re)))%R) by (rewrite cos_minus, cos_PI, sin_PI; ring).
        assert (X2 : sin (atan (im / re) - PI) = (- sin (atan (im / re)))%R) by (rewrite sin_minus, cos_PI, sin_PI; ring).
        rewrite X1, X2, C, S. splits; try lra; try (field; lra); intros; exfalso; auto.
    + assert (re = 0)%R as -> by lra. replace (0 * 0 + im * im)%R with (im * im)%R by ring.
      destruct (Rltb_spec 0 im) as [I|I].
      * rewrite sqrt_square, cos_PI2, sin_PI2 by lra. splits; lra.
      * destruct (Rltb_spec im 0) as [J|J].
        -- replace (im * im)%R with (- im * - im)%R by ring. rewrite sqrt_square, cos_neg, sin_neg, cos_PI2, sin_PI2 by lra. splits; lra.
        -- assert (im = 0)%R as -> by lra. rewrite Rmult_0_l, sqrt_0. splits; lra.
Qed.

(** *** The half-frame rotation *)
Definition rotated (m : Z) (x : Z -> R) (j : Z) : R := if j <? m then x (j + m) else x (j - m).

Lemma root_alt m k : 1 <= m -> root (2 * m) (k * m) = cre (alternate k).
Proof.
  intros Hm. unfold alternate. destruct (Z.even k) eqn:E.
  - apply Z.even_spec in E. destruct E as [q ->]. replace (2 * q * m) with (0 + 2 * m * q) by lia.
    rewrite root_period, root_0 by lia. reflexivity.
  - assert (O : Z.odd k = true) by (rewrite <- Z.negb_even, E; reflexivity). apply Z.odd_spec in O. destruct O as [q ->].
    replace ((2 * q + 1) * m) with (m + 2 * m * q) by lia. rewrite root_period, (root_half (2 * m) m) by lia.
    apply cplx_eq; cbn; ring.
Qed.

Lemma cdft_rotated m x k : 1 <= m ->
  cdft false (2 * m) (fun j => cre (rotated m x j)) k = cmul (cre (alternate k)) (cdft false (2 * m) (fun j => cre (x j)) k).
Proof.
  intros Hm. rewrite <- (root_alt m k Hm). unfold cdft.
  assert (S2 : forall f, csum (2 * m) f = cadd (csum m f) (csum m (fun i => f (m + i)))).
  { intros f. replace (2 * m) with (m + m) by lia. apply csum_split; lia. }
  rewrite !S2.
  rewrite <- !csum_plus, <- csum_scal. apply csum_ext. intros j Hj. cbn [sg].
  unfold rotated. destruct (Z.ltb_spec j m); [|lia]. destruct (Z.ltb_spec (m + j) m); [lia|].
  replace (m + j - m) with j by lia. replace (j + m) with (m + j) by lia.
  assert (A : cmul (root (2 * m) (k * m)) (root (2 * m) (-1 * (k * (m + j)))) = root (2 * m) (-1 * (k * j))).
  { rewrite <- root_add. f_equal. lia. }
  assert (B : cmul (root (2 * m) (k * m)) (root (2 * m) (-1 * (k * j))) = root (2 * m) (-1 * (k * (m + j)))).
  { rewrite <- root_add. apply (root_cong _ _ _ k); lia. }
  set (r := root (2 * m) (k * m)) in *. set (u := root (2 * m) (-1 * (k * j))) in *.
  set (v := root (2 * m) (-1 * (k * (m + j)))) in *.
  transitivity (cadd (cmul (cre (x (m + j))) u) (cmul (cre (x j)) v)); [ring|]. rewrite <- A at 1. rewrite <- B at 2. ring.
Qed.

Lemma shift_ok m t : 1 <= m -> zlen t = 2 * m ->
  exists t', pv_shift (2 * m) t = OK t' /\ zlen t' = 2 * m /\ forall j, 0 <= j < 2 * m -> zn 0%R t' j = rotated m (zn 0%R t) j.
Proof.
  intros Hm L. unfold pv_shift. rewrite half_2m.
  match goal with |- context [for_up 0 m ?B ?S] =>
    destruct (for_up_inv (fun i s => zlen s = 2 * m /\ forall j, 0 <= j < 2 * m ->
      zn 0%R s j = if (j mod m <? i) then rotated m (zn 0%R t) j else zn 0%R t j) 0 m B S) as (s & E & I1 & I2); [lia| | |] end.
  - split; [auto|]. intros j Hj. pose proof (Z.mod_pos_bound j m ltac:(lia)). destruct (Z.ltb_spec (j mod m) 0); [lia|auto].
  - intros i s Hi (I1 & I2).
    assert (Mi : i mod m = i) by (apply Z.mod_small; lia).
    assert (Mim : (i + m) mod m = i) by (replace (i + m) with (i + 1 * m) by lia; rewrite Z.mod_add by lia; auto).
    rewrite !(aget_OK 0%R) by lia. ret. ret. rewrite aset_OK by lia. ret. rewrite aset_OK by (zl; lia).
    eexists; split; [reflexivity|]. rewrite !zlen_upd. split; [auto|]. intros j Hj. rewrite !zn_upd by (zl; lia).
    rewrite !I2 by lia. rewrite Mi, Mim. rewrite Z.ltb_irrefl.
    destruct (Z.eqb_spec j (i + m)) as [->|N1].
    + rewrite Mim. destruct (Z.ltb_spec i (i + 1)); [|lia]. unfold rotated. destruct (Z.ltb_spec (i + m) m); [lia|]. f_equal. lia.
    + destruct (Z.eqb_spec j i) as [->|N2].
      * rewrite Mi. destruct (Z.ltb_spec i (i + 1)); [|lia]. unfold rotated. destruct (Z.ltb_spec i m); [|lia]. reflexivity.
      * assert (j mod m <> i).
        { intros F. destruct (Z.lt_ge_cases j m) as [A|A]; [rewrite Z.mod_small in F by lia; lia|].
          replace j with (j - m + 1 * m) in F by lia. rewrite Z.mod_add, Z.mod_small in F by lia. lia. }
        destruct (Z.ltb_spec (j mod m) i), (Z.ltb_spec (j mod m) (i + 1)); auto; lia.
  - exists s. split; [exact E|]. split; [auto|]. intros j Hj. rewrite I2 by lia.
    pose proof (Z.mod_pos_bound j m ltac:(lia)). destruct (Z.ltb_spec (j mod m) m); [auto|lia].
Qed.

(** *** Unwrapping *)
Lemma unwraps_princarg n hop k un th th' : same_angle un th ->
  unwraps n hop k un th' (un + advance n hop k + princarg (th' - (th + advance n hop k))).
Proof.
  intros [a A]. destruct (princarg_spec (th' - (th + advance n hop k))) as [[b B] C]. split.
  - exists (a + b). rewrite plus_IZR. lra.
  - lra.
Qed.

Lemma unwraps_unique n hop k un th' x y : unwraps n hop k un th' x -> unwraps n hop k un th' y -> x = y.
Proof.
  intros [[a A] B] [[b C] D].
  assert (same_angle (x - (un + advance n hop k)) (y - (un + advance n hop k))).
  { exists (a - b). rewrite minus_IZR. lra. }
  pose proof (princarg_unique _ _ H B) as E1.
  assert (same_angle (y - (un + advance n hop k)) (y - (un + advance n hop k))) by (exists 0; lra).
  pose proof (princarg_unique _ _ H0 D). lra.
Qed.
