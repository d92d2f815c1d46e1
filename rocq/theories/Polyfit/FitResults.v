(** The parts of the theorem on PolyFit2. *)
From Coq Require Import Reals ZArith Lia Lra List Bool.
From Verif.Base Require Import Imp Sums RealOps Loops.
From Verif.Polyfit Require Import PolyModel PolySpec PolyMath FitProofs.
Import ListNotations.
Open Scope Z_scope.

Section S.
  Variables x y coefs : list R.
  Hypothesis Hc : 1 <= zlen coefs.
  Hypothesis Hx : 2 <= zlen x.
  Hypothesis Hy : zlen y = zlen x.

  Lemma fit_degenerate : ~ distinct (zlen coefs) x -> polyfit2 x y coefs = OK ((-1)%R, coefs).
  Proof. intros D. destruct (polyfit2_ok x y coefs Hc Hx Hy) as (r & c & -> & H & _). destruct (H D) as (-> & ->). reflexivity. Qed.

  Hypothesis Hd : distinct (zlen coefs) x.
  Lemma fit_least : exists r c, polyfit2 x y coefs = OK (r, c) /\ zlen c = zlen coefs /\
      forall d, zlen d = zlen coefs -> (residual x y c <= residual x y d)%R /\ (residual x y d = residual x y c -> d = c).
  Proof. destruct (polyfit2_ok x y coefs Hc Hx Hy) as (r & c & E & _ & H). destruct (H Hd) as (A & B & C & D). exists r, c. auto. Qed.

  Lemma fit_normal : exists r c, polyfit2 x y coefs = OK (r, c) /\
      forall k, 0 <= k < zlen coefs ->
        rsum (zlen x) (fun i => ((poly c (zn 0 x i) - zn 0 y i) * zn 0 x i ^ Z.to_nat k)%R) = 0%R.
  Proof. destruct (polyfit2_ok x y coefs Hc Hx Hy) as (r & c & E & _ & H). destruct (H Hd) as (A & B & C & D). exists r, c. auto. Qed.

  Lemma fit_coefficient : exists r c, polyfit2 x y coefs = OK (r, c) /\ (0 <= r <= 1)%R /\
      (total y = 0 -> r = 1)%R /\ (total y <> 0 -> r = sqrt (1 - residual x y c / total y))%R.
  Proof. destruct (polyfit2_ok x y coefs Hc Hx Hy) as (r & c & E & _ & H). destruct (H Hd) as (A & B & C & D & F & G). exists r, c. auto. Qed.

  Lemma residual_exact d : (forall i, 0 <= i < zlen x -> zn 0%R y i = poly d (zn 0%R x i)) -> residual x y d = 0%R.
  Proof. intros H. unfold residual. apply rsum_zero. intros i Hi. rewrite H by auto. ring. Qed.

  Lemma fit_exact d : zlen d = zlen coefs -> (forall i, 0 <= i < zlen x -> zn 0%R y i = poly d (zn 0%R x i)) ->
    polyfit2 x y coefs = OK (1%R, d).
  Proof.
    intros L Hv. destruct (polyfit2_ok x y coefs Hc Hx Hy) as (r & c & E & _ & H). destruct (H Hd) as (A & B & C & D & F & G).
    pose proof (residual_exact d Hv) as R0.
    assert (Rc : residual x y c = 0%R).
    { destruct (C d L) as (C1 & _). assert (0 <= residual x y c)%R by (unfold residual; apply rsum_nonneg; intros; apply Rle_0_sqr). lra. }
    assert (d = c) as -> by (apply C; [auto|lra]). rewrite E. do 2 f_equal.
    destruct (Req_dec (total y) 0) as [T|T]; [auto|]. rewrite F by auto. rewrite Rc. unfold Rdiv. rewrite Rmult_0_l, Rminus_0_r, sqrt_1. reflexivity.
  Qed.
End S.
