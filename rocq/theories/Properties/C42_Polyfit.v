(** C42: polynomial fitting. *)
From Coq Require Import Reals ZArith Lia Lra List Bool.
From Verif.Base Require Import Imp RealOps.
From Verif.Polyfit Require Import PolyModel PolySpec PolyMath FitProofs FitResults.
Import ListNotations.
Open Scope Z_scope.

(** With as many different abscissae as coefficients, the fit is the least-squares polynomial: no other
    has as small a residual. *)
Theorem C42_least_squares :
  forall x y coefs, 1 <= zlen coefs -> 2 <= zlen x -> zlen y = zlen x -> distinct (zlen coefs) x ->
    exists r c, polyfit2 x y coefs = OK (r, c) /\ zlen c = zlen coefs /\
      forall d, zlen d = zlen coefs -> (residual x y c <= residual x y d)%R /\ (residual x y d = residual x y c -> d = c).
Proof. exact fit_least. Qed.
Print Assumptions C42_least_squares.

(** It solves the normal equations. *)
Theorem C42_normal_equations :
  forall x y coefs, 1 <= zlen coefs -> 2 <= zlen x -> zlen y = zlen x -> distinct (zlen coefs) x ->
    exists r c, polyfit2 x y coefs = OK (r, c) /\
      forall k, 0 <= k < zlen coefs ->
        rsum (zlen x) (fun i => ((poly c (zn 0 x i) - zn 0 y i) * zn 0 x i ^ Z.to_nat k)%R) = 0%R.
Proof. exact fit_normal. Qed.
Print Assumptions C42_normal_equations.

(** The returned number is the correlation coefficient of the fit, between 0 and 1. *)
Theorem C42_coefficient :
  forall x y coefs, 1 <= zlen coefs -> 2 <= zlen x -> zlen y = zlen x -> distinct (zlen coefs) x ->
    exists r c, polyfit2 x y coefs = OK (r, c) /\ (0 <= r <= 1)%R /\
      (total y = 0 -> r = 1)%R /\ (total y <> 0 -> r = sqrt (1 - residual x y c / total y))%R.
Proof. exact fit_coefficient. Qed.
Print Assumptions C42_coefficient.

(** Data on a polynomial of the degree fitted give that polynomial back. *)
Theorem C42_exact :
  forall x y coefs d, 1 <= zlen coefs -> 2 <= zlen x -> zlen y = zlen x -> distinct (zlen coefs) x ->
    zlen d = zlen coefs -> (forall i, 0 <= i < zlen x -> zn 0%R y i = poly d (zn 0%R x i)) ->
    polyfit2 x y coefs = OK (1%R, d).
Proof. intros. apply fit_exact; assumption. Qed.
Print Assumptions C42_exact.

(** With fewer different abscissae than coefficients the fit reports -1 and leaves the coefficients. *)
Theorem C42_degenerate :
  forall x y coefs, 1 <= zlen coefs -> 2 <= zlen x -> zlen y = zlen x -> ~ distinct (zlen coefs) x ->
    polyfit2 x y coefs = OK ((-1)%R, coefs).
Proof. exact fit_degenerate. Qed.
Print Assumptions C42_degenerate.

Theorem C42_rejects :
  forall x y coefs, zlen coefs < 1 \/ zlen x < 2 \/ zlen y <> zlen x -> polyfit2 x y coefs = OK (0%R, coefs).
Proof. exact polyfit2_reject. Qed.
Print Assumptions C42_rejects.

(** The fit of PeakPicking: a quadratic through five points. *)
Example C42_example :
  polyfit2 [-2; -1; 0; 1; 2]%R [-1; 2; 3; 2; -1]%R [7; 7; 7]%R = OK (1%R, [3; 0; -1]%R).
Proof.
  apply C42_exact.
  1-3: cbn; lia.
  - exists [0; 1; 2]%R. split; [|split].
    + repeat constructor; cbn; intros H; repeat destruct H as [H|H]; try lra; exact H.
    + reflexivity.
    + intros v Hv. cbn in *. tauto.
  - reflexivity.
  - intros i Hi. cbn in Hi. rewrite poly_peval.
    assert (H : i = 0 \/ i = 1 \/ i = 2 \/ i = 3 \/ i = 4) by lia.
    destruct H as [-> |[-> |[-> |[-> | ->]]]]; cbv -[Rplus Rmult IZR]; ring.
Qed.
