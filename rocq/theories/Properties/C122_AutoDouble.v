(** C122: the autocorrelation in IEEE doubles. *)
From Coq Require Import Reals ZArith List.
From Flocq Require Import Core.
From Verif.Base Require Import Imp RealOps Double.
From Verif.Maths Require Import DoubleModel StatDoubleSpec.
From Verif.Measures Require Import AutoDouble AutoDoubleSpec AutoDoubleProofs.
Import ListNotations.
Open Scope R_scope.

(** n values of magnitude at most B: lag i is finite, positive and within 1.002 (n-i+1) 2^-53 B^2
    (plus 2^-1073) of the exact mean of products, or the constant if that is at most the error. *)
Theorem C122_auto : forall (n : Z) (src : list double), (0 <= n <= 2147483647)%Z -> all_finite n src ->
  forall B, (forall j, (0 <= j < n)%Z -> Rabs (dval (zn d0 src j)) <= B) -> IZR n * (B * B) <= bpow radix2 990 ->
  forall dst, (n <= zlen dst)%Z ->
    exists dst', dauto src dst n = OK dst' /\ zlen dst' = zlen dst /\ (forall i, (n <= i)%Z -> zn d0 dst' i = zn d0 dst i) /\
      forall i, (0 <= i < n)%Z -> finite (zn d0 dst' i) /\ 0 < dval (zn d0 dst' i) /\
        floored_within (1002 / 1000 * IZR (n - i + 1) * uro * (B * B) + bpow radix2 (-1073)) (lagged n src i) (dval (zn d0 dst' i)).
Proof. exact auto_doubles. Qed.
Print Assumptions C122_auto.

(** 1, -2, 3: lag 1 is -4, lag 2 is 3. *)
Example C122_case : all_finite 3 [dint 1; dint (-2); dint 3] /\ (forall j, (0 <= j < 3)%Z -> Rabs (dval (zn d0 [dint 1; dint (-2); dint 3] j)) <= 3) /\
  IZR 3 * (3 * 3) <= bpow radix2 990 /\ lagged 3 [dint 1; dint (-2); dint 3] 1 = -4 /\ lagged 3 [dint 1; dint (-2); dint 3] 2 = 3.
Proof. exact auto_case. Qed.
