(** C112: DCT in IEEE doubles. *)
From Coq Require Import ZArith Reals List.
From Flocq Require Import Core.
From Verif.Base Require Import Imp Double.
From Verif.Maths Require Import DoubleModel.
From Verif.Fft Require Import FftSpec FftDouble FftDoubleSpec FftDoubleCases FftrDouble FftrDoubleSpec DctDouble DctDoubleSpec DctDoubleTheorems DctDoubleHistory DctDoubleCases.
Import ListNotations.
Open Scope R_scope.

(** The full claim would bound the error of forward by the magnitude B of its input alone.  That
    fails (C112_history_refuted): what holds has a second term, for the largest coefficient M that
    the object has been given for an inverse.  w = 1 + the sum of the prime factors of 4n. *)
Theorem C112_forward_partial : forall (dcos dsin : double -> double), accurate dcos cos -> accurate dsin sin ->
  forall (n : Z) (ps : list Z), (1 <= n <= 2 ^ 28)%Z -> prime_factors (n * 4) ps ->
  forall B M d x out, bpow radix2 (-800) <= B <= bpow radix2 800 -> bpow radix2 (-800) <= M <= bpow radix2 800 ->
    dct_in_use dcos dsin n M d -> real_bounded n B x -> (n <= zlen out)%Z ->
    exists d' out', ddct_forward d x out = OK (d', out') /\
      within n (uro * weight ps * IZR n * (496 * B + 355 * M)) (dct2 n (fun j => dval (zn d0 x j))) out out'.
Proof. exact dct_forward_doubles. Qed.
Print Assumptions C112_forward_partial.

Theorem C112_inverse : forall (dcos dsin : double -> double), accurate dcos cos -> accurate dsin sin ->
  forall (n : Z) (ps : list Z), (1 <= n <= 2 ^ 28)%Z -> prime_factors (n * 4) ps ->
  forall B M d y out, bpow radix2 (-800) <= B <= bpow radix2 800 -> bpow radix2 (-800) <= M <= bpow radix2 800 ->
    dct_in_use dcos dsin n M d -> real_bounded n B y -> (n <= zlen out)%Z ->
    exists d' out', ddct_inverse d y out = OK (d', out') /\
      within n (176 * uro * weight ps * B) (idct2 n (fun k => dval (zn d0 y k))) out out'.
Proof. exact dct_inverse_doubles. Qed.
Print Assumptions C112_inverse.

Theorem C112_forward_unitary_partial : forall (dcos dsin : double -> double), accurate dcos cos -> accurate dsin sin ->
  forall (n : Z) (ps : list Z), (1 <= n <= 2 ^ 28)%Z -> prime_factors (n * 4) ps ->
  forall B M d x out, bpow radix2 (-800) <= B <= bpow radix2 800 -> bpow radix2 (-800) <= M <= bpow radix2 800 ->
    dct_in_use dcos dsin n M d -> real_bounded n B x -> (n <= zlen out)%Z ->
    exists d' out', ddct_forward_unitary d x out = OK (d', out') /\
      within n (uro * weight ps * sqrt (2 * IZR n) * (253 * B + 178 * M)) (dct2_unitary n (fun j => dval (zn d0 x j))) out out'.
Proof. exact dct_forward_unitary_doubles. Qed.
Print Assumptions C112_forward_unitary_partial.

Theorem C112_inverse_unitary : forall (dcos dsin : double -> double), accurate dcos cos -> accurate dsin sin ->
  forall (n : Z) (ps : list Z), (1 <= n <= 2 ^ 28)%Z -> prime_factors (n * 4) ps ->
  forall B M d y out, bpow radix2 (-800) <= B <= bpow radix2 700 -> bpow radix2 (-800) <= M <= bpow radix2 800 ->
    dct_in_use dcos dsin n M d -> real_bounded n B y -> (n <= zlen out)%Z ->
    exists d' out', ddct_inverse_unitary d y out = OK (d', out') /\
      within n (366 * uro * weight ps * sqrt (IZR n) * B) (idct2_orthonormal n (fun k => dval (zn d0 y k))) out out'.
Proof. exact dct_inverse_unitary_doubles. Qed.
Print Assumptions C112_inverse_unitary.

Theorem C112_roundtrip_partial : forall (dcos dsin : double -> double), accurate dcos cos -> accurate dsin sin ->
  forall (n : Z) (ps : list Z), (1 <= n <= 2 ^ 28)%Z -> prime_factors (n * 4) ps ->
  forall B M d x out, bpow radix2 (-800) <= B <= bpow radix2 700 -> bpow radix2 (-800) <= M <= bpow radix2 700 ->
    dct_in_use dcos dsin n M d -> real_bounded n B x -> (n <= zlen out)%Z ->
    exists d1 y, ddct_forward d x out = OK (d1, y) /\
      forall out2, (n <= zlen out2)%Z -> exists d2 z, ddct_inverse d1 y out2 = OK (d2, z) /\
        within n (uro * weight ps * IZR n * (849 * B + 356 * M)) (fun j => dval (zn d0 x j)) out2 z.
Proof. exact dct_roundtrip_doubles. Qed.
Print Assumptions C112_roundtrip_partial.

(** Two objects of size 3, the same three zeros: the one that has computed an inverse of
    (0, 2^200, 0) returns at least 2^146 where the new one returns the correct 0. *)
Theorem C112_history_refuted : exists (dcos dsin : double -> double), accurate dcos cos /\ accurate dsin sin /\
  exists d d1 d' d1' o o1,
    dct_in_use dcos dsin 3 (bpow radix2 200) d /\ dct_in_use dcos dsin 3 (bpow radix2 200) d1 /\
    ddct_forward d [d0; d0; d0] [d0; d0; d0] = OK (d', o) /\ bpow radix2 146 <= dval (zn d0 o 1) /\
    ddct_forward d1 [d0; d0; d0] [d0; d0; d0] = OK (d1', o1) /\ dval (zn d0 o1 1) = 0 /\
    dct2 3 (fun j => dval (zn d0 [d0; d0; d0] j)) 1 = 0.
Proof. exists tcos, tsin. split; [exact tcos_accurate|]. split; [exact tsin_accurate|]. exact dct_history_refuted. Qed.
Print Assumptions C112_history_refuted.

(** The hypotheses hold for size 3 with correctly rounded cos and sin: w = 8. *)
Example C112_case : accurate (near_fun cos) cos /\ accurate (near_fun sin) sin /\
  prime_factors (3 * 4) [2; 2; 3]%Z /\ weight [2; 2; 3]%Z = 8 /\
  real_bounded 3 1 [dint 1; dint (-1); dint 1] /\
  exists d, dct_in_use (near_fun cos) (near_fun sin) 3 1 d.
Proof. exact dct_case_3. Qed.
