(** C111: FFTReal in IEEE doubles. *)
From Coq Require Import ZArith Reals List.
From Flocq Require Import Core.
From Verif.Base Require Import Imp Double.
From Verif.Maths Require Import DoubleModel.
From Verif.Fft Require Import FftSpec FftDouble FftDoubleSpec FftDoubleCases FftrDouble FftrDoubleSpec FftrDoubleTheorems FftrDoubleCases.
Import ListNotations.
Open Scope R_scope.

(** Samples of magnitude at most B: both parts of all n bins are finite and within
    124 2^-53 w n B of the exact transform, w = 1 + the sum of the prime factors of n. *)
Theorem C111_forward : forall (dcos dsin : double -> double), accurate dcos cos -> accurate dsin sin ->
  forall (n : Z) (ps : list Z), (2 <= n <= 2 ^ 30)%Z -> (n mod 2 = 0)%Z -> prime_factors n ps ->
  forall B o ri ro io, bpow radix2 (-900) <= B <= bpow radix2 820 -> real_in_use dcos dsin n o -> real_bounded n B ri ->
    (n <= zlen ro)%Z -> (n <= zlen io)%Z ->
    exists o' ro' io', dfftreal_forward o ri ro io = OK (o', ro', io') /\
      within n (124 * uro * weight ps * IZR n * B) (dft_re n (fun j => dval (zn d0 ri j)) (fun _ => 0)) ro ro' /\
      within n (124 * uro * weight ps * IZR n * B) (dft_im n (fun j => dval (zn d0 ri j)) (fun _ => 0)) io io'.
Proof. exact real_forward_doubles. Qed.
Print Assumptions C111_forward.

Theorem C111_magnitude : forall (dcos dsin : double -> double), accurate dcos cos -> accurate dsin sin ->
  forall (n : Z) (ps : list Z), (2 <= n <= 2 ^ 30)%Z -> (n mod 2 = 0)%Z -> prime_factors n ps ->
  forall B o ri mo jio, bpow radix2 (-400) <= B <= bpow radix2 450 -> real_in_use dcos dsin n o -> real_bounded n B ri ->
    (n <= zlen mo)%Z -> zlen jio = n ->
    exists o' mo', dfftreal_magnitude o ri mo jio = OK (o', mo') /\
      within n (181 * uro * weight ps * IZR n * B) (dft_mod n (fun j => dval (zn d0 ri j))) mo mo'.
Proof. exact real_magnitude_doubles. Qed.
Print Assumptions C111_magnitude.

(** The bins 0 .. n/2 of modulus at most M stand for the whole spectrum. *)
Theorem C111_inverse : forall (dcos dsin : double -> double), accurate dcos cos -> accurate dsin sin ->
  forall (n : Z) (ps : list Z), (2 <= n <= 2 ^ 30)%Z -> (n mod 2 = 0)%Z -> prime_factors n ps ->
  forall M o ri ii ro, bpow radix2 (-900) <= M <= bpow radix2 850 -> real_in_use dcos dsin n o -> half_bounded n M ri ii -> (n <= zlen ro)%Z ->
    exists o' ro', dfftreal_inverse o ri ii ro = OK (o', ro') /\
      within n (176 * uro * weight ps * M)
        (idft_re n (herm_re n (fun j => dval (zn d0 ri j))) (herm_im n (fun j => dval (zn d0 ii j)))) ro ro'.
Proof. exact real_inverse_doubles. Qed.
Print Assumptions C111_inverse.

Theorem C111_roundtrip : forall (dcos dsin : double -> double), accurate dcos cos -> accurate dsin sin ->
  forall (n : Z) (ps : list Z), (2 <= n <= 2 ^ 30)%Z -> (n mod 2 = 0)%Z -> prime_factors n ps ->
  forall B o ri ro io, bpow radix2 (-900) <= B <= bpow radix2 800 -> real_in_use dcos dsin n o -> real_bounded n B ri ->
    (n <= zlen ro)%Z -> (n <= zlen io)%Z ->
    exists o1 fr fi, dfftreal_forward o ri ro io = OK (o1, fr, fi) /\
      forall ro2, (n <= zlen ro2)%Z ->
      exists o2 xr, dfftreal_inverse o1 fr fi ro2 = OK (o2, xr) /\
        within n (352 * uro * weight ps * IZR n * B) (fun j => dval (zn d0 ri j)) ro2 xr.
Proof. exact real_roundtrip_doubles. Qed.
Print Assumptions C111_roundtrip.

(** The hypotheses hold for size 6 with correctly rounded cos and sin: w = 6. *)
Example C111_case : accurate (near_fun cos) cos /\ accurate (near_fun sin) sin /\
  prime_factors 6 [2; 3]%Z /\ weight [2; 3]%Z = 6 /\
  real_bounded 6 1 (repeat (dint 1) 6) /\ half_bounded 6 2 (repeat (dint 1) 4) (repeat (dint 1) 4) /\
  exists o, real_in_use (near_fun cos) (near_fun sin) 6 o.
Proof. exact real_case_6. Qed.
