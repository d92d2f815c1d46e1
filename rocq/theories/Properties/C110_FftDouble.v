(** C110: FFT::process in IEEE doubles. *)
From Coq Require Import ZArith Reals List.
From Flocq Require Import Core.
From Verif.Base Require Import Imp Double.
From Verif.Maths Require Import DoubleModel.
From Verif.Fft Require Import FftSpec FftGen FftDouble FftDoubleSpec FftDoubleProofs FftDoubleCases.
Import ListNotations.
Open Scope R_scope.

(** The forward transform of samples of modulus at most M: every output is finite and within
    44 2^-53 w n M of the exact transform, w = 1 + the sum of the prime factors of n. *)
Theorem C110_forward : forall (dcos dsin : double -> double), accurate dcos cos -> accurate dsin sin ->
  forall (n : Z) (ps : list Z), (1 <= n <= 2 ^ 30)%Z -> prime_factors n ps ->
  forall M, bpow radix2 (-900) <= M <= bpow radix2 860 ->
  forall o ri ii ro io, in_use dcos dsin n o -> bounded n M ri ii -> (n <= zlen ro)%Z -> (n <= zlen io)%Z ->
    exists o' ro' io', dfft_process o false ri ii ro io = OK (o', ro', io') /\
      within n (44 * uro * weight ps * IZR n * M) (dft_re n (fun j => dval (re_in ri j)) (fun j => dval (im_in ii j))) ro ro' /\
      within n (44 * uro * weight ps * IZR n * M) (dft_im n (fun j => dval (re_in ri j)) (fun j => dval (im_in ii j))) io io'.
Proof. exact forward_doubles. Qed.
Print Assumptions C110_forward.

Theorem C110_inverse : forall (dcos dsin : double -> double), accurate dcos cos -> accurate dsin sin ->
  forall (n : Z) (ps : list Z), (1 <= n <= 2 ^ 30)%Z -> prime_factors n ps ->
  forall M, bpow radix2 (-900) <= M <= bpow radix2 860 ->
  forall o ri ii ro io, in_use dcos dsin n o -> bounded n M ri ii -> (n <= zlen ro)%Z -> (n <= zlen io)%Z ->
    exists o' ro' io', dfft_process o true ri ii ro io = OK (o', ro', io') /\
      within n (44 * uro * weight ps * M) (idft_re n (fun j => dval (re_in ri j)) (fun j => dval (im_in ii j))) ro ro' /\
      within n (44 * uro * weight ps * M) (idft_im n (fun j => dval (re_in ri j)) (fun j => dval (im_in ii j))) io io'.
Proof. exact inverse_doubles. Qed.
Print Assumptions C110_inverse.

(** Forward, then inverse with the same object: the samples come back. *)
Theorem C110_roundtrip : forall (dcos dsin : double -> double), accurate dcos cos -> accurate dsin sin ->
  forall (n : Z) (ps : list Z), (1 <= n <= 2 ^ 30)%Z -> prime_factors n ps ->
  forall M, bpow radix2 (-900) <= M <= bpow radix2 820 ->
  forall o ri ii ro io, in_use dcos dsin n o -> bounded n M ri ii -> (n <= zlen ro)%Z -> (n <= zlen io)%Z ->
    exists o1 fr fi, dfft_process o false ri ii ro io = OK (o1, fr, fi) /\
      forall ro2 io2, (n <= zlen ro2)%Z -> (n <= zlen io2)%Z ->
      exists o2 xr xi, dfft_process o1 true fr (Some fi) ro2 io2 = OK (o2, xr, xi) /\
        within n (108 * uro * weight ps * IZR n * M) (fun j => dval (re_in ri j)) ro2 xr /\
        within n (108 * uro * weight ps * IZR n * M) (fun j => dval (im_in ii j)) io2 xi.
Proof. exact roundtrip_doubles. Qed.
Print Assumptions C110_roundtrip.

(** The hypotheses hold for size 12 with correctly rounded cos and sin: w = 8. *)
Example C110_case : accurate (near_fun cos) cos /\ accurate (near_fun sin) sin /\
  prime_factors 12 [2; 2; 3]%Z /\ weight [2; 2; 3]%Z = 8 /\
  bounded 12 1 (repeat (dint 1) 12) None /\
  exists o, in_use (near_fun cos) (near_fun sin) 12 o.
Proof. exact case_12. Qed.
