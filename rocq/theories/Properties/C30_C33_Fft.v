(** C30-C33: FFT, FFTReal and DCT over exact reals.  [fft_uses n o], [fftreal_uses n o] and [dct_uses n d]:
    the object was built for size n and then used any number of times with buffers that are long enough.
    [holds n f l l0]: the array l has the values f in its first n places and is otherwise the array l0. *)
From Coq Require Import List ZArith Reals Lia Lra Bool.
From Verif.Base Require Import Imp RealOps.
From Verif.Fft Require Import Cplx FftModel FftSpec FftrModel FftResults FftLarge.
Import ListNotations.
Open Scope Z_scope.

(** Missing from the full statement: sizes above 2^30, for which it is false (see below). *)
Theorem C30_fft_is_dft_partial :
  forall n o ri ii ro io,
    1 <= n <= 2 ^ 30 -> fft_uses n o -> n <= zlen ri -> fits n ii -> n <= zlen ro -> n <= zlen io ->
    exists o' ro' io', fft_process o false ri ii ro io = OK (o', ro', io') /\ fft_uses n o' /\
      holds n (dft_re n (zn 0%R ri) (im_of ii)) ro' ro /\ holds n (dft_im n (zn 0%R ri) (im_of ii)) io' io.
Proof. exact fft_forward_dft. Qed.
Print Assumptions C30_fft_is_dft_partial.

Theorem C30_fft_inverse_is_inverse_dft_partial :
  forall n o ri ii ro io,
    1 <= n <= 2 ^ 30 -> fft_uses n o -> n <= zlen ri -> fits n ii -> n <= zlen ro -> n <= zlen io ->
    exists o' ro' io', fft_process o true ri ii ro io = OK (o', ro', io') /\ fft_uses n o' /\
      holds n (idft_re n (zn 0%R ri) (im_of ii)) ro' ro /\ holds n (idft_im n (zn 0%R ri) (im_of ii)) io' io.
Proof. exact fft_inverse_idft. Qed.
Print Assumptions C30_fft_inverse_is_inverse_dft_partial.

(** Objects exist for every size an int can hold. *)
Theorem C30_constructed : forall n ji jo, 1 <= n < 2 ^ 31 -> zlen ji = n -> zlen jo = n -> exists o, fft_new n ji jo = OK o.
Proof. exact fft_constructed. Qed.
Print Assumptions C30_constructed.

(** For size 7^11 = 1977326743, which fits an int, every call reads the twiddle table at a negative index. *)
Theorem C30_every_size_refuted :
  exists n, 1 <= n < 2 ^ 31 /\ forall ji jo, zlen ji = n -> zlen jo = n ->
    exists o, fft_new n ji jo = OK o /\
      forall inv ri ii ro io, n <= zlen ri -> fits n ii -> fft_process o inv ri ii ro io = UB.
Proof. exact fft_overflow. Qed.
Print Assumptions C30_every_size_refuted.

(** The factors found for a few sizes; the second one has a prime factor for which there is no special code. *)
Example C30_case_factors : kf_factor 360 = OK [4; 90; 2; 45; 3; 15; 3; 5; 5; 1] /\ kf_factor 77 = OK [7; 11; 11; 1].
Proof. split; reflexivity. Qed.
Example C30_case_size : exists o, fft_new 3 [c0; c0; c0] [c0; c0; c0] = OK o /\ fft_uses 3 o.
Proof.
  destruct (fft_constructed 3 [c0; c0; c0] [c0; c0; c0]) as (o & E); [lia|reflexivity|reflexivity|].
  exists o. split; [exact E|]. now apply (fu_new 3 [c0; c0; c0] [c0; c0; c0]).
Qed.
(** And what the specification says of the impulse. *)
Example C30_case_impulse : forall k, dft_re 4 (zn 0%R [1; 0; 0; 0]%R) (fun _ => 0%R) k = 1%R.
Proof.
  intros k. unfold dft_re. rewrite rsum_first by lia.
  rewrite (rsum_ext _ _ (fun _ => 0%R)).
  - rewrite rsum_zero by auto. unfold angle. rewrite Rmult_0_r. unfold Rdiv. rewrite !Rmult_0_l, cos_0. cbn. ring.
  - intros i Hi. assert (i = 0 \/ i = 1 \/ i = 2) as [->|[->| ->]] by lia;
      match goal with |- (?a * _ + _)%R = _ => change a with 0%R end; ring.
Qed.

(** Either direction undoes the other. *)
Theorem C31_fft_inverse_partial :
  forall n o inv ri ii ro io ro2 io2,
    1 <= n <= 2 ^ 30 -> fft_uses n o -> n <= zlen ri -> fits n ii -> n <= zlen ro -> n <= zlen io ->
    n <= zlen ro2 -> n <= zlen io2 ->
    exists o1 yr yi o2 zr zi, fft_process o inv ri ii ro io = OK (o1, yr, yi) /\
      fft_process o1 (negb inv) yr (Some yi) ro2 io2 = OK (o2, zr, zi) /\ fft_uses n o2 /\
      holds n (zn 0%R ri) zr ro2 /\ holds n (im_of ii) zi io2.
Proof. exact fft_undoes. Qed.
Print Assumptions C31_fft_inverse_partial.

(** FFTReal: every even size an int can hold. *)
Theorem C32_construction :
  forall n j1 j2 jc,
    (n mod 2 <> 0 -> fftreal_new n j1 j2 jc = Throw) /\
    (2 <= n < 2 ^ 31 -> n mod 2 = 0 -> zlen j1 = n / 2 -> zlen j2 = n / 2 -> zlen jc = n ->
      exists o, fftreal_new n j1 j2 jc = OK o).
Proof. exact fftreal_construction. Qed.
Print Assumptions C32_construction.

Theorem C32_forward_is_dft :
  forall n o ri ro io,
    2 <= n < 2 ^ 31 -> n mod 2 = 0 -> fftreal_uses n o -> n <= zlen ri -> n <= zlen ro -> n <= zlen io ->
    exists o' ro' io', fftreal_forward o ri ro io = OK (o', ro', io') /\ fftreal_uses n o' /\
      holds n (dft_re n (zn 0%R ri) (fun _ => 0%R)) ro' ro /\ holds n (dft_im n (zn 0%R ri) (fun _ => 0%R)) io' io.
Proof. exact fftreal_forward_dft. Qed.
Print Assumptions C32_forward_is_dft.

Theorem C32_magnitude :
  forall n o ri mo jio,
    2 <= n < 2 ^ 31 -> n mod 2 = 0 -> fftreal_uses n o -> n <= zlen ri -> n <= zlen mo -> zlen jio = n ->
    exists o' mo', fftreal_magnitude o ri mo jio = OK (o', mo') /\ fftreal_uses n o' /\
      holds n (fun k => sqrt (dft_re n (zn 0%R ri) (fun _ => 0%R) k * dft_re n (zn 0%R ri) (fun _ => 0%R) k +
                              dft_im n (zn 0%R ri) (fun _ => 0%R) k * dft_im n (zn 0%R ri) (fun _ => 0%R) k))%R mo' mo.
Proof. exact fftreal_magnitude_dft. Qed.
Print Assumptions C32_magnitude.

(** For any spectrum, only bins 0 .. n/2 of it are looked at. *)
Theorem C32_inverse_is_inverse_dft :
  forall n o ri ii ro,
    2 <= n < 2 ^ 31 -> n mod 2 = 0 -> fftreal_uses n o -> n / 2 + 1 <= zlen ri -> n / 2 + 1 <= zlen ii -> n <= zlen ro ->
    exists o' ro', fftreal_inverse o ri ii ro = OK (o', ro') /\ fftreal_uses n o' /\
      holds n (idft_re n (herm_re n (zn 0%R ri)) (herm_im n (zn 0%R ii))) ro' ro.
Proof. exact fftreal_inverse_idft. Qed.
Print Assumptions C32_inverse_is_inverse_dft.

Theorem C32_inverse_undoes_forward :
  forall n o ri ro io ro2,
    2 <= n < 2 ^ 31 -> n mod 2 = 0 -> fftreal_uses n o -> n <= zlen ri -> n <= zlen ro -> n <= zlen io -> n <= zlen ro2 ->
    exists o1 yr yi o2 zr, fftreal_forward o ri ro io = OK (o1, yr, yi) /\ fftreal_inverse o1 yr yi ro2 = OK (o2, zr) /\
      fftreal_uses n o2 /\ holds n (zn 0%R ri) zr ro2.
Proof. exact fftreal_undoes. Qed.
Print Assumptions C32_inverse_undoes_forward.

Example C32_case : exists o, fftreal_uses 2 o.
Proof.
  destruct (proj2 (fftreal_construction 2 [c0] [c0] [c0; c0])) as (o & E); try reflexivity; [lia|].
  exists o. now apply (ru_new 2 [c0] [c0] [c0; c0]).
Qed.

(** DCT; 4 n must fit an int. *)
Theorem C33_constructed :
  forall n j1 j2 jc, 1 <= n < 2 ^ 29 -> zlen j1 = 2 * n -> zlen j2 = 2 * n -> zlen jc = 4 * n -> exists d, dct_new n j1 j2 jc = OK d.
Proof. exact dct_constructed. Qed.
Print Assumptions C33_constructed.

Theorem C33_forward_is_dct :
  forall n d x out, 1 <= n < 2 ^ 29 -> dct_uses n d -> n <= zlen x -> n <= zlen out ->
    exists d' out', dct_forward d x out = OK (d', out') /\ dct_uses n d' /\ holds n (dct2 n (zn 0%R x)) out' out.
Proof. exact dct_forward_value. Qed.
Print Assumptions C33_forward_is_dct.

Theorem C33_inverse_is_idct :
  forall n d y out, 1 <= n < 2 ^ 29 -> dct_uses n d -> n <= zlen y -> n <= zlen out ->
    exists d' out', dct_inverse d y out = OK (d', out') /\ dct_uses n d' /\ holds n (idct2 n (zn 0%R y)) out' out.
Proof. exact dct_inverse_value. Qed.
Print Assumptions C33_inverse_is_idct.

Theorem C33_inverse_undoes_forward :
  forall n d x out out2, 1 <= n < 2 ^ 29 -> dct_uses n d -> n <= zlen x -> n <= zlen out -> n <= zlen out2 ->
    exists d1 y d2 z, dct_forward d x out = OK (d1, y) /\ dct_inverse d1 y out2 = OK (d2, z) /\
      dct_uses n d2 /\ holds n (zn 0%R x) z out2.
Proof. exact dct_inverse_of_forward. Qed.
Print Assumptions C33_inverse_undoes_forward.

Theorem C33_forward_undoes_inverse :
  forall n d x out out2, 1 <= n < 2 ^ 29 -> dct_uses n d -> n <= zlen x -> n <= zlen out -> n <= zlen out2 ->
    exists d1 y d2 z, dct_inverse d x out = OK (d1, y) /\ dct_forward d1 y out2 = OK (d2, z) /\
      dct_uses n d2 /\ holds n (zn 0%R x) z out2.
Proof. exact dct_forward_of_inverse. Qed.
Print Assumptions C33_forward_undoes_inverse.

(** The unitary transform has the orthonormal basis as its rows and preserves the energy. *)
Theorem C33_unitary_energy :
  forall n d x out, 1 <= n < 2 ^ 29 -> dct_uses n d -> n <= zlen x -> n <= zlen out ->
    exists d' out', dct_forward_unitary d x out = OK (d', out') /\ dct_uses n d' /\
      holds n (dct2_unitary n (zn 0%R x)) out' out /\
      rsum n (fun k => zn 0 out' k * zn 0 out' k)%R = rsum n (fun j => zn 0 x j * zn 0 x j)%R.
Proof. exact dct_unitary_value. Qed.
Print Assumptions C33_unitary_energy.

Theorem C33_unitary_inverse_undoes_forward :
  forall n d x out out2, 1 <= n < 2 ^ 29 -> dct_uses n d -> n <= zlen x -> n <= zlen out -> n <= zlen out2 ->
    exists d1 y d2 z, dct_forward_unitary d x out = OK (d1, y) /\ dct_inverse_unitary d1 y out2 = OK (d2, z) /\
      dct_uses n d2 /\ holds n (zn 0%R x) z out2.
Proof. exact dct_unitary_inverse_of_forward. Qed.
Print Assumptions C33_unitary_inverse_undoes_forward.

Theorem C33_unitary_forward_undoes_inverse :
  forall n d x out out2, 1 <= n < 2 ^ 29 -> dct_uses n d -> n <= zlen x -> n <= zlen out -> n <= zlen out2 ->
    exists d1 y d2 z, dct_inverse_unitary d x out = OK (d1, y) /\ dct_forward_unitary d1 y out2 = OK (d2, z) /\
      dct_uses n d2 /\ holds n (zn 0%R x) z out2.
Proof. exact dct_unitary_forward_of_inverse. Qed.
Print Assumptions C33_unitary_forward_undoes_inverse.

Example C33_case : exists d, dct_uses 1 d.
Proof.
  destruct (dct_constructed 1 [c0; c0] [c0; c0] [c0; c0; c0; c0]) as (d & E); try reflexivity; [lia|].
  exists d. now apply (du_new 1 [c0; c0] [c0; c0] [c0; c0; c0; c0]).
Qed.
