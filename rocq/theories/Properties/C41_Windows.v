(** C41: window shapes (base/Window.h, base/KaiserWindow.cpp, base/SincWindow.cpp). *)
From Coq Require Import List ZArith Reals Lia Lra Bool.
From Verif.Base Require Import Imp RealOps.
From Verif.Windows Require Import WindowModel WindowSpec WindowProofs.
Import ListNotations.
Open Scope Z_scope.

Theorem C41_window_shapes :
  forall t n, 1 <= n -> exists w, encache t n = OK w /\ zlen w = n /\ periodic w /\ in_unit w.
Proof. exact window_ok. Qed.
Print Assumptions C41_window_shapes.

(** Half-overlapping Hann windows sum to one. *)
Theorem C41_hann_overlap :
  forall n w i, 2 <= n -> Z.even n = true -> encache Hanning n = OK w -> 0 <= i < n / 2 ->
    (zn 0 w i + zn 0 w (i + n / 2) = 1)%R.
Proof. exact hann_overlap. Qed.
Print Assumptions C41_hann_overlap.

Theorem C41_cut :
  forall w size src dst, 0 <= size -> size <= zlen w -> size <= zlen src -> size <= zlen dst ->
    exists d, cut w size src dst = OK d /\ zlen d = zlen dst /\ product_of size src w d /\
      forall i, size <= i -> zn 0%R d i = zn 0%R dst i.
Proof. exact cut_ok. Qed.
Print Assumptions C41_cut.

Theorem C41_cut_in_place :
  forall w size src, 0 <= size -> size <= zlen w -> size <= zlen src ->
    exists d, cut_in_place w size src = OK d /\ zlen d = zlen src /\ product_of size src w d /\
      forall i, size <= i -> zn 0%R d i = zn 0%R src i.
Proof. exact cut_in_place_ok. Qed.
Print Assumptions C41_cut_in_place.

Theorem C41_getWindowData : forall w, getWindowData w (zlen w) = OK w.
Proof. exact getWindowData_ok. Qed.
Print Assumptions C41_getWindowData.

Theorem C41_kaiser :
  forall n beta, 2 <= n -> (0 <= beta)%R ->
    exists w, kaiser_init n beta = OK w /\ zlen w = n /\ symmetric w /\
      (forall i, 0 <= i < n -> zn 0%R w i = kaiser_at beta (IZR (n - 1) / 2) (IZR i - IZR (n - 1) / 2)) /\
      (forall i, 0 <= i < n -> (0 < zn 0 w i <= 1)%R) /\
      (Z.odd n = true -> zn 0%R w (n / 2) = 1%R).
Proof. exact kaiser_window. Qed.
Print Assumptions C41_kaiser.

Theorem C41_sinc :
  forall n p, 1 <= n -> p <> 0%R ->
    sinc_init n p = OK (ztab n (fun i => sinc (2 * PI * IZR (i - n / 2) / p)%R)).
Proof. exact sinc_window. Qed.
Print Assumptions C41_sinc.

(** Cases: a Bartlett window of 4, and the largest value of a Hann window. *)
Example C41_bartlett_4 : exists w, encache Bartlett 4 = OK w /\ zn 0%R w 3 = (1/2)%R /\ zn 0%R w 2 = 1%R.
Proof.
  rewrite encache_shape by lia. eexists; split; [reflexivity|]. rewrite !zn_ztab by lia. cbn. split; lra.
Qed.
Example C41_hann_2 : exists w, encache Hanning 2 = OK w /\ zn 0%R w 1 = 1%R.
Proof.
  rewrite encache_cos by (try lia; congruence). eexists; split; [reflexivity|]. rewrite zn_ztab by lia.
  cbn [shape]. unfold ck. replace (2 * PI * IZR 1 / IZR 2)%R with PI by (simpl; lra). rewrite cos_PI. lra.
Qed.
