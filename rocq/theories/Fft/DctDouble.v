(** Model of class DCT (dsp/transforms/DCT.cpp) in IEEE doubles.  As in FftrModel.v, with the
    operations of Base/Double.v. *)
From Coq Require Import ZArith List Bool.
From Verif.Base Require Import Imp Double.
From Verif.Maths Require Import DoubleModel.
From Verif.Fft Require Import FftDouble FftrDouble.
Import ListNotations.
Open Scope Z_scope.

(** DCT.h:68-74. *)
Record ddct := { dd_n : Z; dd_scale : double; dd_scaled : list double; dd_time2 : list double;
                 dd_freq2r : list double; dd_freq2i : list double; dd_fft : dfftreal }.

(** sqrt(2.0). *)
Definition droot2 : double := dsqrt (dint 2).
(** DCT.cpp:28: m_n * sqrt(2.0 / m_n). *)
Definition ddct_scale (n : Z) : double := dmul (dint n) (dsqrt (ddiv (dint 2) (dint n))).

(** DCT::DCT, DCT.cpp:20-29; [j1], [j2], [jc] are the uninitialised buffers of the FFTReal member. *)
Definition ddct_new (dcos dsin : double -> double) (n : Z) (j1 j2 jc : list dc) : res ddct :=
  f <- dfftreal_new dcos dsin (n * 4) j1 j2 jc ;;
  OK {| dd_n := n; dd_scale := ddct_scale n;
        dd_scaled := repeat d0 (Z.to_nat n); dd_time2 := repeat d0 (Z.to_nat (n * 4));
        dd_freq2r := repeat d0 (Z.to_nat (n * 4)); dd_freq2i := repeat d0 (Z.to_nat (n * 4)); dd_fft := f |}.

(** DCT::forward, DCT.cpp:35-48. *)
Definition ddct_forward (d : ddct) (inp out : list double) : res (ddct * list double) :=
  let n := dd_n d in
  t <- for_up 0 n (fun i t =>
    v <- aget inp i ;; t <- aset t (i * 2 + 1) v ;; aset t (n * 4 - i * 2 - 1) v) (dd_time2 d) ;;
  '(f, fr, fi) <- dfftreal_forward (dd_fft d) t (dd_freq2r d) (dd_freq2i d) ;;
  out <- for_up 0 n (fun i out => v <- aget fr i ;; aset out i v) out ;;
  OK ({| dd_n := n; dd_scale := dd_scale d; dd_scaled := dd_scaled d; dd_time2 := t; dd_freq2r := fr; dd_freq2i := fi; dd_fft := f |}, out).

(** DCT::forwardUnitary, DCT.cpp:50-58. *)
Definition ddct_forward_unitary (d : ddct) (inp out : list double) : res (ddct * list double) :=
  '(d, out) <- ddct_forward d inp out ;;
  out <- for_up 0 (dd_n d) (fun i out => v <- aget out i ;; aset out i (ddiv v (dd_scale d))) out ;;
  v <- aget out 0 ;;
  out <- aset out 0 (ddiv v droot2) ;;
  OK (d, out).

(** DCT::inverse, DCT.cpp:60-80. *)
Definition ddct_inverse (d : ddct) (inp out : list double) : res (ddct * list double) :=
  let n := dd_n d in
  fr <- for_up 0 n (fun i fr => v <- aget inp i ;; aset fr i v) (dd_freq2r d) ;;
  fr <- for_up 0 n (fun i fr => v <- aget inp i ;; aset fr (n * 2 - i) (dopp v)) fr ;;
  fr <- aset fr n d0 ;;
  fi <- for_up 0 (n * 2 + 1) (fun i fi => aset fi i d0) (dd_freq2i d) ;;
  '(f, t) <- dfftreal_inverse (dd_fft d) fr fi (dd_time2 d) ;;
  out <- for_up 0 n (fun i out => v <- aget t (i * 2 + 1) ;; aset out i v) out ;;
  OK ({| dd_n := n; dd_scale := dd_scale d; dd_scaled := dd_scaled d; dd_time2 := t; dd_freq2r := fr; dd_freq2i := fi; dd_fft := f |}, out).

(** DCT::inverseUnitary, DCT.cpp:82-90. *)
Definition ddct_inverse_unitary (d : ddct) (inp out : list double) : res (ddct * list double) :=
  sc <- for_up 0 (dd_n d) (fun i sc => v <- aget inp i ;; aset sc i (dmul v (dd_scale d))) (dd_scaled d) ;;
  v <- aget sc 0 ;;
  sc <- aset sc 0 (dmul v droot2) ;;
  ddct_inverse {| dd_n := dd_n d; dd_scale := dd_scale d; dd_scaled := sc; dd_time2 := dd_time2 d; dd_freq2r := dd_freq2r d;
                  dd_freq2i := dd_freq2i d; dd_fft := dd_fft d |} sc out.
