(** Model of class FFT (dsp/transforms/FFT.cpp:17-93) in IEEE doubles: FftGen.v with the
    operations of Base/Double.v (the build sets kiss_fft_scalar=double,
    build/general/Makefile.inc:8).  cos and sin of the C library are parameters. *)
From Coq Require Import ZArith List.
From Flocq.IEEE754 Require Import BinarySingleNaN.
From Verif.Base Require Import Imp Double.
From Verif.Maths Require Import DoubleModel.
From Verif.Fft Require Import FftGen.
Open Scope Z_scope.

(** HALF_OF, _kiss_fft_guts.h:138: x * .5. *)
Definition dhalf : double := dmake 1 (-1).
(** Unary minus. *)
Definition dopp (x : double) : double := Bopp x.

Section Libm.
  Context (dcos dsin : double -> double).
  (** kiss_fft.c:359-363 and kf_cexp, _kiss_fft_guts.h:141-145.  The literal of line 360 rounds
      to the double M_PI. *)
  Definition dtwiddle (inv : bool) (n i : Z) : double * double :=
    let phase := ddiv (dmul (dmul (dint (-2)) dpi) (dint i)) (dint n) in
    let phase := if inv then dmul phase (dint (-1)) else phase in
    (dcos phase, dsin phase).
  (** FFT::D::D, FFT.cpp:25-30. *)
  Definition dfft_new (n : Z) (ji jo : list (double * double)) : res (@gfft double) := g_new dtwiddle n ji jo.
End Libm.

(** FFT.cpp:60: scale = 1.0 / m_n. *)
Definition dscale (n : Z) : double := ddiv (dint 1) (dint n).
(** FFT::D::process, FFT.cpp:39-69. *)
Definition dfft_process (o : @gfft double) (inv : bool) (ri : list double) (ii : option (list double)) (ro io : list double)
  : res (@gfft double * list double * list double) :=
  g_process d0 dhalf dadd dsub dmul dopp dscale o inv ri ii ro io.
