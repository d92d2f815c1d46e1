(** Model of dsp/phasevocoder/PhaseVocoder.cpp over exact reals, on top of the model of FFTReal.
    Simplifications: atan2 is the exact four-quadrant arc tangent (there is no signed zero), the
    output arrays do not overlap each other or the inputs, and allocation succeeds. *)
From Coq Require Import Reals ZArith List Bool.
From Verif.Base Require Import Imp RealOps.
From Verif.Maths Require Import RealModel.
From Verif.Fft Require Import Cplx FftModel FftrModel.
Import ListNotations.
Open Scope Z_scope.

(** The C library's atan2. *)
Definition atan2 (y x : R) : R :=
  if Rltb 0 x then atan (y / x)
  else if Rltb x 0 then (if Rleb 0 y then atan (y / x) + PI else atan (y / x) - PI)%R
  else if Rltb 0 y then (PI / 2)%R else if Rltb y 0 then (- (PI / 2))%R else 0%R.

(** PhaseVocoder.h:70-77. *)
Record pv := { p_n : Z; p_hop : Z; p_fft : fftreal; p_time : list R; p_real : list R; p_imag : list R;
               p_phase : list R; p_unwrapped : list R }.

(** The expression for omega in lines 101 and 125. *)
Definition pv_omega (n hop i : Z) : R := (2 * PI * IZR hop * IZR i / IZR n)%R.

(** PhaseVocoder::reset, PhaseVocoder.cpp:94-105. *)
Definition pv_reset (o : pv) : res pv :=
  '(ph, un) <- for_up 0 (p_n o / 2 + 1) (fun i '(ph, un) =>
    let omega := pv_omega (p_n o) (p_hop o) i in
    ph <- aset ph i (- omega)%R ;; un <- aset un i (- omega)%R ;; OK (ph, un)) (p_phase o, p_unwrapped o) ;;
  OK {| p_n := p_n o; p_hop := p_hop o; p_fft := p_fft o; p_time := p_time o; p_real := p_real o; p_imag := p_imag o;
        p_phase := ph; p_unwrapped := un |}.

(** Constructor, PhaseVocoder.cpp:27-44; the junk lists are uninitialised storage. *)
Definition pv_new (n hop : Z) (j1 j2 jc : list cplx) (jt jr ji : list R) : res pv :=
  f <- fftreal_new n j1 j2 jc ;;
  pv_reset {| p_n := n; p_hop := hop; p_fft := f; p_time := jt; p_real := jr; p_imag := ji;
              p_phase := repeat 0%R (Z.to_nat (n / 2 + 1)); p_unwrapped := repeat 0%R (Z.to_nat (n / 2 + 1)) |}.

(** PhaseVocoder::FFTShift, PhaseVocoder.cpp:56-64. *)
Definition pv_shift (n : Z) (src : list R) : res (list R) :=
  let hs := n / 2 in
  for_up 0 hs (fun i src =>
    tmp <- aget src i ;;
    v <- aget src (i + hs) ;;
    src <- aset src i v ;;
    aset src (i + hs) tmp) src.

(** getMagnitudes, PhaseVocoder.cpp:107-112. *)
Definition pv_magnitudes (n : Z) (re im mag : list R) : res (list R) :=
  for_up 0 (n / 2 + 1) (fun i mag =>
    a <- aget re i ;; b <- aget im i ;; aset mag i (sqrt (a * a + b * b))) mag.

(** getPhases, PhaseVocoder.cpp:114-119. *)
Definition pv_phases (n : Z) (re im theta : list R) : res (list R) :=
  for_up 0 (n / 2 + 1) (fun i theta =>
    b <- aget im i ;; a <- aget re i ;; aset theta i (atan2 b a)) theta.

(** unwrapPhases, PhaseVocoder.cpp:121-134: returns m_phase, m_unwrapped and the output array. *)
Definition pv_unwrap (n hop : Z) (theta ph un out : list R) : res (list R * list R * list R) :=
  for_up 0 (n / 2 + 1) (fun i '(ph, un, out) =>
    let omega := pv_omega n hop i in
    p <- aget ph i ;;
    let expected := (p + omega)%R in
    t <- aget theta i ;;
    let error := princarg (t - expected)%R in
    u <- aget un i ;;
    out <- aset out i (u + omega + error)%R ;;
    ph <- aset ph i t ;;
    v <- aget out i ;;
    un <- aset un i v ;;
    OK (ph, un, out)) (ph, un, out).

(** The three calls which end both process functions. *)
Definition pv_finish (o : pv) (f : fftreal) (tm re im mag theta out : list R) : res (pv * list R * list R * list R) :=
  mag <- pv_magnitudes (p_n o) re im mag ;;
  theta <- pv_phases (p_n o) re im theta ;;
  '(ph, un, out) <- pv_unwrap (p_n o) (p_hop o) theta (p_phase o) (p_unwrapped o) out ;;
  OK ({| p_n := p_n o; p_hop := p_hop o; p_fft := f; p_time := tm; p_real := re; p_imag := im;
         p_phase := ph; p_unwrapped := un |}, mag, theta, out).

(** processTimeDomain, PhaseVocoder.cpp:66-78. *)
Definition pv_time (o : pv) (src mag theta out : list R) : res (pv * list R * list R * list R) :=
  tm <- for_up 0 (p_n o) (fun i tm => v <- aget src i ;; aset tm i v) (p_time o) ;;
  tm <- pv_shift (p_n o) tm ;;
  '(f, re, im) <- fftreal_forward (p_fft o) tm (p_real o) (p_imag o) ;;
  pv_finish o f tm re im mag theta out.

(** processFrequencyDomain, PhaseVocoder.cpp:80-92. *)
Definition pv_freq (o : pv) (reals imags mag theta out : list R) : res (pv * list R * list R * list R) :=
  '(re, im) <- for_up 0 (p_n o / 2 + 1) (fun i '(re, im) =>
    a <- aget reals i ;; re <- aset re i a ;; b <- aget imags i ;; im <- aset im i b ;; OK (re, im)) (p_real o, p_imag o) ;;
  pv_finish o (p_fft o) (p_time o) re im mag theta out.
