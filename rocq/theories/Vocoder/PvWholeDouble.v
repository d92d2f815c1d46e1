(** Model of the whole of dsp/phasevocoder/PhaseVocoder.cpp in IEEE doubles, on top of FFTReal in
    doubles (Fft/FftrDouble.v) and the unwrapping in doubles (Vocoder/PvDouble.v).  The C library's
    atan2 is the parameter [datan2].
    Simplifications: the output arrays do not overlap each other or the inputs, and allocation
    succeeds. *)
From Coq Require Import ZArith List Bool.
From Verif.Base Require Import Imp Double.
From Verif.Fft Require Import FftDouble FftrDouble.
From Verif.Vocoder Require Import PvDouble.
Import ListNotations.
Open Scope Z_scope.

(** PhaseVocoder.h:70-77. *)
Record dvoc := { dv_n : Z; dv_hop : Z; dv_fft : dfftreal; dv_time : list double; dv_real : list double; dv_imag : list double;
                 dv_phase : list double; dv_unwrapped : list double }.

(** PhaseVocoder::reset, PhaseVocoder.cpp:94-105. *)
Definition dvoc_reset (o : dvoc) : res dvoc :=
  '(ph, un) <- dpv_reset (dv_n o) (dv_hop o) (dv_phase o) (dv_unwrapped o) ;;
  OK {| dv_n := dv_n o; dv_hop := dv_hop o; dv_fft := dv_fft o; dv_time := dv_time o; dv_real := dv_real o; dv_imag := dv_imag o;
        dv_phase := ph; dv_unwrapped := un |}.

(** Constructor, PhaseVocoder.cpp:27-44; the junk lists are uninitialised storage. *)
Definition dvoc_new (dcos dsin : double -> double) (n hop : Z) (j1 j2 jc : list dc) (jt jr ji : list double) : res dvoc :=
  f <- dfftreal_new dcos dsin n j1 j2 jc ;;
  dvoc_reset {| dv_n := n; dv_hop := hop; dv_fft := f; dv_time := jt; dv_real := jr; dv_imag := ji;
                dv_phase := repeat d0 (Z.to_nat (n / 2 + 1)); dv_unwrapped := repeat d0 (Z.to_nat (n / 2 + 1)) |}.

(** PhaseVocoder::FFTShift, PhaseVocoder.cpp:56-64. *)
Definition dvoc_shift (n : Z) (src : list double) : res (list double) :=
  let hs := n / 2 in
  for_up 0 hs (fun i src =>
    tmp <- aget src i ;;
    v <- aget src (i + hs) ;;
    src <- aset src i v ;;
    aset src (i + hs) tmp) src.

(** getMagnitudes, PhaseVocoder.cpp:107-112. *)
Definition dvoc_magnitudes (n : Z) (re im mag : list double) : res (list double) :=
  for_up 0 (n / 2 + 1) (fun i mag =>
    a <- aget re i ;; b <- aget im i ;; aset mag i (dsqrt (dadd (dmul a a) (dmul b b)))) mag.

(** The arguments of a call: the samples of processTimeDomain or the bins of processFrequencyDomain. *)
Inductive dsource := Samples (src : list double) | Bins (reals imags : list double).
Record dframe := { fr_src : dsource; fr_mag : list double; fr_theta : list double; fr_out : list double }.
(** What a call leaves in mag, theta and unwrapped. *)
Record dresult := { rs_mag : list double; rs_theta : list double; rs_out : list double }.

(** Lines 70-74 of processTimeDomain and 85-88 of processFrequencyDomain, which fill m_real and m_imag. *)
Definition dvoc_load (o : dvoc) (s : dsource) : res (dfftreal * list double * list double * list double) :=
  match s with
  | Samples src =>
      tm <- for_up 0 (dv_n o) (fun i tm => v <- aget src i ;; aset tm i v) (dv_time o) ;;
      tm <- dvoc_shift (dv_n o) tm ;;
      '(f, re, im) <- dfftreal_forward (dv_fft o) tm (dv_real o) (dv_imag o) ;;
      OK (f, tm, re, im)
  | Bins reals imags =>
      '(re, im) <- for_up 0 (dv_n o / 2 + 1) (fun i '(re, im) =>
        a <- aget reals i ;; re <- aset re i a ;; b <- aget imags i ;; im <- aset im i b ;; OK (re, im)) (dv_real o, dv_imag o) ;;
      OK (dv_fft o, dv_time o, re, im)
  end.

Section Calls.
  Context (datan2 : double -> double -> double).

  (** getPhases, PhaseVocoder.cpp:114-119. *)
  Definition dvoc_phases (n : Z) (re im theta : list double) : res (list double) :=
    for_up 0 (n / 2 + 1) (fun i theta =>
      b <- aget im i ;; a <- aget re i ;; aset theta i (datan2 b a)) theta.

  (** processTimeDomain, PhaseVocoder.cpp:66-78, and processFrequencyDomain, PhaseVocoder.cpp:80-92. *)
  Definition dvoc_process (o : dvoc) (f : dframe) : res (dvoc * dresult) :=
    '(t, tm, re, im) <- dvoc_load o (fr_src f) ;;
    mag <- dvoc_magnitudes (dv_n o) re im (fr_mag f) ;;
    theta <- dvoc_phases (dv_n o) re im (fr_theta f) ;;
    '(ph, un, out) <- dpv_unwrap (dv_n o) (dv_hop o) theta (dv_phase o) (dv_unwrapped o) (fr_out f) ;;
    OK ({| dv_n := dv_n o; dv_hop := dv_hop o; dv_fft := t; dv_time := tm; dv_real := re; dv_imag := im;
           dv_phase := ph; dv_unwrapped := un |}, {| rs_mag := mag; rs_theta := theta; rs_out := out |}).

  (** Call after call. *)
  Fixpoint dvoc_run (o : dvoc) (frames : list dframe) : res (dvoc * list dresult) :=
    match frames with
    | [] => OK (o, [])
    | f :: rest =>
        '(o, r) <- dvoc_process o f ;;
        '(o, rs) <- dvoc_run o rest ;;
        OK (o, r :: rs)
    end.
End Calls.
