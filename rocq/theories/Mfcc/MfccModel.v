(** Model of dsp/mfcc/MFCC.{h,cpp} over exact reals, on top of the models of Window and FFTReal.
    calloc succeeds and fills with zeros; the field ceps is allocated but never used.  A pow() or log10()
    whose result is not a finite number shows as [UB]. *)
From Coq Require Import List ZArith Reals Bool.
From Verif.Base Require Import Imp RealOps Tables Matrix.
From Verif.Measures Require Import MeasModel.
From Verif.Fft Require Import Cplx FftrModel.
From Verif.Windows Require Import WindowModel.
Import ListNotations.
Open Scope Z_scope.

(** MFCC.h:23-33. *)
Record mfccconfig := { k_fs : Z; k_fftsize : Z; k_nceps : Z; k_logpower : R; k_want_c0 : bool; k_window : wtype }.

(** MFCC.h:58-92; the filter bank parameters are constants below. *)
Record mfcc := { m_fftsize : Z; m_filters : Z; m_logpower : R; m_nceps : Z; m_dct : list (list R); m_weights : list (list R);
  m_window : list R; m_re : list R; m_im : list R; m_mag : list R; m_ear : list R; m_fft : fftreal; m_c0 : bool }.

(** MFCC.cpp:31-35. *)
Definition lowestFrequency : R := 66.6666666.
Definition linearFilters : Z := 13.
Definition linearSpacing : R := 66.66666666.
Definition logFilters : Z := 27.
Definition logSpacing : R := 1.0711703.

(** freqs, MFCC.cpp:70 and 79-86. *)
Definition mel_freqs (total : Z) : res (list R) :=
  f <- for_up 0 linearFilters (fun i f => aset f i (lowestFrequency + IZR i * linearSpacing)%R)
         (repeat 0%R (Z.to_nat (total + 2))) ;;
  for_up linearFilters (total + 2) (fun i f =>
    b <- aget f (linearFilters - 1) ;;
    aset f i (b * logSpacing ^ Z.to_nat (i - linearFilters + 1))%R) f.

(** memcpy(dst, &src[from], n*sizeof(double)), MFCC.cpp:89-91. *)
Definition copy_from (src : list R) (from n : Z) : res (list R) :=
  for_up 0 n (fun i d => x <- aget src (from + i) ;; aset d i x) (repeat 0%R (Z.to_nat n)).

(** One weight, MFCC.cpp:107-127. *)
Definition mel_weight (f lo ce up height : R) : R :=
  let w := if Rltb lo f && Rleb f ce then (height * (f - lo) / (ce - lo))%R else 0%R in
  if Rltb ce f && Rltb f up then (w + height * (up - f) / (up - ce))%R else (w + 0)%R.

(** mfccFilterWeights, MFCC.cpp:65-68 and 88-130. *)
Definition mel_weights (total fftSize fs : Z) : res (list (list R)) :=
  freqs <- mel_freqs total ;;
  lower <- copy_from freqs 0 total ;;
  center <- copy_from freqs 1 total ;;
  upper <- copy_from freqs 2 total ;;
  height <- for_up 0 total (fun i h => u <- aget upper i ;; l <- aget lower i ;; aset h i (2 / (u - l))%R)
              (repeat 0%R (Z.to_nat total)) ;;
  fftFreqs <- for_up 0 fftSize (fun i f => aset f i (IZR i / IZR fftSize * IZR fs)%R) (repeat 0%R (Z.to_nat fftSize)) ;;
  for_up 0 total (fun i w =>
    for_up 0 fftSize (fun j w =>
      f <- aget fftFreqs j ;; l <- aget lower i ;; c <- aget center i ;; u <- aget upper i ;; h <- aget height i ;;
      mput w i j (mel_weight f l c u h)) w)
    (repeat (repeat 0%R (Z.to_nat fftSize)) (Z.to_nat total)).

(** mfccDCTMatrix, MFCC.cpp:60-63 and 137-148. *)
Definition mel_dct (total nceps : Z) : res (list (list R)) :=
  d <- for_up 0 (nceps + 1) (fun i d =>
         for_up 0 total (fun j d =>
           mput d i j (1 / sqrt (IZR total / 2) * cos (IZR i * (IZR j + 0.5) / IZR total * PI))%R) d)
       (repeat (repeat 0%R (Z.to_nat total)) (Z.to_nat (nceps + 1))) ;;
  for_up 0 total (fun j d => x <- mget d 0 j ;; mput d 0 j (sqrt 2 / 2 * x)%R) d.

(** Constructor, MFCC.cpp:24-166; [j1], [j2], [jc] are the uninitialised buffers of FFTReal. *)
Definition mfcc_new (c : mfccconfig) (j1 j2 jc : list cplx) : res mfcc :=
  let fftSize := k_fftsize c in
  let total := linearFilters + logFilters in
  t <- fftreal_new fftSize j1 j2 jc ;;
  w <- mel_weights total fftSize (k_fs c) ;;
  d <- mel_dct total (k_nceps c) ;;
  win <- encache (k_window c) fftSize ;;
  OK {| m_fftsize := fftSize; m_filters := total; m_logpower := k_logpower c; m_nceps := k_nceps c; m_dct := d; m_weights := w;
        m_window := win; m_re := repeat 0%R (Z.to_nat fftSize); m_im := repeat 0%R (Z.to_nat fftSize);
        m_mag := repeat 0%R (Z.to_nat (Z.quot fftSize 2)); m_ear := repeat 0%R (Z.to_nat total); m_fft := t; m_c0 := k_want_c0 c |}.

(** pow() of doubles where the result is finite. *)
Definition cpow (x y : R) : res R :=
  if Rltb 0 x then OK (Rpower x y)
  else if Rltb x 0 then if Reqb y (IZR (Zfloor y)) then OK (powerRZ x (Zfloor y)) else UB
  else if Rltb 0 y then OK 0%R else if Reqb y 0 then OK 1%R else UB.

(** fftMag and earMag, MFCC.cpp:224-244. *)
Definition mel_bands (o : mfcc) (real imag : list R) : res (list R * list R) :=
  let half := Z.quot (m_fftsize o) 2 in
  mag <- for_up 0 half (fun i m => a <- aget real i ;; b <- aget imag i ;; aset m i (sqrt (a * a + b * b))) (m_mag o) ;;
  ear <- for_up 0 (m_filters o) (fun i e => aset e i 0%R) (m_ear o) ;;
  ear <- for_up 0 (m_filters o) (fun i e =>
    tmp <- for_up 0 half (fun j tmp => w <- mget (m_weights o) i j ;; x <- aget mag j ;; OK (tmp + w * x)%R) 0%R ;;
    e <- aset e i (if Rltb 0 tmp then log10 tmp else 0%R) ;;
    if negb (Reqb (m_logpower o) 1) then x <- aget e i ;; y <- cpow x (m_logpower o) ;; aset e i y
    else OK e) ear ;;
  OK (mag, ear).

(** process(real, imag, outceps), MFCC.cpp:220-273: the object, outceps, the value returned. *)
Definition mfcc_freq (o : mfcc) (real imag out : list R) : res (mfcc * list R * Z) :=
  '(mag, ear) <- mel_bands o real imag ;;
  let ceps i := for_up 0 (m_filters o) (fun j tmp => d <- mget (m_dct o) i j ;; e <- aget ear j ;; OK (tmp + d * e)%R) 0%R in
  out <- (if m_c0 o then for_up 0 (m_nceps o + 1) (fun i out => tmp <- ceps i ;; aset out i tmp) out
          else for_up 1 (m_nceps o + 1) (fun i out => tmp <- ceps i ;; aset out (i - 1) tmp) out) ;;
  OK ({| m_fftsize := m_fftsize o; m_filters := m_filters o; m_logpower := m_logpower o; m_nceps := m_nceps o; m_dct := m_dct o;
         m_weights := m_weights o; m_window := m_window o; m_re := m_re o; m_im := m_im o; m_mag := mag; m_ear := ear;
         m_fft := m_fft o; m_c0 := m_c0 o |}, out, m_nceps o).

(** process(inframe, outceps), MFCC.cpp:205-218; [jin] is the uninitialised inputData. *)
Definition mfcc_time (o : mfcc) (jin inframe out : list R) : res (mfcc * list R * Z) :=
  input <- for_up 0 (m_fftsize o) (fun i d => x <- aget inframe i ;; aset d i x) jin ;;
  input <- cut_in_place (m_window o) (m_fftsize o) input ;;
  '(t, re, im) <- fftreal_forward (m_fft o) input (m_re o) (m_im o) ;;
  mfcc_freq {| m_fftsize := m_fftsize o; m_filters := m_filters o; m_logpower := m_logpower o; m_nceps := m_nceps o; m_dct := m_dct o;
         m_weights := m_weights o; m_window := m_window o; m_re := re; m_im := im; m_mag := m_mag o; m_ear := m_ear o;
         m_fft := t; m_c0 := m_c0 o |} re im out.
