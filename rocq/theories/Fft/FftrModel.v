(** Model of ext/kissfft/tools/kiss_fftr.c (floating-point build), of class FFTReal of
    dsp/transforms/FFT.cpp and of dsp/transforms/DCT.cpp, over exact reals.  See FftModel.v
    for the simplifications.  A double array read through a kiss_fft_cpx pointer is the list
    of its consecutive pairs. *)
From Coq Require Import Reals ZArith List Bool.
From Verif.Base Require Import Imp RealOps.
From Verif.Fft Require Import Cplx FftModel.
Import ListNotations.
Open Scope Z_scope.

(** struct kiss_fftr_state, kiss_fftr.c:18-25. *)
Record rcfg := { substate : cfg; tmpbuf : list cplx; super_twiddles : list cplx }.

(** (kiss_fft_cpx* )p for an array of [2 m] doubles. *)
Definition as_cplx (m : Z) (x : list R) : res (list cplx) :=
  if 2 * m <=? zlen x then OK (ztab m (fun j => (zn 0%R x (2 * j), zn 0%R x (2 * j + 1)))) else UB.
Definition as_real (z : list cplx) : list R := 
  ztab (2 * zlen z) (fun i => if i mod 2 =? 0 then fst (zn c0 z (i / 2)) else snd (zn c0 z (i / 2))).

(** kiss_fftr_alloc, kiss_fftr.c:27-65, nfft even; [junk] is the uninitialised tmpbuf. *)
Definition kiss_fftr_alloc (n : Z) (inv : bool) (junk : list cplx) : res rcfg :=
  let nf := n / 2 in
  sub <- kiss_fft_alloc nf inv ;;
  let st := ztab (nf / 2) (fun i =>
    let phase := (- PI * (IZR (i + 1) / IZR nf + 0.5))%R in
    let phase := if inv then (phase * -1)%R else phase in
    (cos phase, sin phase)) in
  OK {| substate := sub; tmpbuf := junk; super_twiddles := st |}.

Definition half (x : R) : R := (x * 0.5)%R.

(** kiss_fftr, kiss_fftr.c:67-121: returns the state (tmpbuf changed) and freqdata. *)
Definition kiss_fftr (st : rcfg) (timedata : list R) (freq : list cplx) : res (rcfg * list cplx) :=
  if inverse (substate st) then Throw   (* exit(1) *)
  else
    let ncfft := nfft (substate st) in
    z <- as_cplx ncfft timedata ;;
    tmp <- kiss_fft (substate st) z (tmpbuf st) ;;
    tdc <- aget tmp 0 ;;
    freq <- aset freq 0 (fst tdc + snd tdc, 0)%R ;;
    freq <- aset freq ncfft (fst tdc - snd tdc, 0)%R ;;
    freq <- for_up 1 (ncfft / 2 + 1) (fun k freq =>
      fpk <- aget tmp k ;;
      v <- aget tmp (ncfft - k) ;;
      let fpnk := (fst v, (- snd v)%R) in
      let f1k := cadd fpk fpnk in
      let f2k := csub fpk fpnk in
      w <- aget (super_twiddles st) (k - 1) ;;
      let tw := cmul f2k w in
      freq <- aset freq k (half (fst f1k + fst tw), half (snd f1k + snd tw))%R ;;
      aset freq (ncfft - k) (half (fst f1k - fst tw), half (snd tw - snd f1k))%R) freq ;;
    OK ({| substate := substate st; tmpbuf := tmp; super_twiddles := super_twiddles st |}, freq).

(** kiss_fftri, kiss_fftr.c:123-159. *)
Definition kiss_fftri (st : rcfg) (freq : list cplx) (timedata : list R) : res (rcfg * list R) :=
  if negb (inverse (substate st)) then Throw   (* exit(1) *)
  else
    let ncfft := nfft (substate st) in
    a <- aget freq 0 ;;
    b <- aget freq ncfft ;;
    tmp <- aset (tmpbuf st) 0 (fst a + fst b, fst a - fst b)%R ;;
    tmp <- for_up 1 (ncfft / 2 + 1) (fun k tmp =>
      fk <- aget freq k ;;
      v <- aget freq (ncfft - k) ;;
      let fnkc := (fst v, (- snd v)%R) in
      let fek := cadd fk fnkc in
      let t := csub fk fnkc in
      w <- aget (super_twiddles st) (k - 1) ;;
      let fok := cmul t w in
      tmp <- aset tmp k (cadd fek fok) ;;
      let d := csub fek fok in
      aset tmp (ncfft - k) (fst d, snd d * -1)%R) tmp ;;
    z <- as_cplx ncfft timedata ;;
    z <- kiss_fft (substate st) tmp z ;;
    OK ({| substate := substate st; tmpbuf := tmp; super_twiddles := super_twiddles st |},
        as_real z ++ skipn (Z.to_nat (2 * ncfft)) timedata).

(** class FFTReal::D, FFT.cpp:100-171. *)
Record fftreal := { r_n : Z; r_planf : rcfg; r_plani : rcfg; r_c : list cplx }.

(** FFT.cpp:103-111. *)
Definition fftreal_new (n : Z) (j1 j2 jc : list cplx) : res fftreal :=
  if negb (n mod 2 =? 0) then Throw
  else
    f <- kiss_fftr_alloc n false j1 ;;
    i <- kiss_fftr_alloc n true j2 ;;
    OK {| r_n := n; r_planf := f; r_plani := i; r_c := jc |}.

(** FFT.cpp:119-132. *)
Definition fftreal_forward (o : fftreal) (ri ro io : list R) : res (fftreal * list R * list R) :=
  let n := r_n o in
  '(pf, c) <- kiss_fftr (r_planf o) ri (r_c o) ;;
  '(ro, io) <- for_up 0 (n / 2 + 1) (fun i '(ro, io) =>
    v <- aget c i ;; ro <- aset ro i (fst v) ;; io <- aset io i (snd v) ;; OK (ro, io)) (ro, io) ;;
  '(ro, io) <- for_up 0 (n / 2 - 1) (fun i '(ro, io) =>
    a <- aget ro (i + 1) ;;
    ro <- aset ro (n - i - 1) a ;;
    b <- aget io (i + 1) ;;
    io <- aset io (n - i - 1) (- b)%R ;;
    OK (ro, io)) (ro, io) ;;
  OK ({| r_n := n; r_planf := pf; r_plani := r_plani o; r_c := c |}, ro, io).

(** FFT.cpp:134-145; [jio] is the uninitialised io. *)
Definition fftreal_magnitude (o : fftreal) (ri mo jio : list R) : res (fftreal * list R) :=
  '(o, mo, io) <- fftreal_forward o ri mo jio ;;
  mo <- for_up 0 (r_n o) (fun i mo =>
    a <- aget mo i ;; b <- aget io i ;; aset mo i (sqrt (a * a + b * b))) mo ;;
  OK (o, mo).

(** FFT.cpp:147-164. *)
Definition fftreal_inverse (o : fftreal) (ri ii ro : list R) : res (fftreal * list R) :=
  let n := r_n o in
  c <- for_up 0 (n / 2 + 1) (fun i c =>
    a <- aget ri i ;; b <- aget ii i ;; aset c i (a, b)) (r_c o) ;;
  '(pi, ro) <- kiss_fftri (r_plani o) c ro ;;
  let scale := (1 / IZR n)%R in
  ro <- for_up 0 n (fun i ro => a <- aget ro i ;; aset ro i (a * scale)%R) ro ;;
  OK ({| r_n := n; r_planf := r_planf o; r_plani := pi; r_c := c |}, ro).

(** class DCT, DCT.h, DCT.cpp:20-29. *)
Record dct := { d_n : Z; d_scale : R; d_scaled : list R; d_time2 : list R; d_freq2r : list R; d_freq2i : list R; d_fft : fftreal }.

Definition dct_new (n : Z) (j1 j2 jc : list cplx) : res dct :=
  f <- fftreal_new (n * 4) j1 j2 jc ;;
  OK {| d_n := n; d_scale := (IZR n * sqrt (2 / IZR n))%R;
        d_scaled := repeat 0%R (Z.to_nat n); d_time2 := repeat 0%R (Z.to_nat (n * 4));
        d_freq2r := repeat 0%R (Z.to_nat (n * 4)); d_freq2i := repeat 0%R (Z.to_nat (n * 4)); d_fft := f |}.

(** DCT::forward, DCT.cpp:35-48. *)
Definition dct_forward (d : dct) (inp out : list R) : res (dct * list R) :=
  let n := d_n d in
  t <- for_up 0 n (fun i t =>
    v <- aget inp i ;; t <- aset t (i * 2 + 1) v ;; aset t (n * 4 - i * 2 - 1) v) (d_time2 d) ;;
  '(f, fr, fi) <- fftreal_forward (d_fft d) t (d_freq2r d) (d_freq2i d) ;;
  out <- for_up 0 n (fun i out => v <- aget fr i ;; aset out i v) out ;;
  OK ({| d_n := n; d_scale := d_scale d; d_scaled := d_scaled d; d_time2 := t; d_freq2r := fr; d_freq2i := fi; d_fft := f |}, out).

(** DCT::forwardUnitary, DCT.cpp:50-58. *)
Definition dct_forward_unitary (d : dct) (inp out : list R) : res (dct * list R) :=
  '(d, out) <- dct_forward d inp out ;;
  out <- for_up 0 (d_n d) (fun i out => v <- aget out i ;; aset out i (v / d_scale d)%R) out ;;
  v <- aget out 0 ;;
  out <- aset out 0 (v / sqrt 2)%R ;;
  OK (d, out).

(** DCT::inverse, DCT.cpp:60-80. *)
Definition dct_inverse (d : dct) (inp out : list R) : res (dct * list R) :=
  let n := d_n d in
  fr <- for_up 0 n (fun i fr => v <- aget inp i ;; aset fr i v) (d_freq2r d) ;;
  fr <- for_up 0 n (fun i fr => v <- aget inp i ;; aset fr (n * 2 - i) (- v)%R) fr ;;
  fr <- aset fr n 0%R ;;
  fi <- for_up 0 (n * 2 + 1) (fun i fi => aset fi i 0%R) (d_freq2i d) ;;
  '(f, t) <- fftreal_inverse (d_fft d) fr fi (d_time2 d) ;;
  out <- for_up 0 n (fun i out => v <- aget t (i * 2 + 1) ;; aset out i v) out ;;
  OK ({| d_n := n; d_scale := d_scale d; d_scaled := d_scaled d; d_time2 := t; d_freq2r := fr; d_freq2i := fi; d_fft := f |}, out).

(** DCT::inverseUnitary, DCT.cpp:82-90. *)
Definition dct_inverse_unitary (d : dct) (inp out : list R) : res (dct * list R) :=
  sc <- for_up 0 (d_n d) (fun i sc => v <- aget inp i ;; aset sc i (v * d_scale d)%R) (d_scaled d) ;;
  v <- aget sc 0 ;;
  sc <- aset sc 0 (v * sqrt 2)%R ;;
  dct_inverse {| d_n := d_n d; d_scale := d_scale d; d_scaled := sc; d_time2 := d_time2 d; d_freq2r := d_freq2r d;
                 d_freq2i := d_freq2i d; d_fft := d_fft d |} sc out.
