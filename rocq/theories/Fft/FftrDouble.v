(** Model of ext/kissfft/tools/kiss_fftr.c and of class FFTReal (dsp/transforms/FFT.cpp:100-190)
    in IEEE doubles.  As FftrModel.v, with the operations of Base/Double.v. *)
From Coq Require Import ZArith List Bool.
From Flocq.IEEE754 Require Import BinarySingleNaN.
From Verif.Base Require Import Imp Double.
From Verif.Maths Require Import DoubleModel.
From Verif.Fft Require Import FftGen FftDouble.
Import ListNotations.
Open Scope Z_scope.

Notation dc := (double * double)%type.
Definition dneg1 : double := dint (-1).
(** sqrt of the C library (correctly rounded by IEEE-754). *)
Local Instance q53 : FLX.Prec_gt_0 53 := eq_refl.
Local Instance q1024 : Prec_lt_emax 53 1024 := eq_refl.
Definition dsqrt : double -> double := Bsqrt mode_NE.

(** struct kiss_fftr_state, kiss_fftr.c:18-25. *)
Record drcfg := { dr_sub : @gplan double; dr_tmp : list dc; dr_super : list dc }.

(** A double array as kiss_fft_cpx, and back. *)
Definition das_cplx (m : Z) (x : list double) : res (list dc) :=
  if 2 * m <=? zlen x then OK (ztab m (fun j => (zn d0 x (2 * j), zn d0 x (2 * j + 1)))) else UB.
Definition das_real (z : list dc) : list double :=
  ztab (2 * zlen z) (fun i => if i mod 2 =? 0 then fst (zn (d0, d0) z (i / 2)) else snd (zn (d0, d0) z (i / 2))).

Definition dkiss (p : @gplan double) (fin fout : list dc) : res (list dc) :=
  g_kiss_fft d0 dhalf dadd dsub dmul dopp (p_n p) (p_inv p) (p_tw p) (p_fac p) fin fout.
Definition dcadd := gadd dadd.
Definition dcsub := gsub dsub.
Definition dcmul := gmul dadd dsub dmul.
Definition dhalf_of (x : double) : double := dmul x dhalf.

Section Libm.
  Context (dcos dsin : double -> double).
  (** kiss_fftr.c:57-63. *)
  Definition dsuper (inv : bool) (nf i : Z) : dc :=
    let phase := dmul (dopp dpi) (dadd (ddiv (dint (i + 1)) (dint nf)) dhalf) in
    let phase := if inv then dmul phase dneg1 else phase in
    (dcos phase, dsin phase).
  (** kiss_fftr_alloc, kiss_fftr.c:27-65, nfft even. *)
  Definition dfftr_alloc (n : Z) (inv : bool) (junk : list dc) : res drcfg :=
    let nf := n / 2 in
    sub <- g_alloc (dtwiddle dcos dsin) nf inv ;;
    OK {| dr_sub := sub; dr_tmp := junk; dr_super := ztab (nf / 2) (dsuper inv nf) |}.
End Libm.

(** kiss_fftr, kiss_fftr.c:67-121. *)
Definition dfftr (st : drcfg) (timedata : list double) (freq : list dc) : res (drcfg * list dc) :=
  if p_inv (dr_sub st) then Throw   (* exit(1) *)
  else
    let ncfft := p_n (dr_sub st) in
    z <- das_cplx ncfft timedata ;;
    tmp <- dkiss (dr_sub st) z (dr_tmp st) ;;
    tdc <- aget tmp 0 ;;
    freq <- aset freq 0 (dadd (fst tdc) (snd tdc), d0) ;;
    freq <- aset freq ncfft (dsub (fst tdc) (snd tdc), d0) ;;
    freq <- for_up 1 (ncfft / 2 + 1) (fun k freq =>
      fpk <- aget tmp k ;;
      v <- aget tmp (ncfft - k) ;;
      let fpnk := (fst v, dopp (snd v)) in
      let f1k := dcadd fpk fpnk in
      let f2k := dcsub fpk fpnk in
      w <- aget (dr_super st) (k - 1) ;;
      let tw := dcmul f2k w in
      freq <- aset freq k (dhalf_of (dadd (fst f1k) (fst tw)), dhalf_of (dadd (snd f1k) (snd tw))) ;;
      aset freq (ncfft - k) (dhalf_of (dsub (fst f1k) (fst tw)), dhalf_of (dsub (snd tw) (snd f1k)))) freq ;;
    OK ({| dr_sub := dr_sub st; dr_tmp := tmp; dr_super := dr_super st |}, freq).

(** kiss_fftri, kiss_fftr.c:123-159. *)
Definition dfftri (st : drcfg) (freq : list dc) (timedata : list double) : res (drcfg * list double) :=
  if negb (p_inv (dr_sub st)) then Throw   (* exit(1) *)
  else
    let ncfft := p_n (dr_sub st) in
    a <- aget freq 0 ;;
    b <- aget freq ncfft ;;
    tmp <- aset (dr_tmp st) 0 (dadd (fst a) (fst b), dsub (fst a) (fst b)) ;;
    tmp <- for_up 1 (ncfft / 2 + 1) (fun k tmp =>
      fk <- aget freq k ;;
      v <- aget freq (ncfft - k) ;;
      let fnkc := (fst v, dopp (snd v)) in
      let fek := dcadd fk fnkc in
      let t := dcsub fk fnkc in
      w <- aget (dr_super st) (k - 1) ;;
      let fok := dcmul t w in
      tmp <- aset tmp k (dcadd fek fok) ;;
      let d := dcsub fek fok in
      aset tmp (ncfft - k) (fst d, dmul (snd d) dneg1)) tmp ;;
    z <- das_cplx ncfft timedata ;;
    z <- dkiss (dr_sub st) tmp z ;;
    OK ({| dr_sub := dr_sub st; dr_tmp := tmp; dr_super := dr_super st |},
        das_real z ++ skipn (Z.to_nat (2 * ncfft)) timedata).

(** class FFTReal::D, FFT.cpp:100-171. *)
Record dfftreal := { dr_n : Z; dr_planf : drcfg; dr_plani : drcfg; dr_c : list dc }.

(** FFT.cpp:103-111. *)
Definition dfftreal_new (dcos dsin : double -> double) (n : Z) (j1 j2 jc : list dc) : res dfftreal :=
  if negb (n mod 2 =? 0) then Throw
  else
    f <- dfftr_alloc dcos dsin n false j1 ;;
    i <- dfftr_alloc dcos dsin n true j2 ;;
    OK {| dr_n := n; dr_planf := f; dr_plani := i; dr_c := jc |}.

(** FFT.cpp:119-132. *)
Definition dfftreal_forward (o : dfftreal) (ri ro io : list double) : res (dfftreal * list double * list double) :=
  let n := dr_n o in
  '(pf, c) <- dfftr (dr_planf o) ri (dr_c o) ;;
  '(ro, io) <- for_up 0 (n / 2 + 1) (fun i '(ro, io) =>
    v <- aget c i ;; ro <- aset ro i (fst v) ;; io <- aset io i (snd v) ;; OK (ro, io)) (ro, io) ;;
  '(ro, io) <- for_up 0 (n / 2 - 1) (fun i '(ro, io) =>
    a <- aget ro (i + 1) ;;
    ro <- aset ro (n - i - 1) a ;;
    b <- aget io (i + 1) ;;
    io <- aset io (n - i - 1) (dopp b) ;;
    OK (ro, io)) (ro, io) ;;
  OK ({| dr_n := n; dr_planf := pf; dr_plani := dr_plani o; dr_c := c |}, ro, io).

(** FFT.cpp:134-145; [jio] is the uninitialised io. *)
Definition dfftreal_magnitude (o : dfftreal) (ri mo jio : list double) : res (dfftreal * list double) :=
  '(o, mo, io) <- dfftreal_forward o ri mo jio ;;
  mo <- for_up 0 (dr_n o) (fun i mo =>
    a <- aget mo i ;; b <- aget io i ;; aset mo i (dsqrt (dadd (dmul a a) (dmul b b)))) mo ;;
  OK (o, mo).

(** FFT.cpp:147-164. *)
Definition dfftreal_inverse (o : dfftreal) (ri ii ro : list double) : res (dfftreal * list double) :=
  let n := dr_n o in
  c <- for_up 0 (n / 2 + 1) (fun i c =>
    a <- aget ri i ;; b <- aget ii i ;; aset c i (a, b)) (dr_c o) ;;
  '(pi, ro) <- dfftri (dr_plani o) c ro ;;
  let scale := dscale n in
  ro <- for_up 0 n (fun i ro => a <- aget ro i ;; aset ro i (dmul a scale)) ro ;;
  OK ({| dr_n := n; dr_planf := dr_planf o; dr_plani := pi; dr_c := c |}, ro).
