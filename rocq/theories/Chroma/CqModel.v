(** Model of dsp/chromagram/ConstantQ.{h,cpp} over exact reals.
    Uninitialised arrays (new double[n]) have the contents passed as parameters. *)
From Coq Require Import List ZArith Reals Lia Bool.
From Verif.Base Require Import Imp RealOps.
From Verif.Maths Require Import IntModel.
From Verif.Windows Require Import WindowModel.
From Verif.Fft Require Import Cplx FftModel.
Import ListNotations.
Open Scope Z_scope.

(** struct CQConfig, ConstantQ.h:23-29. *)
Record cqconfig := { c_fs : R; c_min : R; c_max : R; c_bpo : Z; c_thresh : R }.

(** struct SparseKernel, ConstantQ.h:65-70: parallel vectors. *)
Record kernel := { k_is : list Z; k_js : list Z; k_real : list R; k_imag : list R }.

(** class ConstantQ, ConstantQ.h:31-73; [q_kernel = None] is the null pointer. *)
Record cq := {
  q_fs : R; q_fmin : R; q_fmax : R; q_bpo : Z; q_thresh : R;
  q_dq : R; q_uk : Z; q_len : Z; q_hop : Z; q_data : list R; q_kernel : option kernel
}.

(** ConstantQ::ConstantQ and initialise, ConstantQ.cpp:23-27, 129-151.  double to int conversions out of
    range are UB; a negative array size throws.  BPO = 0 and frequencies that are not positive (infinities
    and NaN in the code) are not modelled.  [jdata]: the contents of new double[2*m_uK]. *)
Definition cq_new (c : cqconfig) (jdata : list R) : res cq :=
  let dq := (1 / (Rpower 2 (1 / IZR (c_bpo c)) - 1))%R in
  uk <- int_ (Zceil (IZR (c_bpo c) * ln (c_max c / c_min c) / ln 2)) ;;
  l <- int_ (Zceil (dq * c_fs c / c_min c)) ;;
  len <- nextPowerOfTwo l ;;
  size <- int_ (2 * uk) ;;
  if size <? 0 then Throw else
  OK {| q_fs := c_fs c; q_fmin := c_min c; q_fmax := c_max c; q_bpo := c_bpo c; q_thresh := c_thresh c;
        q_dq := dq; q_uk := uk; q_len := len; q_hop := Z.quot len 8;
        q_data := jdata; q_kernel := None |}.

(** The swap of the two halves, ConstantQ.cpp:91-95 and 96-100, Chromagram.cpp:144-148. *)
Definition swap_halves (h : Z) (w : list R) : res (list R) :=
  for_up 0 h (fun i w =>
    temp <- aget w i ;;
    b <- aget w (i + h) ;;
    w <- aset w i b ;;
    aset w (i + h) temp) w.

(** hamming.cut(w + origin), ConstantQ.cpp:78-79, Window.h:61-63. *)
Definition cut_from (c : list R) (size origin : Z) (w : list R) : res (list R) :=
  for_up 0 size (fun i w => s <- aget w (origin + i) ;; m <- aget c i ;; aset w (origin + i) (s * m)%R) w.

(** w[origin + i] /= windowLength, ConstantQ.cpp:82-87. *)
Definition scale_from (size origin : Z) (w : list R) : res (list R) :=
  for_up 0 size (fun i w => s <- aget w (origin + i) ;; aset w (origin + i) (s / IZR size)%R) w.

(** The temporal kernel of one bin, ConstantQ.cpp:57-100. *)
Definition temporal (o : cq) (j : Z) (wr wi : list R) : res (list R * list R) :=
  let n := q_len o in
  '(wr, wi) <- for_up 0 n (fun i '(wr, wi) => wr <- aset wr i 0%R ;; wi <- aset wi i 0%R ;; OK (wr, wi)) (wr, wi) ;;
  wl <- int_ (Zceil (q_dq o * q_fs o / (q_fmin o * Rpower 2 (IZR j / IZR (q_bpo o))))) ;;
  let origin := Z.quot n 2 - Z.quot wl 2 in
  '(wr, wi) <- for_up 0 wl (fun i '(wr, wi) =>
    let angle := ((2 * PI * q_dq o * IZR i) / IZR wl)%R in
    wr <- aset wr (origin + i) (cos angle) ;;
    wi <- aset wi (origin + i) (sin angle) ;;
    OK (wr, wi)) (wr, wi) ;;
  hamming <- encache Hamming wl ;;
  wr <- cut_from hamming wl origin wr ;;
  wi <- cut_from hamming wl origin wi ;;
  wr <- scale_from wl origin wr ;;
  wi <- scale_from wl origin wi ;;
  wr <- swap_halves (Z.quot n 2) wr ;;
  wi <- swap_halves (Z.quot n 2) wi ;;
  OK (wr, wi).

Definition push (i j : Z) (re im : R) (k : kernel) : kernel :=
  {| k_is := k_is k ++ [i]; k_js := k_js k ++ [j]; k_real := k_real k ++ [re]; k_imag := k_imag k ++ [im] |}.

(** Thresholding and conversion to sparse form, ConstantQ.cpp:105-119. *)
Definition sparsen (o : cq) (j : Z) (tr ti : list R) (k : kernel) : res kernel :=
  for_up 0 (q_len o) (fun i k =>
    a <- aget tr i ;; b <- aget ti i ;;
    if Rleb (a * a + b * b) (q_thresh o * q_thresh o) then OK k
    else OK (push i j (a / IZR (q_len o)) (- b / IZR (q_len o)) k)) k.

(** ConstantQ::sparsekernel, ConstantQ.cpp:38-127.  A kernel made earlier is leaked and replaced. *)
Definition sparsekernel (o : cq) (wr wi tr ti : list R) (ji jo : list cplx) : res cq :=
  f <- fft_new (q_len o) ji jo ;;
  '(_, _, _, _, _, k) <- for_down (q_uk o - 1) 0 (fun j '(f, wr, wi, tr, ti, k) =>
    '(wr, wi) <- temporal o j wr wi ;;
    '(f, tr, ti) <- fft_process f false wr (Some wi) tr ti ;;
    k <- sparsen o j tr ti k ;;
    OK (f, wr, wi, tr, ti, k))
    (f, wr, wi, tr, ti, {| k_is := []; k_js := []; k_real := []; k_imag := [] |}) ;;
  OK {| q_fs := q_fs o; q_fmin := q_fmin o; q_fmax := q_fmax o; q_bpo := q_bpo o; q_thresh := q_thresh o;
        q_dq := q_dq o; q_uk := q_uk o; q_len := q_len o; q_hop := q_hop o;
        q_data := q_data o; q_kernel := Some k |}.

(** process(FFTRe, FFTIm, CQRe, CQIm), ConstantQ.cpp:195-230: the new contents of CQRe and CQIm.  Taking
    the address of element 0 of an empty vector (a kernel without cells) is not counted as an error. *)
Definition cq_process (o : cq) (fre fim cre cim : list R) : res (list R * list R) :=
  match q_kernel o with
  | None => OK (cre, cim)
  | Some k =>
    '(cre, cim) <- for_up 0 (q_uk o) (fun row '(cre, cim) =>
      cre <- aset cre row 0%R ;; cim <- aset cim row 0%R ;; OK (cre, cim)) (cre, cim) ;;
    for_up 0 (zlen (k_real k)) (fun i '(cre, cim) =>
      row <- aget (k_js k) i ;;
      col <- aget (k_is k) i ;;
      if col =? 0 then OK (cre, cim) else
      r1 <- aget (k_real k) i ;;
      i1 <- aget (k_imag k) i ;;
      r2 <- aget fre (q_len o - col) ;;
      i2 <- aget fim (q_len o - col) ;;
      a <- aget cre row ;;
      cre <- aset cre row (a + (r1 * r2 - i1 * i2))%R ;;
      b <- aget cim row ;;
      cim <- aset cim row (b + (r1 * i2 + i1 * r2))%R ;;
      OK (cre, cim)) (cre, cim)
  end.

(** process(fftdata), ConstantQ.cpp:160-193, on the array [d] for m_CQdata: its new contents.  Overflow of
    2*m_FFTLength at 2^31 is not modelled. *)
Definition interleaved (o : cq) (fft d : list R) : res (list R) :=
  match q_kernel o with
  | None => OK d
  | Some k =>
    d <- for_up 0 (2 * q_uk o) (fun row d => d <- aset d row 0%R ;; aset d (row + 1) 0%R) d ;;
    for_up 0 (zlen (k_real k)) (fun i d =>
      row <- aget (k_js k) i ;;
      col <- aget (k_is k) i ;;
      if col =? 0 then OK d else
      r1 <- aget (k_real k) i ;;
      i1 <- aget (k_imag k) i ;;
      r2 <- aget fft (2 * q_len o - 2 * col - 2) ;;
      i2 <- aget fft (2 * q_len o - 2 * col - 2 + 1) ;;
      a <- aget d (2 * row) ;;
      d <- aset d (2 * row) (a + (r1 * r2 - i1 * i2))%R ;;
      b <- aget d (2 * row + 1) ;;
      aset d (2 * row + 1) (b + (r1 * i2 + i1 * r2))%R) d
  end.
Definition cq_process_interleaved (o : cq) (fft : list R) : res (cq * list R) :=
  d <- interleaved o fft (q_data o) ;;
  OK ({| q_fs := q_fs o; q_fmin := q_fmin o; q_fmax := q_fmax o; q_bpo := q_bpo o; q_thresh := q_thresh o;
         q_dq := q_dq o; q_uk := q_uk o; q_len := q_len o; q_hop := q_hop o;
         q_data := d; q_kernel := q_kernel o |}, d).
