(** Model of base/Window.h, base/KaiserWindow.{h,cpp}, base/SincWindow.{h,cpp} over exact reals. *)
From Coq Require Import List ZArith Reals Lia Bool.
From Verif.Base Require Import Imp RealOps.
From Verif.Maths Require Import IntModel RealModel.
Import ListNotations.
Open Scope Z_scope.

(** Window.h:23-33. *)
Inductive wtype := Rectangular | Bartlett | Hamming | Hanning | Blackman | BlackmanHarris.

(** [mult[i] = mult[i] * v] *)
Definition scale_at (mult : list R) (i : Z) (v : R) : res (list R) :=
  m <- aget mult i ;; aset mult i (m * v)%R.

(** Window<T>::encache, Window.h:87-155. *)
Definition encache (t : wtype) (n : Z) : res (list R) :=
  if n <? 0 then Throw else
  let mult := repeat 1%R (Z.to_nat n) in
  let N := IZR n in
  match t with
  | Rectangular => for_up 0 n (fun i m => scale_at m i (1/2)%R) mult
  | Bartlett =>
      if n =? 2 then m <- aset mult 1 0%R ;; aset m 0 0%R
      else if n =? 3 then
        m <- aset mult 0 0%R ;; m <- aset m 2 (2/3)%R ;; aset m 1 (2/3)%R
      else if 3 <? n then
        for_up 0 (n / 2) (fun i m =>
          m <- scale_at m i (IZR i / IZR (n / 2))%R ;;
          scale_at m (i + n - n / 2) (1 - (IZR i / IZR (n / 2)))%R) mult
      else OK mult
  | Hamming =>
      if 1 <? n then for_up 0 n (fun i m =>
        scale_at m i (0.54 - 0.46 * cos (2 * PI * IZR i / N))%R) mult else OK mult
  | Hanning =>
      if 1 <? n then for_up 0 n (fun i m =>
        scale_at m i (0.50 - 0.50 * cos (2 * PI * IZR i / N))%R) mult else OK mult
  | Blackman =>
      if 1 <? n then for_up 0 n (fun i m =>
        scale_at m i (0.42 - 0.50 * cos (2 * PI * IZR i / N) + 0.08 * cos (4 * PI * IZR i / N))%R) mult else OK mult
  | BlackmanHarris =>
      if 1 <? n then for_up 0 n (fun i m =>
        scale_at m i (0.35875 - 0.48829 * cos (2 * PI * IZR i / N) + 0.14128 * cos (4 * PI * IZR i / N)
                      - 0.01168 * cos (6 * PI * IZR i / N))%R) mult else OK mult
  end.

(** cut(src, dst), Window.h:64-68, KaiserWindow.h:87-91, SincWindow.h:48-52 (src and dst separate
    or the same array). *)
Definition cut (w : list R) (size : Z) (src dst : list R) : res (list R) :=
  for_up 0 size (fun i dst => s <- aget src i ;; c <- aget w i ;; aset dst i (s * c)%R) dst.
Definition cut_in_place (w : list R) (size : Z) (src : list R) : res (list R) :=
  for_up 0 size (fun i src => s <- aget src i ;; c <- aget w i ;; aset src i (s * c)%R) src.

(** getWindowData, Window.h:73-79. *)
Definition getWindowData (w : list R) (size : Z) : res (list R) :=
  for_up 0 size (fun i d => v <- aget w i ;; OK (d ++ [v])) [].

(** parametersForTransitionWidth, KaiserWindow.cpp:18-32; the conversion of the length to int is
    taken to be in range.  Result: length, beta. *)
Definition kaiser_parameters (attenuation transition : R) : Z * R :=
  (1 + (if Rltb 21 attenuation then Zceil ((attenuation - 7.95) / (2.285 * transition))
        else Zceil (5.79 / transition)),
   if Rltb 50 attenuation then (0.1102 * (attenuation - 8.7))%R
   else if Rltb 21 attenuation then
     (0.5842 * Rpower (attenuation - 21) 0.4 + 0.07886 * (attenuation - 21))%R
   else 0%R).
(** parametersForBandwidth, KaiserWindow.h:71-76. *)
Definition kaiser_bandwidth (attenuation bandwidth samplerate : R) : Z * R :=
  kaiser_parameters attenuation ((bandwidth * 2 * PI) / samplerate).

(** besselTerm and bessel0, KaiserWindow.cpp:34-51. *)
Definition besselTerm (x : R) (i : Z) : res R :=
  if i =? 0 then OK 1%R else
  f <- factorial_ i ;; OK (pow (x / 2) (Z.to_nat (i * 2)) / (f * f))%R.
Definition bessel0 (x : R) : res R :=
  for_up 0 20 (fun i b => t <- besselTerm x i ;; OK (b + t)%R) 0%R.

(** KaiserWindow::init, KaiserWindow.cpp:53-66. *)
Definition kaiser_init (length : Z) (beta : R) : res (list R) :=
  denominator <- bessel0 beta ;;
  let even := Z.rem length 2 =? 0 in
  w <- for_up 0 (if even then Z.quot length 2 else Z.quot (length + 1) 2) (fun i w =>
    let k := (IZR (2 * i) / IZR (length - 1) - 1)%R in
    b <- bessel0 (beta * sqrt (1 - k * k)) ;;
    OK (w ++ [(b / denominator)%R])) [] ;;
  for_up 0 (if even then Z.quot length 2 else Z.quot (length - 1) 2) (fun i w =>
    v <- aget w (Z.quot length 2 - i - 1) ;; OK (w ++ [v])) w.

(** SincWindow::init, SincWindow.cpp:18-43. *)
Definition sinc_init (length : Z) (p : R) : res (list R) :=
  if length <? 1 then OK []
  else if length <? 2 then OK [1%R]
  else
    let n0 := if Z.rem length 2 =? 0 then Z.quot length 2 else Z.quot (length - 1) 2 in
    let n1 := if Z.rem length 2 =? 0 then Z.quot length 2 else Z.quot (length + 1) 2 in
    let m := (2 * PI / p)%R in
    w <- for_up 0 n0 (fun i w =>
      let x := (IZR (Z.quot length 2 - i) * m)%R in OK (w ++ [(sin x / x)%R])) [] ;;
    let w := w ++ [1%R] in
    for_up 1 n1 (fun i w => let x := (IZR i * m)%R in OK (w ++ [(sin x / x)%R])) w.

(** The filter of Resampler::initialise, Resampler.cpp:58-86: length, filter and peak-to-pole. *)
Definition resampler_filter (source target : Z) (snr bandwidth : R) : res (list R * R) :=
  let higher := Z.max source target in
  let lower := Z.min source target in
  g <- gcd_c (S (Z.to_nat higher)) lower higher ;;
  let p2p := IZR (Z.quot higher g) in
  let p2p := if target <? source then (p2p / (1 - bandwidth / 2))%R else p2p in
  let '(len, beta) := kaiser_bandwidth snr bandwidth (IZR (Z.quot higher g)) in
  let len := if Z.rem len 2 =? 0 then len + 1 else len in
  let len := if 200001 <? len then 200001 else len in
  kw <- kaiser_init len beta ;;
  sw <- sinc_init len (p2p * 2) ;;
  if len <? 0 then Throw else
  let filter := repeat 0%R (Z.to_nat len) in
  filter <- for_up 0 len (fun i f => aset f i 1%R) filter ;;
  filter <- cut_in_place sw len filter ;;
  filter <- cut_in_place kw len filter ;;
  OK (filter, p2p).
