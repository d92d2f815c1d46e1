(** Model of ext/kissfft/kiss_fft.c (floating-point build: no FIXED_POINT, no USE_SIMD, no
    OpenMP) and of class FFT of dsp/transforms/FFT.cpp, over exact reals.

    Simplifications.  kiss_fft_scalar is double (build/general/Makefile.inc:8), here R, and
    cos/sin are the real functions.  Pointers are an array and an offset; forming a pointer
    beyond the end of an array without reading it (tw1 += fstride after the last pass) is
    not an error here.  A do-while loop that counts m (or p) passes is written as a counted
    loop: kf_factor never produces a zero (proved).  Cells of Fout read,
    updated and read again within one pass of a butterfly are held in local values (the p
    cells of a pass are distinct).  malloc is assumed to succeed. *)
From Coq Require Import Reals ZArith List Bool.
From Verif.Base Require Import Imp RealOps.
From Verif.Fft Require Import Cplx.
Import ListNotations.
Open Scope Z_scope.

(** Conversion of the size_t result of [twidx + fstride * k] back to int (kiss_fft.c:226). *)
Definition wrap32 (x : Z) : Z := (x + 2 ^ 31) mod 2 ^ 32 - 2 ^ 31.

(** struct kiss_fft_state, _kiss_fft_guts.h:32-37. *)
Record cfg := { nfft : Z; inverse : bool; factors : list Z; twiddles : list cplx }.

(** #define MAXFACTORS 32, int factors[2*MAXFACTORS] (_kiss_fft_guts.h:26, 35). *)
Definition facbuf_len : Z := 64.

(** kf_factor, kiss_fft.c:310-331, the inner loop: next radix tried.  floor_sqrt is the
    integer square root: n is an int, so sqrt((double)n) is exact enough for floor. *)
Definition next_p (n fs p : Z) : Z :=
  let p := if p =? 4 then 2 else if p =? 2 then 3 else p + 2 in
  if p >? fs then n else p.

(** kiss_fft.c:318-326: while (n % p) { ... } *)
Definition find_p (fuel : nat) (n fs p : Z) : res Z :=
  while fuel (fun p => negb (n mod p =? 0)) (fun p => OK (next_p n fs p)) p.

(** kiss_fft.c:317-330: the do-while loop; [buf] is the part of facbuf written so far. *)
Fixpoint kf_factor_loop (fuel : nat) (fs n p : Z) (buf : list Z) : res (list Z) :=
  match fuel with
  | O => Diverge
  | S k =>
      p <- find_p (Z.to_nat fs + 8) n fs p ;;
      let n := n / p in
      if zlen buf + 2 <=? facbuf_len then
        let buf := buf ++ [p; n] in
        if n >? 1 then kf_factor_loop k fs n p buf else OK buf
      else UB
  end.

Definition kf_factor (n : Z) : res (list Z) :=
  kf_factor_loop (S (Z.to_nat n)) (Z.sqrt n) n 4 [].

(** kiss_fft_alloc, kiss_fft.c:340-369 (mem = lenmem = NULL). *)
Definition kiss_fft_alloc (n : Z) (inv : bool) : res cfg :=
  let tw := ztab n (fun i =>
    let phase := (-2 * PI * IZR i / IZR n)%R in
    let phase := if inv then (phase * -1)%R else phase in
    (cos phase, sin phase)) in
  fs <- kf_factor n ;;
  OK {| nfft := n; inverse := inv; factors := fs; twiddles := tw |}.

(** kf_bfly2, kiss_fft.c:21-42. *)
Definition kf_bfly2 (F : list cplx) (off fstride : Z) (st : cfg) (m : Z) : res (list cplx) :=
  for_up 0 m (fun u F =>
    w <- aget (twiddles st) (u * fstride) ;;
    b <- aget F (off + m + u) ;;
    let t := cmul b w in
    a <- aget F (off + u) ;;
    F <- aset F (off + m + u) (csub a t) ;;
    a <- aget F (off + u) ;;
    aset F (off + u) (cadd a t)) F.

(** kf_bfly4, kiss_fft.c:44-90. *)
Definition kf_bfly4 (F : list cplx) (off fstride : Z) (st : cfg) (m : Z) : res (list cplx) :=
  let m2 := 2 * m in
  let m3 := 3 * m in
  for_up 0 m (fun u F =>
    let o := off + u in
    w1 <- aget (twiddles st) (u * fstride) ;;
    w2 <- aget (twiddles st) (u * (fstride * 2)) ;;
    w3 <- aget (twiddles st) (u * (fstride * 3)) ;;
    a <- aget F o ;;
    b <- aget F (o + m) ;;
    c <- aget F (o + m2) ;;
    d <- aget F (o + m3) ;;
    let s0 := cmul b w1 in
    let s1 := cmul c w2 in
    let s2 := cmul d w3 in
    let s5 := csub a s1 in
    let a := cadd a s1 in
    let s3 := cadd s0 s2 in
    let s4 := csub s0 s2 in
    F <- aset F (o + m2) (csub a s3) ;;
    F <- aset F o (cadd a s3) ;;
    if inverse st then
      F <- aset F (o + m) (fst s5 - snd s4, snd s5 + fst s4)%R ;;
      aset F (o + m3) (fst s5 + snd s4, snd s5 - fst s4)%R
    else
      F <- aset F (o + m) (fst s5 + snd s4, snd s5 - fst s4)%R ;;
      aset F (o + m3) (fst s5 - snd s4, snd s5 + fst s4)%R) F.

(** kf_bfly3, kiss_fft.c:92-134. *)
Definition kf_bfly3 (F : list cplx) (off fstride : Z) (st : cfg) (m : Z) : res (list cplx) :=
  let m2 := 2 * m in
  epi3 <- aget (twiddles st) (fstride * m) ;;
  for_up 0 m (fun u F =>
    let o := off + u in
    w1 <- aget (twiddles st) (u * fstride) ;;
    w2 <- aget (twiddles st) (u * (fstride * 2)) ;;
    a <- aget F o ;;
    b <- aget F (o + m) ;;
    c <- aget F (o + m2) ;;
    let s1 := cmul b w1 in
    let s2 := cmul c w2 in
    let s3 := cadd s1 s2 in
    let s0 := csub s1 s2 in
    let fm := (fst a - fst s3 * 0.5, snd a - snd s3 * 0.5)%R in
    let s0 := (fst s0 * snd epi3, snd s0 * snd epi3)%R in
    F <- aset F o (cadd a s3) ;;
    F <- aset F (o + m2) (fst fm + snd s0, snd fm - fst s0)%R ;;
    aset F (o + m) (fst fm - snd s0, snd fm + fst s0)%R) F.

(** kf_bfly5, kiss_fft.c:136-195. *)
Definition kf_bfly5 (F : list cplx) (off fstride : Z) (st : cfg) (m : Z) : res (list cplx) :=
  ya <- aget (twiddles st) (fstride * m) ;;
  yb <- aget (twiddles st) (fstride * 2 * m) ;;
  for_up 0 m (fun u F =>
    let o := off + u in
    s0 <- aget F o ;;
    w1 <- aget (twiddles st) (u * fstride) ;;
    w2 <- aget (twiddles st) (2 * u * fstride) ;;
    w3 <- aget (twiddles st) (3 * u * fstride) ;;
    w4 <- aget (twiddles st) (4 * u * fstride) ;;
    f1 <- aget F (o + m) ;;
    f2 <- aget F (o + 2 * m) ;;
    f3 <- aget F (o + 3 * m) ;;
    f4 <- aget F (o + 4 * m) ;;
    let s1 := cmul f1 w1 in
    let s2 := cmul f2 w2 in
    let s3 := cmul f3 w3 in
    let s4 := cmul f4 w4 in
    let s7 := cadd s1 s4 in
    let s10 := csub s1 s4 in
    let s8 := cadd s2 s3 in
    let s9 := csub s2 s3 in
    F <- aset F o (fst s0 + (fst s7 + fst s8), snd s0 + (snd s7 + snd s8))%R ;;
    let s5 := (fst s0 + fst s7 * fst ya + fst s8 * fst yb,
               snd s0 + snd s7 * fst ya + snd s8 * fst yb)%R in
    let s6 := (snd s10 * snd ya + snd s9 * snd yb,
               - (fst s10 * snd ya) - fst s9 * snd yb)%R in
    F <- aset F (o + m) (csub s5 s6) ;;
    F <- aset F (o + 4 * m) (cadd s5 s6) ;;
    let s11 := (fst s0 + fst s7 * fst yb + fst s8 * fst ya,
                snd s0 + snd s7 * fst yb + snd s8 * fst ya)%R in
    let s12 := (- (snd s10 * snd yb) + snd s9 * snd ya,
                fst s10 * snd yb - fst s9 * snd ya)%R in
    F <- aset F (o + 2 * m) (cadd s11 s12) ;;
    aset F (o + 3 * m) (csub s11 s12)) F.

(** kf_bfly_generic, kiss_fft.c:198-235: the innermost loop, 225-230. *)
Definition generic_sum (F : list cplx) (off fstride : Z) (st : cfg) (scratch : list cplx) (k p : Z) : res (list cplx) :=
  '(_, F) <- for_up 1 p (fun q '(twidx, F) =>
      let twidx := wrap32 (twidx + fstride * k) in
      let twidx := if twidx >=? nfft st then twidx - nfft st else twidx in
      s <- aget scratch q ;;
      w <- aget (twiddles st) twidx ;;
      let t := cmul s w in
      a <- aget F (off + k) ;;
      F <- aset F (off + k) (cadd a t) ;;
      OK (twidx, F)) (0, F) ;;
  OK F.

Definition kf_bfly_generic (F : list cplx) (off fstride : Z) (st : cfg) (m p : Z) : res (list cplx) :=
  for_up 0 m (fun u F =>
    scratch <- for_up 0 p (fun q1 scratch =>
      v <- aget F (off + (u + q1 * m)) ;; aset scratch q1 v) (repeat c0 (Z.to_nat p)) ;;
    for_up 0 p (fun q1 F =>
      let k := u + q1 * m in
      s <- aget scratch 0 ;;
      F <- aset F (off + k) s ;;
      generic_sum F off fstride st scratch k p) F) F.

(** kiss_fft.c:296-302: switch (p). *)
Definition bfly (p : Z) (F : list cplx) (off fstride : Z) (st : cfg) (m : Z) : res (list cplx) :=
  if p =? 2 then kf_bfly2 F off fstride st m
  else if p =? 3 then kf_bfly3 F off fstride st m
  else if p =? 4 then kf_bfly4 F off fstride st m
  else if p =? 5 then kf_bfly5 F off fstride st m
  else kf_bfly_generic F off fstride st m p.

(** kf_work, kiss_fft.c:238-303: [facs] is what the pointer [factors] points to. *)
Fixpoint kf_work (st : cfg) (facs : list Z) (F : list cplx) (off : Z) (f : list cplx) (foff : Z)
    (fstride in_stride : Z) : res (list cplx) :=
  match facs with
  | p :: m :: rest =>
      F <- (if m =? 1 then
              for_up 0 p (fun q F => v <- aget f (foff + q * (fstride * in_stride)) ;; aset F (off + q) v) F
            else
              for_up 0 p (fun q F =>
                kf_work st rest F (off + q * m) f (foff + q * (fstride * in_stride)) (fstride * p) in_stride) F) ;;
      bfly p F off fstride st m
  | _ => UB
  end.

(** kiss_fft, kiss_fft_stride (fin and fout different buffers), kiss_fft.c:372-389. *)
Definition kiss_fft (st : cfg) (fin fout : list cplx) : res (list cplx) :=
  kf_work st (factors st) fout 0 fin 0 1 1.

(** class FFT::D, dsp/transforms/FFT.cpp:22-78. *)
Record fft := { m_n : Z; m_planf : cfg; m_plani : cfg; m_kin : list cplx; m_kout : list cplx }.

(** FFT.cpp:25-30; new kiss_fft_cpx[n] leaves its contents unspecified: [junk]. *)
Definition fft_new (n : Z) (junk_in junk_out : list cplx) : res fft :=
  f <- kiss_fft_alloc n false ;;
  i <- kiss_fft_alloc n true ;;
  OK {| m_n := n; m_planf := f; m_plani := i; m_kin := junk_in; m_kout := junk_out |}.

(** FFT::D::process, FFT.cpp:39-69; [ii = None] is the NULL pointer. *)
Definition fft_process (o : fft) (inv : bool) (ri : list R) (ii : option (list R)) (ro io : list R)
  : res (fft * list R * list R) :=
  kin <- for_up 0 (m_n o) (fun i kin =>
    r <- aget ri i ;;
    x <- (match ii with Some ii => aget ii i | None => OK 0%R end) ;;
    aset kin i (r, x)) (m_kin o) ;;
  kout <- kiss_fft (if inv then m_plani o else m_planf o) kin (m_kout o) ;;
  let scale := (1 / IZR (m_n o))%R in
  '(ro, io) <- for_up 0 (m_n o) (fun i '(ro, io) =>
    v <- aget kout i ;;
    ro <- aset ro i (if inv then fst v * scale else fst v)%R ;;
    io <- aset io i (if inv then snd v * scale else snd v)%R ;;
    OK (ro, io)) (ro, io) ;;
  OK ({| m_n := m_n o; m_planf := m_planf o; m_plani := m_plani o; m_kin := kin; m_kout := kout |}, ro, io).
