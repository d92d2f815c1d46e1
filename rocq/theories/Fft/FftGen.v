(** The model of FftModel.v for any type of scalars, with the operations as parameters: the same
    program for exact reals (FftGenReal.v) and for IEEE doubles (FftDouble.v).  A plan is given by
    its size, direction, twiddle factors and radices. *)
From Coq Require Import ZArith List Bool.
From Verif.Base Require Import Imp RealOps.
From Verif.Fft Require Import FftModel.
Import ListNotations.
Open Scope Z_scope.

Section Gen.
  Context {T : Type} (zero half : T) (add sub mul : T -> T -> T) (opp : T -> T).

  (** C_ADD, C_SUB, C_MUL of _kiss_fft_guts.h:78-110. *)
  Definition gadd (x y : T * T) : T * T := (add (fst x) (fst y), add (snd x) (snd y)).
  Definition gsub (x y : T * T) : T * T := (sub (fst x) (fst y), sub (snd x) (snd y)).
  Definition gmul (x y : T * T) : T * T :=
    (sub (mul (fst x) (fst y)) (mul (snd x) (snd y)), add (mul (fst x) (snd y)) (mul (snd x) (fst y))).
  Definition gz : T * T := (zero, zero).

  Section Plan.
  Context (nf : Z) (inv : bool) (tw : list (T * T)).

  (** kf_bfly2, kiss_fft.c:21-42. *)
  Definition g_bfly2 (F : list (T * T)) (off fstride m : Z) : res (list (T * T)) :=
    for_up 0 m (fun u F =>
      w <- aget tw (u * fstride) ;;
      b <- aget F (off + m + u) ;;
      let t := gmul b w in
      a <- aget F (off + u) ;;
      F <- aset F (off + m + u) (gsub a t) ;;
      a <- aget F (off + u) ;;
      aset F (off + u) (gadd a t)) F.

  (** kf_bfly4, kiss_fft.c:44-90. *)
  Definition g_bfly4 (F : list (T * T)) (off fstride m : Z) : res (list (T * T)) :=
    let m2 := 2 * m in
    let m3 := 3 * m in
    for_up 0 m (fun u F =>
      let o := off + u in
      w1 <- aget tw (u * fstride) ;;
      w2 <- aget tw (u * (fstride * 2)) ;;
      w3 <- aget tw (u * (fstride * 3)) ;;
      a <- aget F o ;;
      b <- aget F (o + m) ;;
      c <- aget F (o + m2) ;;
      d <- aget F (o + m3) ;;
      let s0 := gmul b w1 in
      let s1 := gmul c w2 in
      let s2 := gmul d w3 in
      let s5 := gsub a s1 in
      let a := gadd a s1 in
      let s3 := gadd s0 s2 in
      let s4 := gsub s0 s2 in
      F <- aset F (o + m2) (gsub a s3) ;;
      F <- aset F o (gadd a s3) ;;
      if inv then
        F <- aset F (o + m) (sub (fst s5) (snd s4), add (snd s5) (fst s4)) ;;
        aset F (o + m3) (add (fst s5) (snd s4), sub (snd s5) (fst s4))
      else
        F <- aset F (o + m) (add (fst s5) (snd s4), sub (snd s5) (fst s4)) ;;
        aset F (o + m3) (sub (fst s5) (snd s4), add (snd s5) (fst s4))) F.

  (** kf_bfly3, kiss_fft.c:92-134. *)
  Definition g_bfly3 (F : list (T * T)) (off fstride m : Z) : res (list (T * T)) :=
    let m2 := 2 * m in
    epi3 <- aget tw (fstride * m) ;;
    for_up 0 m (fun u F =>
      let o := off + u in
      w1 <- aget tw (u * fstride) ;;
      w2 <- aget tw (u * (fstride * 2)) ;;
      a <- aget F o ;;
      b <- aget F (o + m) ;;
      c <- aget F (o + m2) ;;
      let s1 := gmul b w1 in
      let s2 := gmul c w2 in
      let s3 := gadd s1 s2 in
      let s0 := gsub s1 s2 in
      let fm := (sub (fst a) (mul (fst s3) half), sub (snd a) (mul (snd s3) half)) in
      let s0 := (mul (fst s0) (snd epi3), mul (snd s0) (snd epi3)) in
      F <- aset F o (gadd a s3) ;;
      F <- aset F (o + m2) (add (fst fm) (snd s0), sub (snd fm) (fst s0)) ;;
      aset F (o + m) (sub (fst fm) (snd s0), add (snd fm) (fst s0))) F.

  (** kf_bfly5, kiss_fft.c:136-195. *)
  Definition g_bfly5 (F : list (T * T)) (off fstride m : Z) : res (list (T * T)) :=
    ya <- aget tw (fstride * m) ;;
    yb <- aget tw (fstride * 2 * m) ;;
    for_up 0 m (fun u F =>
      let o := off + u in
      s0 <- aget F o ;;
      w1 <- aget tw (u * fstride) ;;
      w2 <- aget tw (2 * u * fstride) ;;
      w3 <- aget tw (3 * u * fstride) ;;
      w4 <- aget tw (4 * u * fstride) ;;
      f1 <- aget F (o + m) ;;
      f2 <- aget F (o + 2 * m) ;;
      f3 <- aget F (o + 3 * m) ;;
      f4 <- aget F (o + 4 * m) ;;
      let s1 := gmul f1 w1 in
      let s2 := gmul f2 w2 in
      let s3 := gmul f3 w3 in
      let s4 := gmul f4 w4 in
      let s7 := gadd s1 s4 in
      let s10 := gsub s1 s4 in
      let s8 := gadd s2 s3 in
      let s9 := gsub s2 s3 in
      F <- aset F o (add (fst s0) (add (fst s7) (fst s8)), add (snd s0) (add (snd s7) (snd s8))) ;;
      let s5 := (add (add (fst s0) (mul (fst s7) (fst ya))) (mul (fst s8) (fst yb)),
                 add (add (snd s0) (mul (snd s7) (fst ya))) (mul (snd s8) (fst yb))) in
      let s6 := (add (mul (snd s10) (snd ya)) (mul (snd s9) (snd yb)),
                 sub (opp (mul (fst s10) (snd ya))) (mul (fst s9) (snd yb))) in
      F <- aset F (o + m) (gsub s5 s6) ;;
      F <- aset F (o + 4 * m) (gadd s5 s6) ;;
      let s11 := (add (add (fst s0) (mul (fst s7) (fst yb))) (mul (fst s8) (fst ya)),
                  add (add (snd s0) (mul (snd s7) (fst yb))) (mul (snd s8) (fst ya))) in
      let s12 := (add (opp (mul (snd s10) (snd yb))) (mul (snd s9) (snd ya)),
                  sub (mul (fst s10) (snd yb)) (mul (fst s9) (snd ya))) in
      F <- aset F (o + 2 * m) (gadd s11 s12) ;;
      aset F (o + 3 * m) (gsub s11 s12)) F.

  (** kf_bfly_generic, kiss_fft.c:198-235: the innermost loop, 225-230. *)
  Definition g_sum (F : list (T * T)) (off fstride : Z) (scratch : list (T * T)) (k p : Z) : res (list (T * T)) :=
    '(_, F) <- for_up 1 p (fun q '(twidx, F) =>
        let twidx := wrap32 (twidx + fstride * k) in
        let twidx := if twidx >=? nf then twidx - nf else twidx in
        s <- aget scratch q ;;
        w <- aget tw twidx ;;
        let t := gmul s w in
        a <- aget F (off + k) ;;
        F <- aset F (off + k) (gadd a t) ;;
        OK (twidx, F)) (0, F) ;;
    OK F.

  Definition g_bfly_generic (F : list (T * T)) (off fstride m p : Z) : res (list (T * T)) :=
    for_up 0 m (fun u F =>
      scratch <- for_up 0 p (fun q1 scratch =>
        v <- aget F (off + (u + q1 * m)) ;; aset scratch q1 v) (repeat gz (Z.to_nat p)) ;;
      for_up 0 p (fun q1 F =>
        let k := u + q1 * m in
        s <- aget scratch 0 ;;
        F <- aset F (off + k) s ;;
        g_sum F off fstride scratch k p) F) F.

  (** kiss_fft.c:296-302: switch (p). *)
  Definition g_bfly (p : Z) (F : list (T * T)) (off fstride m : Z) : res (list (T * T)) :=
    if p =? 2 then g_bfly2 F off fstride m
    else if p =? 3 then g_bfly3 F off fstride m
    else if p =? 4 then g_bfly4 F off fstride m
    else if p =? 5 then g_bfly5 F off fstride m
    else g_bfly_generic F off fstride m p.

  (** kf_work, kiss_fft.c:238-303. *)
  Fixpoint g_work (facs : list Z) (F : list (T * T)) (off : Z) (f : list (T * T)) (foff : Z)
      (fstride in_stride : Z) : res (list (T * T)) :=
    match facs with
    | p :: m :: rest =>
        F <- (if m =? 1 then
                for_up 0 p (fun q F => v <- aget f (foff + q * (fstride * in_stride)) ;; aset F (off + q) v) F
              else
                for_up 0 p (fun q F =>
                  g_work rest F (off + q * m) f (foff + q * (fstride * in_stride)) (fstride * p) in_stride) F) ;;
        g_bfly p F off fstride m
    | _ => UB
    end.

  (** kiss_fft, kiss_fft_stride (fin and fout different buffers), kiss_fft.c:372-389. *)
  Definition g_kiss_fft (facs : list Z) (fin fout : list (T * T)) : res (list (T * T)) := g_work facs fout 0 fin 0 1 1.
  End Plan.

  (** struct kiss_fft_state and kiss_fft_alloc, kiss_fft.c:340-369; [tw i] is what kf_cexp stores. *)
  Record gplan := { p_n : Z; p_inv : bool; p_fac : list Z; p_tw : list (T * T) }.
  Definition g_alloc (tw : bool -> Z -> Z -> T * T) (n : Z) (inv : bool) : res gplan :=
    let t := ztab n (tw inv n) in
    fs <- kf_factor n ;;
    OK {| p_n := n; p_inv := inv; p_fac := fs; p_tw := t |}.

  (** class FFT::D, dsp/transforms/FFT.cpp:22-78. *)
  Record gfft := { g_n : Z; g_planf : gplan; g_plani : gplan; g_kin : list (T * T); g_kout : list (T * T) }.
  Definition g_new (tw : bool -> Z -> Z -> T * T) (n : Z) (junk_in junk_out : list (T * T)) : res gfft :=
    f <- g_alloc tw n false ;;
    i <- g_alloc tw n true ;;
    OK {| g_n := n; g_planf := f; g_plani := i; g_kin := junk_in; g_kout := junk_out |}.

  (** FFT::D::process, FFT.cpp:39-69; [scale] is 1.0 / m_n, [ii = None] the NULL pointer. *)
  Definition g_process (scale : Z -> T) (o : gfft) (inv : bool) (ri : list T) (ii : option (list T)) (ro io : list T)
    : res (gfft * list T * list T) :=
    kin <- for_up 0 (g_n o) (fun i kin =>
      r <- aget ri i ;;
      x <- (match ii with Some ii => aget ii i | None => OK zero end) ;;
      aset kin i (r, x)) (g_kin o) ;;
    let pl := if inv then g_plani o else g_planf o in
    kout <- g_kiss_fft (p_n pl) (p_inv pl) (p_tw pl) (p_fac pl) kin (g_kout o) ;;
    let scale := scale (g_n o) in
    '(ro, io) <- for_up 0 (g_n o) (fun i '(ro, io) =>
      v <- aget kout i ;;
      ro <- aset ro i (if inv then mul (fst v) scale else fst v) ;;
      io <- aset io i (if inv then mul (snd v) scale else snd v) ;;
      OK (ro, io)) (ro, io) ;;
    OK ({| g_n := g_n o; g_planf := g_planf o; g_plani := g_plani o; g_kin := kin; g_kout := kout |}, ro, io).
End Gen.
