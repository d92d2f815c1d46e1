(** Model of hmm/hmm.c.  double is exact real arithmetic, except for the Viterbi recursion, which is
    over any carrier.  An accumulation in an array element is modelled by a local accumulator; malloc
    does not fail; freeing is not modelled. *)
From Coq Require Import List ZArith Reals Lia Bool.
From Verif.Base Require Import Imp RealOps Matrix.
Import ListNotations.
Open Scope Z_scope.

Section ForwardBackwards.
  (** Indeterminate memory contents. *)
  Variable junk : R.

  (** hmm.c:353-390: forward probabilities and scale coefficients; returns alpha, c and *loglik. *)
  Definition forward (N T : Z) (p0 : list R) (a b : list (list R)) : res (list (list R) * list R * R) :=
    let alpha := repeat (repeat junk (Z.to_nat N)) (Z.to_nat T) in
    let c := repeat junk (Z.to_nat T) in
    row <- aget alpha 0 ;;
    ' (row, s) <- fill_row N (fun i => p <- aget p0 i ;; v <- mget b 0 i ;; OK (p * v)%R) row 0 ;;
    let c0 := (1 / s)%R in
    c <- aset c 0 c0 ;;
    row <- map_row N (fun v => v * c0)%R row ;;
    alpha <- aset alpha 0 row ;;
    for_up 1 T (fun t '(alpha, c, loglik) =>
      prev <- aget alpha (t - 1) ;; row <- aget alpha t ;;
      ' (row, s) <- fill_row N (fun j =>
        s <- sum_up N (fun i => x <- aget prev i ;; y <- mget a i j ;; OK (x * y)%R) 0 ;;
        v <- mget b t j ;; OK (s * v)%R) row 0 ;;
      let ct := (1 / s)%R in
      c <- aset c t ct ;;
      row <- map_row N (fun v => v * ct)%R row ;;
      alpha <- aset alpha t row ;;
      OK (alpha, c, (loglik - ln ct)%R)) (alpha, c, (- ln c0)%R).

  (** hmm.c:392-415: backward probabilities; the [while (1)] loop runs over t = T-1 .. 0. *)
  Definition backward (N T : Z) (a b : list (list R)) (c : list R) : res (list (list R)) :=
    let beta := repeat (repeat junk (Z.to_nat N)) (Z.to_nat T) in
    last <- aget beta (T - 1) ;;
    last <- for_up 0 N (fun i r => aset r i 1%R) last ;;
    beta <- aset beta (T - 1) last ;;
    for_down (T - 1) 0 (fun t beta =>
      ct <- aget c t ;; row <- aget beta t ;;
      row <- map_row N (fun v => v * ct)%R row ;;
      beta <- aset beta t row ;;
      if t =? 0 then OK beta else
      prev <- aget beta (t - 1) ;;
      prev <- for_up 0 N (fun i prev =>
        s <- sum_up N (fun j => x <- mget a i j ;; y <- mget b t j ;; z <- aget row j ;; OK (x * y * z)%R) 0 ;;
        aset prev i s) prev ;;
      aset beta (t - 1) prev) beta.

  (** hmm.c:417-441: posteriors. *)
  Definition posteriors (N T : Z) (a b alpha beta : list (list R)) (gamma : list (list R)) (xi : list (list (list R)))
      : res (list (list R) * list (list (list R))) :=
    gamma <- for_up 0 T (fun t gamma =>
      row <- aget gamma t ;;
      ' (row, tot) <- fill_row N (fun i => x <- mget alpha t i ;; y <- mget beta t i ;; OK (x * y)%R) row 0 ;;
      row <- map_row N (fun v => v / tot)%R row ;;
      aset gamma t row) gamma ;;
    xi <- for_up 0 (T - 1) (fun t xi =>
      m <- aget xi t ;;
      ' (m, tot) <- for_up 0 N (fun i '(m, tot) =>
        row <- aget m i ;;
        ' (row, tot) <- fill_row N (fun j =>
          x <- mget alpha t i ;; y <- mget a i j ;; z <- mget b (t + 1) j ;; w <- mget beta (t + 1) j ;;
          OK (x * y * z * w)%R) row tot ;;
        m <- aset m i row ;; OK (m, tot)) (m, 0%R) ;;
      m <- for_up 0 N (fun i m => row <- aget m i ;; row <- map_row N (fun v => v / tot)%R row ;; aset m i row) m ;;
      aset xi t m) xi ;;
    OK (gamma, xi).

  (** forward_backwards, hmm.c:335-452.  [ll], [ll1], [ll2] are *loglik, *loglik1, *loglik2 on entry. *)
  Definition forward_backwards (xi : list (list (list R))) (gamma : list (list R)) (ll ll1 ll2 : R) (iter N T : Z)
      (p0 : list R) (a b : list (list R)) : res (list (list (list R)) * list (list R) * (R * R * R)) :=
    ' (alpha, c, loglik) <- forward N T p0 a b ;;
    c0 <- aget c 0 ;;
    beta <- backward N T a b c ;;
    ' (gamma, xi) <- posteriors N T a b alpha beta gamma xi ;;
    OK (xi, gamma, (loglik, ll, if iter =? 2 then (- ln c0)%R else ll2)).
End ForwardBackwards.

Section BaumWelch.
  Variable junk : R.
  (** hmm.c:246-275: transition and initial probabilities.  Returns p0, a and sum_gamma. *)
  Definition reestimate_probs (N T : Z) (p0 : list R) (a : list (list R)) (xi : list (list (list R))) (gamma : list (list R))
      : res (list R * list (list R) * list R) :=
    sg <- for_up 0 N (fun i sg => s <- sum_up (T - 1) (fun t => mget gamma t i) 0 ;; aset sg i s)
      (repeat junk (Z.to_nat N)) ;;
    a <- for_up 0 N (fun i a =>
      row <- aget a i ;; s <- aget sg i ;;
      row <- for_up 0 N (fun j row =>
        if Reqb s 0 then aset row j 0%R else
        x <- sum_up (T - 1) (fun t => m <- aget xi t ;; mget m i j) 0 ;;
        aset row j (x / s)%R) row ;;
      aset a i row) a ;;
    sg <- for_up 0 N (fun i sg => s <- aget sg i ;; g <- mget gamma (T - 1) i ;; aset sg i (s + g)%R) sg ;;
    p0 <- for_up 0 N (fun i p0 => g <- mget gamma 0 i ;; aset p0 i g) p0 ;;
    OK (p0, a, sg).

  (** hmm.c:277-316: covariance about the old means.  cblas_dgemm(ColMajor, Trans, NoTrans, L, L, T, 1, yy, T,
      yy2, T, 0, u, L) sets u[e*L+d] to the sum over t of yy[d*T+t] * yy2[e*T+t]. *)
  Definition dgemm (L T : Z) (yy yy2 u : list R) : res (list R) :=
    for_up 0 L (fun e u => for_up 0 L (fun d u =>
      s <- sum_up T (fun t => x <- aget yy (d * T + t) ;; y <- aget yy2 (e * T + t) ;; OK (x * y)%R) 0 ;;
      aset u (e * L + d) s) u) u.
  Definition reestimate_cov (N T L : Z) (x mu cov gamma : list (list R)) : res (list (list R)) :=
    cov <- for_up 0 L (fun d cov => row <- aget cov d ;; row <- for_up 0 L (fun e row => aset row e 0%R) row ;; aset cov d row) cov ;;
    ' (cov, _, _, _) <- for_up 0 N (fun j '(cov, yy, yy2, u) =>
      ' (yy, yy2) <- for_up 0 L (fun d '(yy, yy2) => for_up 0 T (fun t '(yy, yy2) =>
        v <- mget x t d ;; m <- mget mu j d ;; g <- mget gamma t j ;;
        yy <- aset yy (d * T + t) (v - m)%R ;; yy2 <- aset yy2 (d * T + t) (g * (v - m))%R ;;
        OK (yy, yy2)) (yy, yy2)) (yy, yy2) ;;
      u <- dgemm L T yy yy2 u ;;
      cov <- for_up 0 L (fun e cov => for_up 0 L (fun d cov =>
        row <- aget cov d ;; v <- aget row e ;; w <- aget u (e * L + d) ;; row <- aset row e (v + w)%R ;; aset cov d row) cov) cov ;;
      OK (cov, yy, yy2, u))
      (cov, repeat junk (Z.to_nat (T * L)), repeat junk (Z.to_nat (T * L)), repeat junk (Z.to_nat (L * L))) ;;
    for_up 0 L (fun d cov => row <- aget cov d ;; row <- map_row L (fun v => v / IZR T)%R row ;; aset cov d row) cov.

  (** hmm.c:318-326: means. *)
  Definition reestimate_means (N T L : Z) (x mu gamma : list (list R)) (sg : list R) : res (list (list R)) :=
    for_up 0 N (fun j mu =>
      row <- aget mu j ;; s <- aget sg j ;;
      row <- for_up 0 L (fun d row =>
        m <- sum_up T (fun t => g <- mget gamma t j ;; v <- mget x t d ;; OK (g * v)%R) 0 ;;
        aset row d (m / s)%R) row ;;
      aset mu j row) mu.

  (** baum_welch, hmm.c:234-333. *)
  Definition baum_welch (p0 : list R) (a mu cov : list (list R)) (N T L : Z) (x : list (list R))
      (xi : list (list (list R))) (gamma : list (list R)) : res (list R * list (list R) * list (list R) * list (list R)) :=
    ' (p0, a, sg) <- reestimate_probs N T p0 a xi gamma ;;
    cov <- reestimate_cov N T L x mu cov gamma ;;
    mu <- reestimate_means N T L x mu gamma sg ;;
    OK (p0, a, mu, cov).
End BaumWelch.

Section Viterbi.
  (** Probabilities [P], their logarithms [T], any operations; [gtb x y] is x > y. *)
  Context {P T : Type} (lg : P -> T) (add : T -> T -> T) (gtb : T -> T -> bool).
  (** The constant -1000000 and indeterminate contents. *)
  Variables (low junk : T) (junkZ : Z).

  (** viterbi_decode, hmm.c:497-518: initialisation and recursion. *)
  Definition viterbi_tables (N Tn : Z) (p0 : list P) (a : list (list P)) (logb : list (list T))
      : res (list (list T) * list (list Z)) :=
    let phi := repeat (repeat junk (Z.to_nat N)) (Z.to_nat Tn) in
    let psi := repeat (repeat junkZ (Z.to_nat N)) (Z.to_nat Tn) in
    r0 <- aget phi 0 ;; s0 <- aget psi 0 ;;
    ' (r0, s0) <- for_up 0 N (fun i '(r, s) =>
      p <- aget p0 i ;; l <- mget logb 0 i ;;
      r <- aset r i (add (lg p) l) ;; s <- aset s i 0 ;; OK (r, s)) (r0, s0) ;;
    phi <- aset phi 0 r0 ;; psi <- aset psi 0 s0 ;;
    for_up 1 Tn (fun t '(phi, psi) =>
      prev <- aget phi (t - 1) ;; r <- aget phi t ;; s <- aget psi t ;;
      ' (r, s) <- for_up 0 N (fun j '(r, s) =>
        s <- aset s j 0 ;;
        ' (_, _, r, s) <- for_up 0 N (fun i '(max, havemax, r, s) =>
          x <- aget prev i ;; y <- mget a i j ;;
          let v := add x (lg y) in
          if gtb v max || negb havemax then
            l <- mget logb t j ;;
            r <- aset r j (add v l) ;; s <- aset s j i ;; OK (v, true, r, s)
          else OK (max, havemax, r, s)) (low, false, r, s) ;;
        OK (r, s)) (r, s) ;;
      phi <- aset phi t r ;; psi <- aset psi t s ;; OK (phi, psi)) (phi, psi).

  (** hmm.c:520-535: the best last state, and tracking back. *)
  Definition viterbi_core (N Tn : Z) (p0 : list P) (a : list (list P)) (logb : list (list T)) (q : list Z) : res (list Z) :=
    ' (phi, psi) <- viterbi_tables N Tn p0 a logb ;;
    last <- aget phi (Tn - 1) ;;
    m0 <- aget last 0 ;;
    q <- aset q (Tn - 1) 0 ;;
    ' (_, q) <- for_up 1 N (fun i '(max, q) =>
      v <- aget last i ;;
      if gtb v max then q <- aset q (Tn - 1) i ;; OK (v, q) else OK (max, q)) (m0, q) ;;
    for_down (Tn - 2) 0 (fun t q => s <- aget q (t + 1) ;; v <- mget psi (t + 1) s ;; aset q t v) q.
End Viterbi.

(** gauss and loggauss, hmm.c:615-653, with the two work arrays y and z. *)
Definition ddot (n : Z) (u v : list R) : res R := sum_up n (fun i => x <- aget u i ;; y <- aget v i ;; OK (x * y)%R) 0.
Definition mahalanobis (x : list R) (L : Z) (mu : list R) (icov : list (list R)) (y z : list R) : res R :=
  y <- for_up 0 L (fun i y => v <- aget x i ;; m <- aget mu i ;; aset y i (v - m)%R) y ;;
  z <- for_up 0 L (fun i z => row <- aget icov i ;; s <- ddot L row y ;; aset z i s) z ;;
  ddot L z y.
Definition gauss (x : list R) (L : Z) (mu : list R) (icov : list (list R)) (detcov : R) (y z : list R) : res R :=
  s <- mahalanobis x L mu icov y z ;;
  OK (exp (- s / 2) / (Rpower (2 * PI) (IZR L / 2) * sqrt detcov))%R.
Definition loggauss (x : list R) (L : Z) (mu : list R) (icov : list (list R)) (detcov : R) (y z : list R) : res R :=
  s <- mahalanobis x L mu icov y z ;;
  OK (- (1 / 2) * (s + IZR L * ln (2 * PI) + ln detcov))%R.
