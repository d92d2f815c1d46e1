(** Model of the matrix inversion of hmm/hmm.c with the LAPACK and BLAS routines it runs
    (ext/clapack/src, ext/cblas/src), in exact real arithmetic.

    Matrices are stored as in the code: one array, column after column, entry (i, j) at
    i + j * lda.  Rows and columns are counted from 0 here and from 1 in the code; the pivot array
    keeps the numbers of the code.  A pointer into a matrix is a row and a column.
    Simplifications.  Only the branches that [invert] reaches are modelled (one choice of side,
    triangle, transposition and diagonal for each routine; increments 1 or lda; alpha and beta as
    called), the argument checks ending in xerbla_ are left out, the loops unrolled by 3 or 5 in
    dscal_ and dswap_ are ordinary loops, and a loop-invariant operand is read once.  A division by
    zero is [UB].  Integers do not overflow (L <= 46340).  malloc succeeds. *)
From Coq Require Import List ZArith Reals Lia Bool.
From Verif.Base Require Import Imp RealOps Matrix Tables.
Import ListNotations.
Open Scope Z_scope.

(** A cell of a matrix with leading dimension lda. *)
Definition cget (lda : Z) (a : list R) (i j : Z) : res R := aget a (i + j * lda).
Definition cput (lda : Z) (a : list R) (i j : Z) (v : R) : res (list R) := aset a (i + j * lda) v.
Definition recip (x : R) : res R := if Reqb x 0 then UB else OK (1 / x)%R.

(** ** BLAS *)
(** idamax_, cblas/src/idamax.c:44-93, on part of a column: the place, from 0, of the first entry
    largest in absolute value (cnt >= 1). *)
Definition idamax (lda : Z) (a : list R) (r c cnt : Z) : res Z :=
  v <- cget lda a r c ;;
  ' (_, best) <- for_up 1 cnt (fun i '(dmax, best) =>
    v <- cget lda a (r + i) c ;;
    if Rltb dmax (Rabs v) then OK (Rabs v, i) else OK (dmax, best)) (Rabs v, 0) ;;
  OK best.

(** dswap_, cblas/src/dswap.c:49-113, on two rows (increments lda) and on two columns (1). *)
Definition dswap_rows (lda : Z) (a : list R) (cnt r1 c1 r2 c2 : Z) : res (list R) :=
  for_up 0 cnt (fun k a =>
    x <- cget lda a r1 (c1 + k) ;; y <- cget lda a r2 (c2 + k) ;;
    a <- cput lda a r1 (c1 + k) y ;; cput lda a r2 (c2 + k) x) a.
Definition dswap_cols (lda : Z) (a : list R) (cnt r1 c1 r2 c2 : Z) : res (list R) :=
  for_up 0 cnt (fun k a =>
    x <- cget lda a (r1 + k) c1 ;; y <- cget lda a (r2 + k) c2 ;;
    a <- cput lda a (r1 + k) c1 y ;; cput lda a (r2 + k) c2 x) a.

(** dscal_, cblas/src/dscal.c:46-95, on part of a column. *)
Definition dscal (lda : Z) (s : R) (a : list R) (cnt r c : Z) : res (list R) :=
  for_up 0 cnt (fun k a => v <- cget lda a (r + k) c ;; cput lda a (r + k) c (s * v)%R) a.

(** The innermost loop of the routines below: y[i] += t * x[i], or y[i] -= t * x[i], on parts of
    two columns of one array (dger.c:158-161, dgemv.c:245-248, dgemm.c:291-294, dtrmm.c:246-249;
    dtrsm.c:287-291, 363-366, 395-398). *)
Definition col_add (lda : Z) (t : R) (a : list R) (cnt xr xc yr yc : Z) : res (list R) :=
  for_up 0 cnt (fun i a =>
    y <- cget lda a (yr + i) yc ;; x <- cget lda a (xr + i) xc ;; cput lda a (yr + i) yc (y + t * x)%R) a.
Definition col_sub (lda : Z) (t : R) (a : list R) (cnt xr xc yr yc : Z) : res (list R) :=
  for_up 0 cnt (fun i a =>
    y <- cget lda a (yr + i) yc ;; x <- cget lda a (xr + i) xc ;; cput lda a (yr + i) yc (y - t * x)%R) a.

(** dger_, cblas/src/dger.c:150-165 (incx = 1, alpha = -1): A -= x y', x part of a column and y
    part of a row of the same array. *)
Definition dger (lda : Z) (a : list R) (m n xr xc yr yc ar ac : Z) : res (list R) :=
  for_up 0 n (fun j a =>
    y <- cget lda a yr (yc + j) ;;
    if Reqb y 0 then OK a else col_add lda (-1 * y)%R a m xr xc ar (ac + j)) a.

(** dgemm_, cblas/src/dgemm.c:266-300 (no transpositions, alpha = -1, beta = 1): C -= A B, with A
    and C in the same array; [getb] reads B. *)
Definition dgemm (lda : Z) (getb : list R -> Z -> Z -> res R) (a : list R) (m n k ar ac cr cc : Z) : res (list R) :=
  for_up 0 n (fun j a =>
    for_up 0 k (fun l a =>
      b <- getb a l j ;;
      if Reqb b 0 then OK a else col_add lda (-1 * b)%R a m ar (ac + l) cr (cc + j)) a) a.

(** dgemv_, cblas/src/dgemv.c:234-256 (not transposed, alpha = -1, beta = 1): y -= A x with A and
    y (a column) in the same array and x in another. *)
Definition dgemv (lda : Z) (a : list R) (m n ar ac : Z) (x : list R) (x0 : Z) (yr yc : Z) : res (list R) :=
  for_up 0 n (fun j a =>
    v <- aget x (x0 + j) ;;
    if Reqb v 0 then OK a else col_add lda (-1 * v)%R a m ar (ac + j) yr yc) a.

(** dtrmv_, cblas/src/dtrmv.c:190-209 (upper, not transposed, not unit, incx = 1): x := A x. *)
Definition dtrmv (lda : Z) (a : list R) (n ar ac xr xc : Z) : res (list R) :=
  for_up 0 n (fun j a =>
    x <- cget lda a (xr + j) xc ;;
    if Reqb x 0 then OK a else
      a <- col_add lda x a j ar (ac + j) xr xc ;;
      x <- cget lda a (xr + j) xc ;; d <- cget lda a (ar + j) (ac + j) ;;
      cput lda a (xr + j) xc (x * d)%R) a.

(** dtrmm_, cblas/src/dtrmm.c:238-259 (left, upper, not transposed, not unit, alpha = 1): B := A B. *)
Definition dtrmm (lda : Z) (a : list R) (m n ar ac br bc : Z) : res (list R) :=
  for_up 0 n (fun j a =>
    for_up 0 m (fun k a =>
      b <- cget lda a (br + k) (bc + j) ;;
      if Reqb b 0 then OK a else
        a <- col_add lda b a k ar (ac + k) br (bc + j) ;;
        d <- cget lda a (ar + k) (ac + k) ;;
        cput lda a (br + k) (bc + j) (b * d)%R) a) a.

(** dtrsm_, cblas/src/dtrsm.c:268-297 (left, lower, not transposed, unit, alpha = 1): B := inv(A) B. *)
Definition dtrsm_left (lda : Z) (a : list R) (m n ar ac br bc : Z) : res (list R) :=
  for_up 0 n (fun j a =>
    for_up 0 m (fun k a =>
      b <- cget lda a (br + k) (bc + j) ;;
      if Reqb b 0 then OK a else
        col_sub lda b a (m - (k + 1)) (ar + (k + 1)) (ac + k) (br + (k + 1)) (bc + j)) a) a.

(** dtrsm_, cblas/src/dtrsm.c:345-377 (right, upper, not transposed, not unit, alpha = -1):
    B := - B inv(A). *)
Definition dtrsm_right_upper (lda : Z) (a : list R) (m n ar ac br bc : Z) : res (list R) :=
  for_up 0 n (fun j a =>
    a <- dscal lda (-1) a m br (bc + j) ;;
    a <- for_up 0 j (fun k a =>
      v <- cget lda a (ar + k) (ac + j) ;;
      if Reqb v 0 then OK a else col_sub lda v a m br (bc + k) br (bc + j)) a ;;
    d <- cget lda a (ar + j) (ac + j) ;;
    t <- recip d ;;
    dscal lda t a m br (bc + j)) a.

(** dtrsm_, cblas/src/dtrsm.c:378-409 (right, lower, not transposed, unit, alpha = 1):
    B := B inv(A) with A in another array w of the same leading dimension, from row wr, column 0. *)
Definition dtrsm_right_lower (lda : Z) (w : list R) (wr : Z) (a : list R) (m n br bc : Z) : res (list R) :=
  for_down (n - 1) 0 (fun j a =>
    for_up (j + 1) n (fun k a =>
      v <- cget lda w (wr + k) j ;;
      if Reqb v 0 then OK a else col_sub lda v a m br (bc + k) br (bc + j)) a) a.

(** ** LAPACK *)
Section Lapack.
  (** dlamch_("S"), and indeterminate memory. *)
  Variables sfmin junk : R.

  (** dgetf2_, clapack/src/dgetf2.c:133-185: unblocked factorisation of the m x nc matrix whose
      first entry is (o, o); pivots from position o of ipiv, counted from 1 within that matrix. *)
  Definition dgetf2 (lda : Z) (m nc o : Z) (a : list R) (ipiv : list Z) : res (list R * list Z * Z) :=
    for_up 0 (Z.min m nc) (fun j '(a, ipiv, info) =>
      p <- idamax lda a (o + j) (o + j) (m - j) ;;
      let jp := j + p in
      ipiv <- aset ipiv (o + j) (jp + 1) ;;
      v <- cget lda a (o + jp) (o + j) ;;
      ' (a, info) <-
        (if negb (Reqb v 0) then
          a <- (if negb (jp =? j) then dswap_rows lda a nc (o + j) o (o + jp) o else OK a) ;;
          a <- (if j + 1 <? m then
                  d <- cget lda a (o + j) (o + j) ;;
                  if Rleb sfmin (Rabs d) then
                    t <- recip d ;; dscal lda t a (m - (j + 1)) (o + j + 1) (o + j)
                  else
                    for_up 0 (m - (j + 1)) (fun i a =>
                      x <- cget lda a (o + j + 1 + i) (o + j) ;; d <- cget lda a (o + j) (o + j) ;;
                      if Reqb d 0 then UB else cput lda a (o + j + 1 + i) (o + j) (x / d)%R) a
                else OK a) ;;
          OK (a, info)
        else OK (a, if info =? 0 then j + 1 else info)) ;;
      a <- (if j + 1 <? Z.min m nc then
              dger lda a (m - (j + 1)) (nc - (j + 1)) (o + j + 1) (o + j) (o + j) (o + j + 1) (o + j + 1) (o + j + 1)
            else OK a) ;;
      OK (a, ipiv, info)) (a, ipiv, 0).

  (** dlaswp_, clapack/src/dlaswp.c:104-155 (incx = 1): rows k1 to k2 - 1 of n columns from column
      c exchanged with the rows in ipiv, in groups of 32 columns. *)
  Definition laswp_group (lda : Z) (a : list R) (w c k1 k2 : Z) (ipiv : list Z) : res (list R) :=
    for_up k1 k2 (fun i a =>
      ip <- aget ipiv i ;;
      if ip - 1 =? i then OK a else dswap_rows lda a w i c (ip - 1) c) a.
  Definition dlaswp (lda : Z) (a : list R) (n c k1 k2 : Z) (ipiv : list Z) : res (list R) :=
    let n32 := n / 32 * 32 in
    a <- for_up 0 (n / 32) (fun g a => laswp_group lda a 32 (c + 32 * g) k1 k2 ipiv) a ;;
    if n32 =? n then OK a else laswp_group lda a (n - n32) (c + n32) k1 k2 ipiv.

  (** dgetrf_, clapack/src/dgetrf.c:121-213 (m = n = lda): factors, pivots, info and the value
      returned; nb is the answer of ilaenv_. *)
  Definition dgetrf (nb n : Z) (a : list R) (ipiv : list Z) : res (list R * list Z * Z * Z) :=
    if n =? 0 then OK (a, ipiv, -4, 0)
    else if (nb <=? 1) || (n <=? nb) then
      ' (a, ipiv, info) <- dgetf2 n n n 0 a ipiv ;; OK (a, ipiv, info, 0)
    else
      ' (a, ipiv, info) <- for_up 0 ((n + nb - 1) / nb) (fun b '(a, ipiv, info) =>
        let j := b * nb in
        let jb := Z.min (n - j) nb in
        ' (a, ipiv, iinfo) <- dgetf2 n (n - j) jb j a ipiv ;;
        let info := if (info =? 0) && (0 <? iinfo) then iinfo + j else info in
        ipiv <- for_up j (j + jb) (fun i ipiv => v <- aget ipiv i ;; aset ipiv i (j + v)) ipiv ;;
        a <- dlaswp n a j 0 j (j + jb) ipiv ;;
        a <- (if j + jb <? n then
                a <- dlaswp n a (n - j - jb) (j + jb) j (j + jb) ipiv ;;
                a <- dtrsm_left n a jb (n - j - jb) j j j (j + jb) ;;
                dgemm n (fun a l c => cget n a (j + l) (j + jb + c)) a (n - j - jb) (n - j - jb) jb
                  (j + jb) j (j + jb) (j + jb)
              else OK a) ;;
        OK (a, ipiv, info)) (a, ipiv, 0) ;;
      OK (a, ipiv, info, 0).

  (** dtrti2_, clapack/src/dtrti2.c:131-152 (upper, not unit): the n x n matrix from (o, o). *)
  Definition dtrti2 (lda : Z) (n o : Z) (a : list R) : res (list R) :=
    for_up 0 n (fun j a =>
      d <- cget lda a (o + j) (o + j) ;; t <- recip d ;;
      a <- cput lda a (o + j) (o + j) t ;;
      a <- dtrmv lda a j o o o (o + j) ;;
      dscal lda (- t)%R a j o (o + j)) a.

  (** dtrtri_, clapack/src/dtrtri.c:148-204 (upper, not unit), n = lda. *)
  Definition first_zero (n : Z) (a : list R) : res Z :=
    for_up 0 n (fun i info =>
      if info =? 0 then d <- cget n a i i ;; OK (if Reqb d 0 then i + 1 else 0) else OK info) 0.
  Definition dtrtri (nb n : Z) (a : list R) : res (list R * Z) :=
    info <- first_zero n a ;;
    if 0 <? info then OK (a, info)
    else if (nb <=? 1) || (n <=? nb) then a <- dtrti2 n n 0 a ;; OK (a, 0)
    else
      a <- for_up 0 ((n + nb - 1) / nb) (fun b a =>
        let j := b * nb in
        let jb := Z.min nb (n - j) in
        a <- dtrmm n a j jb 0 0 0 j ;;
        a <- dtrsm_right_upper n a j jb j j 0 j ;;
        dtrti2 n jb j a) a ;;
      OK (a, 0).

  (** dgetri_, clapack/src/dgetri.c:129-257, with lwork = n * nb (the size it asks for). *)
  Definition dgetri_unblocked (n : Z) (a work : list R) : res (list R * list R) :=
    for_down (n - 1) 0 (fun j '(a, work) =>
      ' (a, work) <- for_up (j + 1) n (fun i '(a, work) =>
        v <- cget n a i j ;; work <- aset work i v ;; a <- cput n a i j 0 ;; OK (a, work)) (a, work) ;;
      a <- (if j + 1 <? n then dgemv n a n (n - (j + 1)) 0 (j + 1) work (j + 1) 0 j else OK a) ;;
      OK (a, work)) (a, work).
  Definition dgetri_blocked (nb n : Z) (a work : list R) : res (list R * list R) :=
    for_down ((n - 1) / nb) 0 (fun b '(a, work) =>
      let j := b * nb in
      let jb := Z.min nb (n - j) in
      ' (a, work) <- for_up j (j + jb) (fun jj '(a, work) =>
        for_up (jj + 1) n (fun i '(a, work) =>
          v <- cget n a i jj ;; work <- cput n work i (jj - j) v ;; a <- cput n a i jj 0 ;; OK (a, work)) (a, work)) (a, work) ;;
      a <- (if j + jb <? n then
              dgemm n (fun _ l c => cget n work (j + jb + l) c) a n jb (n - j - jb) 0 (j + jb) 0 j
            else OK a) ;;
      a <- dtrsm_right_lower n work j a n jb 0 j ;;
      OK (a, work)) (a, work).
  Definition dgetri (nb n : Z) (a : list R) (ipiv : list Z) (work : list R) : res (list R * Z) :=
    work <- aset work 0 (IZR (n * nb)) ;;
    if n =? 0 then OK (a, -3) else
    ' (a, info) <- dtrtri nb n a ;;
    if 0 <? info then OK (a, info) else
    ' (a, work) <- (if (nb <? 2) || (n <=? nb) then dgetri_unblocked n a work else dgetri_blocked nb n a work) ;;
    a <- for_down (n - 2) 0 (fun j a =>
      jp <- aget ipiv j ;;
      if jp - 1 =? j then OK a else dswap_cols n a n 0 j 0 (jp - 1)) a ;;
    OK (a, 0).

  (** ** invert, hmm/hmm.c:555-613; [Throw] is exit(-1).  The workspace query of dgetri_ answers
      n * nb. *)
  Definition invert_with (nb : Z) (cov : list (list R)) (L : Z) (icov : list (list R)) : res (list (list R) * R) :=
    a <- for_up 0 L (fun j a => for_up 0 L (fun i a => v <- mget cov i j ;; aset a (j * L + i) v) a)
           (repeat junk (Z.to_nat (L * L))) ;;
    ' (a, ipiv, _, ret) <- dgetrf nb L a (repeat 0 (Z.to_nat (L * L))) ;;
    if ret <? 0 then Throw else
    det <- for_up 0 L (fun i det => v <- aget a (i * L + i) ;; OK (det * v)%R) 1%R ;;
    let det := if Rltb det 0 then (- det)%R else det in
    ' (a, _) <- dgetri nb L a ipiv (repeat junk (Z.to_nat (L * nb))) ;;
    icov <- for_up 0 L (fun j icov => for_up 0 L (fun i icov => v <- aget a (j * L + i) ;; mput icov i j v) icov) icov ;;
    OK (icov, det).

  (** ilaenv_ answers 64 for DGETRF, DGETRI and DTRTRI, clapack/src/ilaenv.c:253-295, 388-395. *)
  Definition block_size : Z := 64.
  Definition invert := invert_with block_size.
End Lapack.
