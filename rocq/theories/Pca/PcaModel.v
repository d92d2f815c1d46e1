(** Model of maths/pca/pca.c in exact real arithmetic.

    Simplifications.  malloc succeeds.  A division 0/0 (NaN in C) is reported as [UB] where it
    could reach a result.  The convergence test of tqli, fabs(e[m]) + dd == dd, is about rounding
    and would be useless on exact numbers, so its outcome is a parameter [negligible]. *)
From Coq Require Import List ZArith Reals Lia Bool.
From Verif.Base Require Import Imp RealOps Matrix Tables.
Import ListNotations.
Open Scope Z_scope.

Notation mat := (list (list R)).

Section Pca.
  (** Indeterminate memory. *)
  Variable junk : R.
  (** [negligible x dd]: does x + dd == dd hold in double arithmetic? *)
  Variable negligible : R -> R -> bool.

  (** covcol, pca.c:33-88: data (centred) and symmat. *)
  Definition column_means (data : mat) (n m : Z) : res (list R) :=
    for_up 0 m (fun j mean =>
      mean <- aset mean j 0%R ;;
      mean <- for_up 0 n (fun i mean => v <- aget mean j ;; x <- mget data i j ;; aset mean j (v + x)%R) mean ;;
      v <- aget mean j ;; aset mean j (v / IZR n)%R) (repeat junk (Z.to_nat m)).
  Definition covcol (data : mat) (n m : Z) (sym : mat) : res (mat * mat) :=
    mean <- column_means data n m ;;
    data <- for_up 0 n (fun i data => for_up 0 m (fun j data =>
      v <- mget data i j ;; u <- aget mean j ;; mput data i j (v - u)%R) data) data ;;
    sym <- for_up 0 m (fun j1 sym => for_up j1 m (fun j2 sym =>
      sym <- mput sym j1 j2 0%R ;;
      sym <- for_up 0 n (fun i sym =>
        v <- mget sym j1 j2 ;; x <- mget data i j1 ;; y <- mget data i j2 ;; mput sym j1 j2 (v + x * y)%R) sym ;;
      v <- mget sym j1 j2 ;; mput sym j2 j1 v) sym) sym ;;
    OK (data, sym).

  (** tred2, pca.c:120-121: scale. *)
  Definition row_scale (a : mat) (i l : Z) : res R :=
    for_up 0 (l + 1) (fun k scale => v <- mget a i k ;; OK (scale + Rabs v)%R) 0%R.
  (** pca.c:126-130: the scaled row and the sum of its squares. *)
  Definition scale_row (a : mat) (i l : Z) (scale : R) : res (mat * R) :=
    for_up 0 (l + 1) (fun k '(a, h) =>
      v <- mget a i k ;; a <- mput a i k (v / scale)%R ;; v <- mget a i k ;; OK (a, (h + v * v)%R)) (a, 0%R).
  (** pca.c:136-147: column i, e[0..l] and f. *)
  Definition house_dots (a : mat) (e : list R) (i l : Z) (h : R) : res (mat * list R * R) :=
    for_up 0 (l + 1) (fun j '(a, e, f) =>
      v <- mget a i j ;; a <- mput a j i (v / h)%R ;;
      g <- for_up 0 (j + 1) (fun k g => x <- mget a j k ;; y <- mget a i k ;; OK (g + x * y)%R) 0%R ;;
      g <- for_up (j + 1) (l + 1) (fun k g => x <- mget a k j ;; y <- mget a i k ;; OK (g + x * y)%R) g ;;
      e <- aset e j (g / h)%R ;;
      v <- aget e j ;; u <- mget a i j ;; OK (a, e, (f + v * u)%R)) (a, e, 0%R).
  (** pca.c:149-155. *)
  Definition house_update (a : mat) (e : list R) (i l : Z) (hh : R) : res (mat * list R) :=
    for_up 0 (l + 1) (fun j '(a, e) =>
      f <- mget a i j ;;
      v <- aget e j ;; let g := (v - hh * f)%R in
      e <- aset e j g ;;
      a <- for_up 0 (j + 1) (fun k a =>
        v <- mget a j k ;; x <- aget e k ;; y <- mget a i k ;; mput a j k (v - (f * x + g * y))%R) a ;;
      OK (a, e)) (a, e).
  (** pca.c:114-161, the body of the first loop. *)
  Definition tred2_reduce (i : Z) (st : mat * list R * list R) : res (mat * list R * list R) :=
    let '(a, d, e) := st in
    let l := i - 1 in
    if 0 <? l then
      scale <- row_scale a i l ;;
      if Reqb scale 0 then
        v <- mget a i l ;; e <- aset e i v ;;
        d <- aset d i 0%R ;; OK (a, d, e)
      else
        '(a, h) <- scale_row a i l scale ;;
        f <- mget a i l ;;
        let g := if Rltb 0 f then (- sqrt h)%R else sqrt h in
        e <- aset e i (scale * g)%R ;;
        let h := (h - f * g)%R in
        a <- mput a i l (f - g)%R ;;
        '(a, e, f) <- house_dots a e i l h ;;
        let hh := (f / (h + h))%R in
        '(a, e) <- house_update a e i l hh ;;
        d <- aset d i h ;; OK (a, d, e)
    else
      v <- mget a i l ;; e <- aset e i v ;;
      d <- aset d i 0%R ;; OK (a, d, e).
  (** pca.c:164-182, the body of the second loop. *)
  Definition tred2_collect (i : Z) (st : mat * list R) : res (mat * list R) :=
    let '(a, d) := st in
    let l := i - 1 in
    di <- aget d i ;;
    a <- (if negb (Reqb di 0) then
      for_up 0 (l + 1) (fun j a =>
        g <- for_up 0 (l + 1) (fun k g => x <- mget a i k ;; y <- mget a k j ;; OK (g + x * y)%R) 0%R ;;
        for_up 0 (l + 1) (fun k a => v <- mget a k j ;; w <- mget a k i ;; mput a k j (v - g * w)%R) a) a
      else OK a) ;;
    v <- mget a i i ;; d <- aset d i v ;;
    a <- mput a i i 1%R ;;
    a <- for_up 0 (l + 1) (fun j a => a <- mput a i j 0%R ;; mput a j i 0%R) a ;;
    OK (a, d).
  (** tred2, pca.c:109-183. *)
  Definition tred2 (a : mat) (n : Z) (d e : list R) : res (mat * list R * list R) :=
    '(a, d, e) <- for_down (n - 1) 1 tred2_reduce (a, d, e) ;;
    d <- aset d 0 0%R ;;
    e <- aset e 0 0%R ;;
    '(a, d) <- for_up 0 n tred2_collect (a, d) ;;
    OK (a, d, e).

  (** tqli, pca.c:200-204: the first m >= l at which the matrix splits. *)
  Fixpoint find_split (fuel : nat) (d e : list R) (n m : Z) : res Z :=
    match fuel with
    | O => OK m
    | S fuel =>
      if m <? n - 1 then
        x <- aget d m ;; y <- aget d (m + 1) ;;
        let dd := (Rabs x + Rabs y)%R in
        v <- aget e m ;;
        if negligible (Rabs v) dd then OK m else find_split fuel d e n (m + 1)
      else OK m
    end.

  (** #define SIGN, pca.c:28. *)
  Definition SIGN (a b : R) : R := if Rltb b 0 then (- Rabs a)%R else Rabs a.

  (** pca.c:236-241: rotation of columns i and i+1 of z. *)
  Definition rotate (n i : Z) (s c : R) (z : mat) : res mat :=
    for_up 0 n (fun k z =>
      f <- mget z k (i + 1) ;;
      v <- mget z k i ;; z <- mput z k (i + 1) (s * v + c * f)%R ;;
      v <- mget z k i ;; mput z k i (c * v - s * f)%R) z.

  (** Sine, cosine and new e[i+1], pca.c:217-230. *)
  Definition givens (f g : R) : R * R * R :=
    if Rleb (Rabs g) (Rabs f) then
      let c := (g / f)%R in let r := sqrt (c * c + 1) in
      let s := (1 / r)%R in (s, c * s, f * r)%R
    else
      let s := (f / g)%R in let r := sqrt (s * s + 1) in
      let c := (1 / r)%R in (s * c, c, g * r)%R.

  Record sweep := Sweep { w_s : R; w_c : R; w_p : R; w_g : R; w_d : list R; w_e : list R; w_z : mat }.
  (** pca.c:213-242, the body of the loop over i. *)
  Definition sweep_step (n i : Z) (w : sweep) : res sweep :=
    ei <- aget (w_e w) i ;;
    let f := (w_s w * ei)%R in
    let b := (w_c w * ei)%R in
    if Reqb f 0 && Reqb (w_g w) 0 then UB else      (* 0/0 *)
    let '(s, c, v) := givens f (w_g w) in
    e <- aset (w_e w) (i + 1) v ;;
    d1 <- aget (w_d w) (i + 1) ;;
    let g := (d1 - w_p w)%R in
    d0 <- aget (w_d w) i ;;
    let r := ((d0 - g) * s + 2 * c * b)%R in
    let p := (s * r)%R in
    d <- aset (w_d w) (i + 1) (g + p)%R ;;
    let g := (c * r - b)%R in
    z <- rotate n i s c (w_z w) ;;
    OK (Sweep s c p g d e z).

  (** pca.c:207-246: one sweep over l..m. *)
  Definition ql_sweep (n l m : Z) (d e : list R) (z : mat) : res (list R * list R * mat) :=
    d1 <- aget d (l + 1) ;; d0 <- aget d l ;; el <- aget e l ;;
    if Reqb el 0 then UB else
    let g := ((d1 - d0) / (2 * el))%R in
    let r := sqrt (g * g + 1) in
    dm <- aget d m ;;
    let g := (dm - d0 + el / (g + SIGN r g))%R in
    w <- for_down (m - 1) l (sweep_step n) (Sweep 1 1 0 g d e z) ;;
    v <- aget (w_d w) l ;; d <- aset (w_d w) l (v - w_p w)%R ;;
    e <- aset (w_e w) l (w_g w) ;;
    e <- aset e m 0%R ;;
    OK (d, e, w_z w).

  (** pca.c:196-247: the do-while loop for one l; [todo] is 30 - iter.  erhand exits (Throw). *)
  Fixpoint ql_iterate (todo : nat) (n l : Z) (d e : list R) (z : mat) : res (list R * list R * mat) :=
    m <- find_split (Z.to_nat (n - l)) d e n l ;;
    if m =? l then OK (d, e, z) else
    match todo with
    | O => Throw
    | S todo =>
      '(d, e, z) <- ql_sweep n l m d e z ;; ql_iterate todo n l d e z
    end.

  (** tqli, pca.c:187-249. *)
  Definition tqli (d e : list R) (n : Z) (z : mat) : res (list R * list R * mat) :=
    e <- for_up 1 n (fun i e => v <- aget e i ;; aset e (i - 1) v) e ;;
    e <- aset e (n - 1) 0%R ;;
    for_up 0 n (fun l '(d, e, z) => ql_iterate 30 n l d e z) (d, e, z).

  (** pca_project, pca.c:252-353. *)
  Definition pca_project (data : mat) (n m ncomponents : Z) : res mat :=
    '(data, sym) <- covcol data n m (repeat (repeat junk (Z.to_nat m)) (Z.to_nat m)) ;;
    '(sym, evals, interm) <- tred2 sym m (repeat junk (Z.to_nat m)) (repeat junk (Z.to_nat m)) ;;
    '(evals, interm, sym) <- tqli evals interm m sym ;;
    '(data, _) <- for_up 0 n (fun i '(data, interm) =>
      interm <- for_up 0 m (fun j interm => v <- mget data i j ;; aset interm j v) interm ;;
      data <- for_up 0 ncomponents (fun k data =>
        data <- mput data i k 0%R ;;
        for_up 0 m (fun k2 data =>
          v <- mget data i k ;; x <- aget interm k2 ;; y <- mget sym k2 (m - k - 1) ;;
          mput data i k (v + x * y)%R) data) data ;;
      OK (data, interm)) (data, interm) ;;
    OK data.
End Pca.
