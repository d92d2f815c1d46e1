(** Model of class TPolyFit of maths/Polyfit.h over exact reals.  A division by a zero pivot (which
    happens only on the way to a "singular" result) yields some real number instead of an infinity
    or NaN; sizes are below 2^31. *)
From Coq Require Import Reals ZArith List Bool.
From Verif.Base Require Import Imp RealOps Matrix.
Import ListNotations.
Open Scope Z_scope.

(** Checked write [m[i][j] = v]. *)
Definition mset {A} (m : list (list A)) (i j : Z) (v : A) : res (list (list A)) :=
  r <- aget m i ;; r <- aset r j v ;; aset m i r.

(** NSUtility::zeroise, Polyfit.h:90-115. *)
Definition zeros (n : Z) : list R := repeat 0%R (Z.to_nat n).
Definition zeros2 {A} (z : A) (m n : Z) : list (list A) := repeat (repeat z (Z.to_nat n)) (Z.to_nat m).

(** NSUtility::swap of m[i][j] and m[k][l], Polyfit.h:85-87. *)
Definition mswap (m : list (list R)) (i j k l : Z) : res (list (list R)) :=
  t <- mget m i j ;; v <- mget m k l ;; m <- mset m i j v ;; mset m k l t.

(** TPolyFit::Square, Polyfit.h:200-223. *)
Definition square (x : list (list R)) (y : list R) (a : list (list R)) (g : list R) (nrow ncol : Z) : res (list (list R) * list R) :=
  for_up 0 ncol (fun k '(a, g) =>
    a <- for_up 0 (k + 1) (fun l a =>
      a <- mset a k l 0%R ;;
      for_up 0 nrow (fun i a =>
        v <- mget a k l ;; p <- mget x i l ;; q <- mget x i k ;;
        a <- mset a k l (v + p * q)%R ;;
        if negb (k =? l) then v <- mget a k l ;; mset a l k v else OK a) a) a ;;
    g <- aset g k 0%R ;;
    g <- for_up 0 nrow (fun i g =>
      v <- aget g k ;; p <- aget y i ;; q <- mget x i k ;; aset g k (v + p * q)%R) g ;;
    OK (a, g)) (a, g).

(** The search for the pivot, Polyfit.h:314-331: [None] is the early "return false". *)
Definition pivot_search (ncol : Z) (b : list (list R)) (index : list (list Z)) (irow icol : Z) : res (option (R * Z * Z)) :=
  for_up 0 ncol (fun j st =>
    match st with
    | None => OK None
    | Some _ =>
      ij <- mget index j 2 ;;
      if negb (ij =? 0) then
        for_up 0 ncol (fun k st =>
          match st with
          | None => OK None
          | Some (big, irow, icol) =>
            ik <- mget index k 2 ;;
            if 0 <? ik then OK None
            else if ik <? 0 then
              v <- mget b j k ;;
              if Rltb big (Rabs v) then OK (Some (Rabs v, j, k)) else OK st
            else OK st
          end) st
      else OK st
    end) (Some (0%R, irow, icol)).

(** Rows [irow] and [icol] exchanged, Polyfit.h:339-349. *)
Definition swap_rows (ncol nv irow icol : Z) (b w : list (list R)) : res (list (list R) * list (list R)) :=
  if negb (irow =? icol) then
    b <- for_up 0 ncol (fun m b => mswap b irow m icol m) b ;;
    w <- for_up 0 nv (fun m w => mswap w irow m icol m) w ;;
    OK (b, w)
  else OK (b, w).

(** The pivot row divided by the pivot, Polyfit.h:352-363. *)
Definition divide_row (ncol nv icol : Z) (b w : list (list R)) : res (list (list R) * list (list R)) :=
  pivot <- mget b icol icol ;;
  b <- mset b icol icol 1%R ;;
  b <- for_up 0 ncol (fun m b => v <- mget b icol m ;; mset b icol m (v / pivot)%R) b ;;
  w <- for_up 0 nv (fun m w => v <- mget w icol m ;; mset w icol m (v / pivot)%R) w ;;
  OK (b, w).

(** The other rows reduced, Polyfit.h:366-379. *)
Definition reduce_rows (ncol nv icol : Z) (b w : list (list R)) : res (list (list R) * list (list R)) :=
  for_up 0 ncol (fun n '(b, w) =>
    if negb (n =? icol) then
      t <- mget b n icol ;;
      b <- mset b n icol 0%R ;;
      b <- for_up 0 ncol (fun m b => v <- mget b n m ;; u <- mget b icol m ;; mset b n m (v - u * t)%R) b ;;
      w <- for_up 0 nv (fun m w => v <- mget w n m ;; u <- mget w icol m ;; mset w n m (v - u * t)%R) w ;;
      OK (b, w)
    else OK (b, w)) (b, w).

(** One turn of the main loop, Polyfit.h:312-380. *)
Definition gj_state : Type := (list (list R) * list (list R) * list (list Z) * Z * Z)%type.
Definition gj_step (ncol i : Z) (st : option gj_state) : res (option gj_state) :=
  match st with
  | None => OK None
  | Some (b, w, index, irow, icol) =>
    s <- pivot_search ncol b index irow icol ;;
    match s with
    | None => OK None
    | Some (_, irow, icol) =>
      v <- mget index icol 2 ;;
      index <- mset index icol 2 (v + 1) ;;
      index <- mset index i 0 irow ;;
      index <- mset index i 1 icol ;;
      '(b, w) <- swap_rows ncol 1 irow icol b w ;;
      '(b, w) <- divide_row ncol 1 icol b w ;;
      '(b, w) <- reduce_rows ncol 1 icol b w ;;
      OK (Some (b, w, index, irow, icol))
    end
  end.

(** TPolyFit::GaussJordan2, Polyfit.h:290-383 (the determinant is computed and never used). *)
Definition gauss_jordan2 (b : list (list R)) (y : list R) (w : list (list R)) (index : list (list Z)) : res (option gj_state) :=
  let ncol := zlen b in
  '(w, index) <- for_up 0 ncol (fun i '(w, index) =>
    v <- aget y i ;; w <- mset w i 0 v ;; index <- mset index i 2 (-1) ;; OK (w, index)) (w, index) ;;
  for_up 0 ncol (gj_step ncol) (Some (b, w, index, 0, 0)).

(** TPolyFit::GaussJordan, Polyfit.h:227-286: [None] is "return false". *)
Definition gauss_jordan (b : list (list R)) (y coef : list R) : res (option (list R)) :=
  let ncol := zlen b in
  st <- gauss_jordan2 b y (zeros2 0%R ncol ncol) (zeros2 0 ncol 3) ;;
  match st with
  | None => OK None
  | Some (b, w, index, _, _) =>
    b <- for_up 0 ncol (fun i b =>
      let m := ncol - i - 1 in
      i0 <- mget index m 0 ;; i1 <- mget index m 1 ;;
      if negb (i0 =? i1) then for_up 0 ncol (fun k b => mswap b k i0 k i1) b else OK b) b ;;
    singular <- for_up 0 ncol (fun k (bad : bool) =>
      if bad then OK true else v <- mget index k 2 ;; OK (negb (v =? 0))) false ;;
    if singular then OK None
    else
      coef <- for_up 0 ncol (fun i coef => v <- mget w i 0 ;; aset coef i v) coef ;;
      OK (Some coef)
  end.

(** TPolyFit::PolyFit2, Polyfit.h:123-189: the returned value and the coefficients. *)
Definition polyfit2 (x y coefs : list R) : res (R * list R) :=
  let npoints := zlen x in
  let nterms := zlen coefs in
  let g := zeros nterms in
  let a := zeros2 0%R nterms nterms in
  let xmatr := zeros2 0%R npoints nterms in
  if nterms <? 1 then OK (0%R, coefs)
  else if npoints <? 2 then OK (0%R, coefs)
  else if negb (npoints =? zlen y) then OK (0%R, coefs)
  else
    xmatr <- for_up 0 npoints (fun i xmatr =>
      xi <- aget x i ;;
      xmatr <- mset xmatr i 0 1%R ;;
      for_up 1 nterms (fun j xmatr => v <- mget xmatr i (j - 1) ;; mset xmatr i j (v * xi)%R) xmatr) xmatr ;;
    '(a, g) <- square xmatr y a g npoints nterms ;;
    r <- gauss_jordan a g coefs ;;
    match r with
    | None => OK ((-1)%R, coefs)
    | Some coefs =>
      '(srs, sum_y, sum_y2) <- for_up 0 npoints (fun i '(srs, sum_y, sum_y2) =>
        yi <- aget y i ;;
        yc <- for_up 0 nterms (fun j yc => c <- aget coefs j ;; v <- mget xmatr i j ;; OK (yc + c * v)%R) 0%R ;;
        OK (srs + (yc - yi) * (yc - yi), sum_y + yi, sum_y2 + yi * yi)%R) (0, 0, 0)%R ;;
      let cc := (sum_y2 - sum_y * sum_y / IZR npoints)%R in
      let cc := if negb (Reqb cc 0) then (srs / cc)%R else cc in
      OK (if Rleb 1 cc then 0%R else sqrt (1 - cc), coefs)
    end.
