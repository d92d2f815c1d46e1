(** Model of dsp/segmentation/cluster_melt.c over any arithmetic.  malloc does not fail; freeing is not modelled. *)
From Coq Require Import List ZArith Lia Bool.
From Verif.Base Require Import Imp Arith Matrix.
Import ListNotations.
Open Scope Z_scope.

Section Melt.
  Context {T : Type} (A : arith T) (texp tlog : T -> T).
  (** The literal 0.02 (DEFAULT_LAMBDA). *)
  Variable lambda : T.
  (** Indeterminate memory contents. *)
  Variables (junk : T) (junkZ : Z).
  (** The successive values of rand(), converted to double. *)
  Variable rnd : Z -> T.

  (** kldist, cluster_melt.c:24-43.  The second array is passed as a pointer into [h]. *)
  Definition kldist (a h : list T) (off n : Z) : res T :=
    for_up 0 n (fun i d =>
      x <- aget a i ;; y <- aget h (off + i) ;;
      let q := a_div A (a_add A x y) (a_of A 2) in
      if a_lt A (a_of A 0) q then
        let d := if a_lt A (a_of A 0) x then a_add A d (a_mul A x (tlog (a_div A x q))) else d in
        OK (if a_lt A (a_of A 0) y then a_add A d (a_mul A y (tlog (a_div A y q))) else d)
      else OK d) (a_of A 0).

  (** cluster_melt.c:85-95: random reference histograms; [c] counts the calls of rand(). *)
  Definition init_ref (m : Z) (row : list T) (c : Z) : res (list T * Z) :=
    ' (row, s, c) <- for_up 0 m (fun j '(row, s, c) =>
      let v := rnd c in
      row <- aset row j v ;; OK (row, a_add A s (a_mul A v v), c + 1)) (row, a_of A 0, c) ;;
    row <- for_up 0 m (fun j row => v <- aget row j ;; aset row j (a_div A v (a_sqrt A s))) row ;;
    OK (row, c).
  Definition init_refs (m k : Z) (cl : list (list T)) : res (list (list T)) :=
    ' (cl, _) <- for_up 0 k (fun i '(cl, c) =>
      row <- aget cl i ;; ' (row, c) <- init_ref m row c ;; cl <- aset cl i row ;; OK (cl, c)) (cl, 0) ;;
    OK cl.

  (** cluster_melt.c:128-143: number of frames within [limit] of frame i which are not in cluster j. *)
  Definition neighbours (n limit : Z) (c : list Z) (i j : Z) : res Z :=
    let b0 := if i - limit <? 0 then 0 else i - limit in
    let b1 := if i + limit >=? n then n - 1 else i + limit in
    for_up b0 (b1 + 1) (fun b v => x <- aget c b ;; OK (if x =? j + 1 then v - 1 else v)) (b1 - b0 + 1).

  (** cluster_melt.c:116-153, the body for frame i: rows i of lp and nc.  The negation of beta is 0 - beta. *)
  Definition soft_row (h : list T) (m n k limit : Z) (beta : T) (cl : list (list T)) (c : list Z) (i : Z)
      (lr : list T) (nr : list Z) : res (list T * list Z) :=
    ' (lr, nr, s) <- for_up 0 k (fun j '(lr, nr, s) =>
      ref <- aget cl j ;;
      d <- kldist ref h (i * m) m ;;
      let v := a_mul A (a_sub A (a_of A 0) beta) d in
      lr <- aset lr j v ;;
      b <- neighbours n limit c i j ;;
      nr <- aset nr j b ;;
      OK (lr, nr, a_add A s (texp v))) (lr, nr, a_of A 0) ;;
    let z := tlog s in
    lr <- for_up 0 k (fun j lr =>
      v <- aget lr j ;; b <- aget nr j ;;
      aset lr j (a_sub A v (a_add A z (a_mul A lambda (a_of A b))))) lr ;;
    OK (lr, nr).
  Definition soft (h : list T) (m n k limit : Z) (beta : T) (cl : list (list T)) (c : list Z)
      (lp : list (list T)) (nc : list (list Z)) (oldc : list Z) : res (list (list T) * list (list Z) * list Z) :=
    for_up 0 n (fun i '(lp, nc, oldc) =>
      v <- aget c i ;; oldc <- aset oldc i v ;;
      lr <- aget lp i ;; nr <- aget nc i ;;
      ' (lr, nr) <- soft_row h m n k limit beta cl c i lr nr ;;
      lp <- aset lp i lr ;; nc <- aset nc i nr ;; OK (lp, nc, oldc)) (lp, nc, oldc).

  (** cluster_melt.c:155-166. *)
  Definition assign (n k : Z) (lp : list (list T)) (c : list Z) : res (list Z) :=
    for_up 0 n (fun i c =>
      lr <- aget lp i ;; m0 <- aget lr 0 ;; c <- aset c i 1 ;;
      ' (_, c) <- for_up 1 k (fun j '(max, c) =>
        v <- aget lr j ;;
        if a_lt A max v then c <- aset c i (j + 1) ;; OK (v, c) else OK (max, c)) (m0, c) ;;
      OK c) c.

  (** cluster_melt.c:168-175: is i == n after the loop? *)
  Definition unchanged (n : Z) (oldc c : list Z) : res bool :=
    for_up 0 n (fun i b => if b : bool then x <- aget oldc i ;; y <- aget c i ;; OK (x =? y) else OK false) true.

  (** cluster_melt.c:177-193. *)
  Definition update_refs (h : list T) (m n k : Z) (lp : list (list T)) (cl : list (list T)) : res (list (list T)) :=
    for_up 0 k (fun j cl =>
      row <- aget cl j ;;
      row <- for_up 0 m (fun b row =>
        v <- for_up 0 n (fun i v => l <- mget lp i j ;; x <- aget h (i * m + b) ;; OK (a_add A v (a_mul A (texp l) x))) (a_of A 0) ;;
        aset row b v) row ;;
      s <- for_up 0 n (fun i s => l <- mget lp i j ;; OK (a_add A s (texp l))) (a_of A 0) ;;
      row <- for_up 0 m (fun b row => v <- aget row b ;; aset row b (a_div A v s)) row ;;
      aset cl j row) cl.

  Record melt_state := Melt { m_cl : list (list T); m_lp : list (list T); m_nc : list (list Z); m_oldc : list Z; m_c : list Z }.
  (** cluster_melt.c:111-194: at most [fuel] iterations at one temperature. *)
  Fixpoint anneal (fuel : nat) (h : list T) (m n k limit : Z) (beta : T) (s : melt_state) : res melt_state :=
    match fuel with
    | O => OK s
    | S fuel =>
      ' (lp, nc, oldc) <- soft h m n k limit beta (m_cl s) (m_c s) (m_lp s) (m_nc s) (m_oldc s) ;;
      c <- assign n k lp (m_c s) ;;
      stop <- unchanged n oldc c ;;
      if stop : bool then OK (Melt (m_cl s) lp nc oldc c)
      else cl <- update_refs h m n k lp (m_cl s) ;;
           anneal fuel h m n k limit beta (Melt cl lp nc oldc c)
    end.

  (** cluster_melt, cluster_melt.c:45-211. *)
  Definition cluster_melt (h : list T) (m n : Z) (bsched : list T) (t k l : Z) (c : list Z) : res (list Z) :=
    let limit := if 0 <? l then l else 20 in
    cl <- init_refs m k (repeat (repeat junk (Z.to_nat m)) (Z.to_nat k)) ;;
    c <- for_up 0 n (fun i c => aset c i 1) c ;;
    s <- for_up 0 t (fun a s =>
      beta <- aget bsched a ;;
      anneal (if a =? 0 then 20 else 5) h m n k limit beta s)
      (Melt cl (repeat (repeat junk (Z.to_nat k)) (Z.to_nat n)) (repeat (repeat junkZ (Z.to_nat k)) (Z.to_nat n))
        (repeat junkZ (Z.to_nat n)) c) ;;
    OK (m_c s).
End Melt.
