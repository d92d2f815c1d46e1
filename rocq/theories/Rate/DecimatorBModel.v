(** Model of dsp/rateconversion/DecimatorB.cpp. *)
From Coq Require Import List ZArith QArith Lia Bool.
From Verif.Base Require Import Imp.
From Verif.Maths Require Import IntModel.
Import ListNotations.
Open Scope Z_scope.

(** Coefficient literals, DecimatorB.cpp:63-77. *)
Definition bw_b : list Q :=
   [(29588223638661 # 1000000000000000);
    (177529341831965 # 1000000000000000);
    (443823354579912 # 1000000000000000);
    (591764472773216 # 1000000000000000);
    (443823354579912 # 1000000000000000);
    (177529341831965 # 1000000000000000);
    (29588223638661 # 1000000000000000)].
Definition bw_a : list Q :=
   [(1000000000000000 # 1000000000000000);
    (0 # 1000000000000000);
    (777695961855673 # 1000000000000000);
    (0 # 1000000000000000);
    (114199425062434 # 1000000000000000);
    (0 # 1000000000000000);
    (1750925956183 # 1000000000000000)].

Section DecimatorB.
  (** [T] double with any operations, [lit] decimal literals, [F] the sample type of the
      overload of process (double or float). *)
  Context {T : Type} (zero : T) (add sub mul : T -> T -> T) (lit : Q -> T).
  Context {F : Type} (up : F -> T) (down : T -> F).

  (** Members, DecimatorB.h:55-66. *)
  Record decB := mkDecB { e_in : Z; e_out : Z; e_factor : Z; e_o : list (list T);
    e_a : list T; e_b : list T; e_aa : list T; e_tmp : list T }.

  (** Constructor and initialise, DecimatorB.cpp:23-82.  The division by the factor (line 42)
      precedes the check of the factor.  [junk]: indeterminate memory; when initialise returns
      early the coefficient arrays stay indeterminate and the buffers null (here empty). *)
  Definition decB_new (junk : T) (inLength decFactor : Z) : res decB :=
    if decFactor =? 0 then UB else
    let outl := Z.quot inLength decFactor in
    if (decFactor <? 2) || negb (isPowerOfTwo decFactor) then
      OK (mkDecB inLength outl 0 [] (repeat junk 7) (repeat junk 7) [] [])
    else if negb (Z.rem inLength decFactor =? 0) then
      OK (mkDecB inLength outl 0 [] (repeat junk 7) (repeat junk 7) [] [])
    else if inLength <? 0 then Throw
    else
      '(_, o) <- while 32 (fun '(factor, _) => 1 <? factor)
        (fun '(factor, o) => OK (Z.quot factor 2, o ++ [repeat zero 6])) (decFactor, []) ;;
      OK (mkDecB inLength outl decFactor o (map lit bw_a) (map lit bw_b)
            (repeat junk (Z.to_nat inLength)) (repeat junk (Z.to_nat inLength))).

  (** doAntiAlias, DecimatorB.cpp:90-109: src and dst are the two internal buffers. *)
  Definition decB_alias (e : decB) (src dst : list T) (length filteridx : Z) : res (list T * list (list T)) :=
    o <- aget (e_o e) filteridx ;;
    '(dst, o) <- for_up 0 length (fun i '(dst, o) =>
      input <- aget src i ;;
      b0 <- aget (e_b e) 0 ;; o0 <- aget o 0 ;;
      let output := add (mul input b0) o0 in
      b1 <- aget (e_b e) 1 ;; a1 <- aget (e_a e) 1 ;; o1 <- aget o 1 ;;
      o <- aset o 0 (add (sub (mul input b1) (mul output a1)) o1) ;;
      b2 <- aget (e_b e) 2 ;; a2 <- aget (e_a e) 2 ;; o2 <- aget o 2 ;;
      o <- aset o 1 (add (sub (mul input b2) (mul output a2)) o2) ;;
      b3 <- aget (e_b e) 3 ;; a3 <- aget (e_a e) 3 ;; o3 <- aget o 3 ;;
      o <- aset o 2 (add (sub (mul input b3) (mul output a3)) o3) ;;
      b4 <- aget (e_b e) 4 ;; a4 <- aget (e_a e) 4 ;; o4 <- aget o 4 ;;
      o <- aset o 3 (add (sub (mul input b4) (mul output a4)) o4) ;;
      b5 <- aget (e_b e) 5 ;; a5 <- aget (e_a e) 5 ;; o5 <- aget o 5 ;;
      o <- aset o 4 (add (sub (mul input b5) (mul output a5)) o5) ;;
      b6 <- aget (e_b e) 6 ;; a6 <- aget (e_a e) 6 ;;
      o <- aset o 5 (sub (mul input b6) (mul output a6)) ;;
      dst <- aset dst i output ;;
      OK (dst, o)) (dst, o) ;;
    os <- aset (e_o e) filteridx o ;;
    OK (dst, os).

  (** doProcess, DecimatorB.cpp:111-129.  32 iterations suffice for any int factor. *)
  Definition decB_doProcess (e : decB) : res decB :=
    '(_, _, e) <- while 32 (fun '(_, factorDone, e) => factorDone <? e_factor e)
      (fun '(filteridx, factorDone, e) =>
        '(aa, os) <- decB_alias e (e_tmp e) (e_aa e) (Z.quot (e_in e) factorDone) filteridx ;;
        let filteridx := filteridx + 1 in
        let factorDone := factorDone * 2 in
        tmp <- for_up 0 (Z.quot (e_in e) factorDone) (fun i tmp =>
          v <- aget aa (i * 2) ;; aset tmp i v) (e_tmp e) ;;
        OK (filteridx, factorDone,
            mkDecB (e_in e) (e_out e) (e_factor e) os (e_a e) (e_b e) aa tmp)) (0, 1, e) ;;
    OK e.

  (** process, DecimatorB.cpp:131-161 (both overloads), src and dst in separate memory. *)
  Definition decB_process (e : decB) (src dst : list F) : res (decB * list F) :=
    if e_factor e =? 0 then OK (e, dst) else
    tmp <- for_up 0 (e_in e) (fun i tmp => v <- aget src i ;; aset tmp i (up v)) (e_tmp e) ;;
    e <- decB_doProcess (mkDecB (e_in e) (e_out e) (e_factor e) (e_o e) (e_a e) (e_b e) (e_aa e) tmp) ;;
    dst <- for_up 0 (e_out e) (fun i dst => v <- aget (e_tmp e) i ;; aset dst i (down v)) dst ;;
    OK (e, dst).

  (** A client making successive calls. *)
  Fixpoint decB_run (e : decB) (calls : list (list F * list F)) : res (decB * list (list F)) :=
    match calls with
    | [] => OK (e, [])
    | (blk, out) :: rest =>
        '(e, o) <- decB_process e blk out ;;
        '(e, os) <- decB_run e rest ;; OK (e, o :: os)
    end.
End DecimatorB.
Arguments decB : clear implicits.
