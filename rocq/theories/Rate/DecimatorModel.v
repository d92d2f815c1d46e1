(** Model of dsp/rateconversion/Decimator.cpp. *)
From Coq Require Import List ZArith QArith Lia Bool.
From Verif.Base Require Import Imp.
Import ListNotations.
Open Scope Z_scope.

(** Coefficient literals, as written in the source. *)
(** Decimator.cpp:49-71 *)
Definition b_8 : list Q :=
   [(60111378492136 # 1000000000000000);
    ((-257323420830598) # 1000000000000000);
    (420583503165928 # 1000000000000000);
    ((-222750785197418) # 1000000000000000);
    ((-222750785197418) # 1000000000000000);
    (420583503165928 # 1000000000000000);
    ((-257323420830598) # 1000000000000000);
    (60111378492136 # 1000000000000000)].
Definition a_8 : list Q :=
   [(1 # 1);
    ((-5667654878577432) # 1000000000000000);
    (14062452278088417 # 1000000000000000);
    ((-19737303840697738) # 1000000000000000);
    (16889698874608641 # 1000000000000000);
    ((-8796600612325928) # 1000000000000000);
    (2577553446979888 # 1000000000000000);
    ((-326903916815751) # 1000000000000000)].
(** Decimator.cpp:71-93 *)
Definition b_4 : list Q :=
   [(10133306904918619 # 100000000000000000);
    ((-2447523353702363) # 10000000000000000);
    (33622528590120965 # 100000000000000000);
    ((-13936581560633518) # 100000000000000000);
    ((-13936581560633382) # 100000000000000000);
    (3362252859012087 # 10000000000000000);
    ((-2447523353702358) # 10000000000000000);
    (10133306904918594 # 100000000000000000)].
Definition a_4 : list Q :=
   [(1 # 1);
    ((-39035590278139427) # 10000000000000000);
    (75299379980621133 # 10000000000000000);
    ((-86890803793177511) # 10000000000000000);
    (64578667096099176 # 10000000000000000);
    ((-30242979431223631) # 10000000000000000);
    (83043385136748382 # 100000000000000000);
    ((-94420800837809335) # 1000000000000000000)].
(** Decimator.cpp:93-114 *)
Definition b_2 : list Q :=
   [(20898944260075727 # 100000000000000000);
    (40011234879814367 # 100000000000000000);
    (819741973072733 # 1000000000000000);
    (10087419911682323 # 10000000000000000);
    (10087419911682325 # 10000000000000000);
    (81974197307273156 # 100000000000000000);
    (40011234879814295 # 100000000000000000);
    (20898944260075661 # 100000000000000000)].
Definition a_2 : list Q :=
   [(1 # 1);
    (77331184208358217 # 10000000000000000000);
    (19853971155964376 # 10000000000000000);
    (19296739275341004 # 100000000000000000);
    (12330748872852182 # 10000000000000000);
    (18705341389316466 # 100000000000000000);
    (23659265908013868 # 100000000000000000);
    (32352924250533946 # 1000000000000000000)].
(** Decimator.cpp:114-140 *)
Definition b_1 : list Q :=
   [(1 # 1);
    (0 # 1);
    (0 # 1);
    (0 # 1);
    (0 # 1);
    (0 # 1);
    (0 # 1);
    (0 # 1)].
Definition a_1 : list Q :=
   [(1 # 1);
    (0 # 1);
    (0 # 1);
    (0 # 1);
    (0 # 1);
    (0 # 1);
    (0 # 1);
    (0 # 1)].

Section Decimator.
  (** [T] is double with its arithmetic (any operations), [lit] the conversion of a decimal
      literal.  [F] is the sample type of src and dst: double ([up], [down] identities) for the
      first overload of process, float for the second. *)
  Context {T : Type} (zero : T) (add sub mul : T -> T -> T) (lit : Q -> T).
  Context {F : Type} (up : F -> T) (down : T -> F).

  (** o1..o7, Decimator.h:71. *)
  Record delay7 := mkDelay7 { o1 : T; o2 : T; o3 : T; o4 : T; o5 : T; o6 : T; o7 : T }.

  (** Members, Decimator.h:64-76. *)
  Record decimator := mkDecimator { d_in : Z; d_out : Z; d_factor : Z; d_Input : T; d_Output : T;
    d_o : delay7; d_a : list T; d_b : list T; d_buf : list T }.

  (** resetFilter, Decimator.cpp:148-153. *)
  Definition decimator_reset (d : decimator) : decimator :=
    mkDecimator (d_in d) (d_out d) (d_factor d) zero zero
      (mkDelay7 zero zero zero zero zero zero zero) (d_a d) (d_b d) (d_buf d).

  (** Constructor and initialise, Decimator.cpp:24-141.  [junk]: indeterminate memory.
      Members a[8], b[8] are never set nor used.  A zero factor divides by zero; a negative
      length throws from new[].  C++ division truncates ([Z.quot]). *)
  Definition coefficients (factor : Z) : list Q * list Q :=
    if factor =? 8 then (b_8, a_8) else if factor =? 4 then (b_4, a_4)
    else if factor =? 2 then (b_2, a_2) else (b_1, a_1).
  Definition decimator_new (junk : T) (inLength decFactor : Z) : res decimator :=
    if decFactor =? 0 then UB else
    if inLength <? 0 then Throw else
    let '(b, a) := coefficients decFactor in
    OK (decimator_reset (mkDecimator inLength (Z.quot inLength decFactor) decFactor junk junk
      (mkDelay7 junk junk junk junk junk junk junk) (map lit a) (map lit b)
      (repeat junk (Z.to_nat inLength)))).

  (** doAntiAlias, Decimator.cpp:155-193 (both overloads).  src is [mem] from [src], dst is
      decBuffer.  The memory argument is only read. *)
  Definition decimator_alias (d : decimator) (mem : list F) (src length : Z) : res decimator :=
    b0 <- aget (d_b d) 0 ;; b1 <- aget (d_b d) 1 ;; b2 <- aget (d_b d) 2 ;; b3 <- aget (d_b d) 3 ;;
    b4 <- aget (d_b d) 4 ;; b5 <- aget (d_b d) 5 ;; b6 <- aget (d_b d) 6 ;; b7 <- aget (d_b d) 7 ;;
    a1 <- aget (d_a d) 1 ;; a2 <- aget (d_a d) 2 ;; a3 <- aget (d_a d) 3 ;;
    a4 <- aget (d_a d) 4 ;; a5 <- aget (d_a d) 5 ;; a6 <- aget (d_a d) 6 ;; a7 <- aget (d_a d) 7 ;;
    '(inp, outp, o, buf) <- for_up 0 length (fun i '(_, _, o, buf) =>
      s <- aget mem (src + i) ;;
      let inp := up s in
      let outp := add (mul inp b0) (o1 o) in
      let n1 := add (sub (mul inp b1) (mul outp a1)) (o2 o) in
      let n2 := add (sub (mul inp b2) (mul outp a2)) (o3 o) in
      let n3 := add (sub (mul inp b3) (mul outp a3)) (o4 o) in
      let n4 := add (sub (mul inp b4) (mul outp a4)) (o5 o) in
      let n5 := add (sub (mul inp b5) (mul outp a5)) (o6 o) in
      let n6 := add (sub (mul inp b6) (mul outp a6)) (o7 o) in
      let n7 := sub (mul inp b7) (mul outp a7) in
      buf <- aset buf i outp ;;
      OK (inp, outp, mkDelay7 n1 n2 n3 n4 n5 n6 n7, buf))
      (d_Input d, d_Output d, d_o d, d_buf d) ;;
    OK (mkDecimator (d_in d) (d_out d) (d_factor d) inp outp o (d_a d) (d_b d) buf).

  (** process, Decimator.cpp:195-229 (both overloads).  Caller memory is one array [mem] with
      src and dst pointing at offsets [src] and [dst], so that they may overlap. *)
  Definition decimator_process (d : decimator) (mem : list F) (src dst : Z) : res (decimator * list F) :=
    if d_factor d =? 1 then
      mem <- for_up 0 (d_out d) (fun i mem => v <- aget mem (src + i) ;; aset mem (dst + i) v) mem ;;
      OK (d, mem)
    else
      d <- decimator_alias d mem src (d_in d) ;;
      '(_, mem) <- for_up 0 (d_out d) (fun i '(idx, mem) =>
        v <- aget (d_buf d) (d_factor d * i) ;;
        mem <- aset mem (dst + idx) (down v) ;; OK (idx + 1, mem)) (0, mem) ;;
      OK (d, mem).

  (** A client with separate src and dst buffers: src is [blk], dst is [out]. *)
  Definition decimator_block (d : decimator) (blk out : list F) : res (decimator * list F) :=
    '(d, mem) <- decimator_process d (blk ++ out) 0 (zlen blk) ;;
    OK (d, skipn (length blk) mem).
  Fixpoint decimator_run (d : decimator) (calls : list (list F * list F)) : res (decimator * list (list F)) :=
    match calls with
    | [] => OK (d, [])
    | (blk, out) :: rest =>
        '(d, o) <- decimator_block d blk out ;;
        '(d, os) <- decimator_run d rest ;; OK (d, o :: os)
    end.
End Decimator.
Arguments decimator : clear implicits.
