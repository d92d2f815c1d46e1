(** Model of GetKeyMode (dsp/keydetection/GetKeyMode.cpp) over an arbitrary arithmetic.
    The chroma frame that process() obtains from its Decimator and Chromagram objects
    (lines 197-199) is an input of the model: a list of 36 values, unconstrained.
    The constructor's buffer sizes (lines 98-101, ceil of a time times a rate) are inputs too. *)
From Coq Require Import List ZArith Lia Bool.
From Verif.Base Require Import Imp Arith.
Import ListNotations.
Open Scope Z_scope.

(** GetKeyMode.cpp:31 *)
Definition kBinsPerOctave : Z := 36.

(** GetKeyMode.cpp:34-46, in units of 1/10000. *)
Definition MajProfile : list Z := [
    384; 629; 258; 121; 146; 106; 364; 610; 267;
    126; 121; 86; 364; 623; 279; 275; 414; 186;
    173; 248; 145; 364; 631; 262; 129; 150; 98;
    312; 521; 235; 129; 142; 95; 289; 478; 239].
Definition MinProfile : list Z := [
    375; 682; 299; 119; 138; 93; 296; 543; 257;
    292; 519; 246; 159; 234; 135; 291; 544; 248;
    137; 176; 104; 352; 670; 302; 222; 349; 164;
    174; 297; 166; 222; 401; 202; 175; 270; 146].

(** qsort with MathUtilities::compareInt (MathUtilities.cpp:230-233; the values sorted are
    between 0 and 24, so the subtraction cannot overflow). *)
Fixpoint zinsert (x : Z) (l : list Z) : list Z :=
  match l with
  | [] => [x]
  | y :: t => if y <? x then y :: zinsert x t else x :: l
  end.
Definition zsort (l : list Z) : list Z := fold_right zinsert [] l.

Section Key.
  Context {T : Type} (A : arith T).
  Local Notation "0.0" := (a_of A 0).

  (** A literal 0.dddd: the double nearest to n/10000, which is also the rounded quotient of
      the two exactly representable integers. *)
  Definition lit (n : Z) : T := a_div A (a_of A n) (a_of A 10000).

  (** MathUtilities::mean (MathUtilities.cpp:100-123) *)
  Definition gmean (src : list T) (len : Z) : res T :=
    if len =? 0 then OK 0.0 else
    s <- for_up 0 len (fun i s => v <- aget src i ;; OK (a_add A s v)) 0.0 ;;
    OK (a_div A s (a_of A len)).

  (** MathUtilities::getMax (MathUtilities.cpp:165-186) *)
  Definition ggetMax (data : list T) (length : Z) : res (Z * T) :=
    m0 <- aget data 0 ;;
    for_up 0 length (fun i '(index, max) =>
      temp <- aget data i ;;
      OK (if a_lt A max temp then (i, temp) else (index, max))) (0, m0).

  (** Subtracting the mean: GetKeyMode.cpp:126-132 (profiles) and 228-232 (data). *)
  Definition centre (src : list T) : res (list T) :=
    m <- gmean src kBinsPerOctave ;;
    for_up 0 kBinsPerOctave (fun i d => v <- aget src i ;; aset d i (a_sub A v m))
      (repeat 0.0 (Z.to_nat kBinsPerOctave)).

  (** The members that persist between calls.  m_majCorr and m_minCorr are uninitialised
      ([None]) until the first process(). *)
  Record state := mkState {
    chromaBuffer : list T; bufferIndex : Z; chromaFilling : Z;
    medianBuffer : list Z; medianFilling : Z;
    majCorr : list (option T); minCorr : list (option T) }.

  (** Constructor, GetKeyMode.cpp:97-137, with the two buffer sizes given. *)
  Definition key_new (csize msize : Z) : state :=
    mkState (repeat 0.0 (Z.to_nat (kBinsPerOctave * csize))) 0 0
            (repeat 0 (Z.to_nat msize)) 0
            (repeat None (Z.to_nat kBinsPerOctave)) (repeat None (Z.to_nat kBinsPerOctave)).

  (** krumCorr, GetKeyMode.cpp:161-190. *)
  Definition krumCorr (pData pProfile : list T) (shift length : Z) : res T :=
    ' (num, sum1, sum2) <-
      for_up 0 length (fun i '(num, sum1, sum2) =>
        let k := Z.rem (i - shift + length) length in
        d <- aget pData i ;; p <- aget pProfile k ;;
        OK (a_add A num (a_mul A d p), a_add A sum1 (a_mul A d d), a_add A sum2 (a_mul A p p)))
        (0.0, 0.0, 0.0) ;;
    let den := a_sqrt A (a_mul A sum1 sum2) in
    OK (if a_lt A 0.0 den then a_div A num den else 0.0).

  (** process, GetKeyMode.cpp:201-226: the smoothed chroma vector. *)
  Definition smooth (csize : Z) (s : state) (frame : list T) : res (list T * Z * Z * list T) :=
    buf <- for_up 0 kBinsPerOctave (fun j b =>
             v <- aget frame j ;; aset b (bufferIndex s * kBinsPerOctave + j) v) (chromaBuffer s) ;;
    let idx := if csize - 1 <=? bufferIndex s then 0 else bufferIndex s + 1 in
    let fill := if csize <=? chromaFilling s then csize else chromaFilling s + 1 in
    meanHPCP <- for_up 0 kBinsPerOctave (fun k m =>
      mn <- for_up 0 fill (fun j mn =>
              v <- aget buf (k + j * kBinsPerOctave) ;; OK (a_add A mn v)) 0.0 ;;
      aset m k (a_div A mn (a_of A fill))) (repeat 0.0 (Z.to_nat kBinsPerOctave)) ;;
    OK (buf, idx, fill, meanHPCP).

  (** process, GetKeyMode.cpp:228-243: correlation with all 36 rotations of both profiles. *)
  Definition correlate (meanHPCP : list T) : res (list T * list T) :=
    majN <- centre (map lit MajProfile) ;;
    minN <- centre (map lit MinProfile) ;;
    hpcp <- centre meanHPCP ;;
    for_up 0 kBinsPerOctave (fun k '(maj, min) =>
      x <- krumCorr hpcp majN (k - 2) kBinsPerOctave ;;
      y <- krumCorr hpcp minN (k - 2) kBinsPerOctave ;;
      maj <- aset maj k x ;; min <- aset min k y ;; OK (maj, min))
      (repeat 0.0 (Z.to_nat kBinsPerOctave), repeat 0.0 (Z.to_nat kBinsPerOctave)).

  (** process, GetKeyMode.cpp:245-254: the unsmoothed key estimate. *)
  Definition pick (maj min : list T) : res Z :=
    ' (majBin, maxMaj) <- ggetMax maj kBinsPerOctave ;;
    ' (minBin, maxMin) <- ggetMax min kBinsPerOctave ;;
    let maxBin := if a_lt A maxMin maxMaj then majBin else minBin + kBinsPerOctave in
    OK (Z.quot maxBin 3 + 1).

  (** process, GetKeyMode.cpp:256-289: median filtering of the keys. *)
  Definition median_step (msize : Z) (buf : list Z) (filling : Z) (key : Z) : res (Z * list Z * Z) :=
    let fill := if msize <=? filling then msize else filling + 1 in
    buf <- for_up 1 msize (fun k b => v <- aget b k ;; aset b (k - 1) v) buf ;;
    buf <- aset buf (msize - 1) key ;;
    sorted <- for_up 0 msize (fun k s => v <- aget buf (msize - 1 - k) ;; aset s k v)
                (repeat 0 (Z.to_nat msize)) ;;
    let sorted := zsort (firstn (Z.to_nat fill) sorted) ++ skipn (Z.to_nat fill) sorted in
    (* (int)ceil((double)sortlength / 2) *)
    let midpoint := (fill + 1) / 2 in
    let midpoint := if midpoint <=? 0 then 1 else midpoint in
    key <- aget sorted (midpoint - 1) ;;
    OK (key, buf, fill).

  (** process, GetKeyMode.cpp:192-290, for the chroma frame [frame]. *)
  Definition process (csize msize : Z) (s : state) (frame : list T) : res (Z * state) :=
    ' (cbuf, idx, cfill, meanHPCP) <- smooth csize s frame ;;
    ' (maj, min) <- correlate meanHPCP ;;
    key <- pick maj min ;;
    ' (key, mbuf, mfill) <- median_step msize (medianBuffer s) (medianFilling s) key ;;
    OK (key, mkState cbuf idx cfill mbuf mfill (map Some maj) (map Some min)).

  (** getKeyStrengths, GetKeyMode.cpp:292-316.  Reading a correlation that was never written
      is undefined. *)
  Definition read (l : list (option T)) (i : Z) : res T :=
    v <- aget l i ;; match v with Some x => OK x | None => UB end.
  Definition strengths_half (corr : list (option T)) (off : Z) (ks : list T) : res (list T) :=
    for_up 0 kBinsPerOctave (fun k ks =>
      let idx := Z.quot (k + off) (Z.quot kBinsPerOctave 12) in
      let rem := Z.rem k (Z.quot kBinsPerOctave 12) in
      c <- read corr k ;; cur <- aget ks idx ;;
      if (rem =? 0) || a_lt A cur c then aset ks idx c else OK ks) ks.
  Definition getKeyStrengths (s : state) : res (list T) :=
    ks <- strengths_half (majCorr s) 0 (repeat 0.0 24) ;;
    strengths_half (minCorr s) kBinsPerOctave ks.

  (** Repeated calls; the keys are returned oldest first. *)
  Fixpoint run (csize msize : Z) (s : state) (frames : list (list T)) : res (list Z * state) :=
    match frames with
    | [] => OK ([], s)
    | f :: fs =>
        ' (k, s1) <- process csize msize s f ;;
        ' (ks, s2) <- run csize msize s1 fs ;;
        OK (k :: ks, s2)
    end.
End Key.
Arguments chromaBuffer {T} _.
Arguments bufferIndex {T} _.
Arguments chromaFilling {T} _.
Arguments medianBuffer {T} _.
Arguments medianFilling {T} _.
Arguments majCorr {T} _.
Arguments minCorr {T} _.
Arguments mkState {T} _ _ _ _ _ _ _.
