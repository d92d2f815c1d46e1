(** Model of base/Pitch.cpp over exact reals (float rounding is not modelled). *)
From Coq Require Import Reals ZArith List Bool.
From Verif.Base Require Import Imp RealOps.
From Verif.Tempo Require BeatModel.
Open Scope R_scope.

(** Conversion to int: toward zero, undefined outside int. *)
Definition to_int (x : R) : res Z :=
  let z := BeatModel.trunc x in if ((- 2 ^ 31 <=? z) && (z <? 2 ^ 31))%Z then OK z else UB.

(** Pitch::getFrequencyForPitch, Pitch.cpp:20-27. *)
Definition getFrequencyForPitch (midiPitch : Z) (centsOffset concertA : R) : R :=
  let p := IZR midiPitch + centsOffset / 100 in
  concertA * Rpower 2 ((p - 69) / 12).

(** Pitch::getPitchForFrequency, Pitch.cpp:29-47; the pitch and what is stored in
    *centsOffsetReturn.  The log of 0 is infinite, of a negative number NaN: neither converts to int. *)
Definition getPitchForFrequency (frequency concertA : R) : res (Z * R) :=
  let r := frequency / (concertA / 2) in
  if negb (Rltb 0 r) then UB else
  let p := 12 * (ln r / ln 2) + 57 in
  midiPitch <- to_int (p + 0.00001) ;;
  let centsOffset := (p - IZR midiPitch) * 100 in
  if Rle_dec 50 centsOffset then OK ((midiPitch + 1)%Z, - (100 - centsOffset)) else OK (midiPitch, centsOffset).
