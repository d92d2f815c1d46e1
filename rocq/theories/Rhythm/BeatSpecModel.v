(** Model of dsp/rhythm/BeatSpectrum.cpp.  The number of frames is below 2^31 (the conversion
    of size() to int is not modelled). *)
From Coq Require Import Reals ZArith List Bool.
From Verif.Base Require Import Imp RealOps Arith.
From Verif.Measures Require Import MeasModel.
Import ListNotations.
Open Scope Z_scope.

Section BS.
  Context {T : Type} (A : arith T) (fabs : T -> T) (small : T).

  (** BeatSpectrum::process, BeatSpectrum.cpp:22-59; origin is 0. *)
  Definition beat_spectrum (m : list (list T)) : res (list T) :=
    let sz := zlen m / 2 in
    v <- for_up 0 sz (fun i v => aset v i (a_of A 0)) (repeat (a_of A 0) (Z.to_nat sz)) ;;
    v <- for_up 0 sz (fun i v =>
      '(v, _) <- for_up (i + 1) (i + sz + 1) (fun j '(v, k) =>
        x <- aget m i ;; y <- aget m j ;; d <- cosine A fabs small x y ;;
        e <- aget v k ;; v <- aset v k (a_add A e d) ;; OK (v, k + 1)) (v, 0) ;;
      OK v) v ;;
    max <- for_up 0 sz (fun i max => e <- aget v i ;; OK (if a_lt A max e then e else max)) (a_of A 0) ;;
    if a_lt A (a_of A 0) max then
      for_up 0 sz (fun i v => e <- aget v i ;; aset v i (a_div A e max)) v
    else OK v.
End BS.

Definition BeatSpectrum_process : list (list R) -> res (list R) := beat_spectrum Rarith Rabs small.
