(** Model of the phase unwrapping of dsp/phasevocoder/PhaseVocoder.cpp in IEEE doubles.  The
    measured phases (results of atan2) are inputs. *)
From Coq Require Import ZArith List.
From Verif.Base Require Import Imp Double.
From Verif.Maths Require Import DoubleModel.
Import ListNotations.
Open Scope Z_scope.

(** The expression for omega in lines 101 and 125: (2 * M_PI * m_hop * i) / m_n. *)
Definition dpv_omega (n hop i : Z) : double :=
  ddiv (dmul (dmul (dmul (dint 2) dpi) (dint hop)) (dint i)) (dint n).
Definition dneg (x : double) : double := BinarySingleNaN.Bopp x.

(** PhaseVocoder::reset, PhaseVocoder.cpp:94-105. *)
Definition dpv_reset (n hop : Z) (ph un : list double) : res (list double * list double) :=
  for_up 0 (n / 2 + 1) (fun i '(ph, un) =>
    let omega := dpv_omega n hop i in
    ph <- aset ph i (dneg omega) ;; un <- aset un i (dneg omega) ;; OK (ph, un)) (ph, un).

(** unwrapPhases, PhaseVocoder.cpp:121-134: returns m_phase, m_unwrapped and the output array. *)
Definition dpv_unwrap (n hop : Z) (theta ph un out : list double) : res (list double * list double * list double) :=
  for_up 0 (n / 2 + 1) (fun i '(ph, un, out) =>
    let omega := dpv_omega n hop i in
    p <- aget ph i ;;
    let expected := dadd p omega in
    t <- aget theta i ;;
    let error := dprincarg (dsub t expected) in
    u <- aget un i ;;
    out <- aset out i (dadd (dadd u omega) error) ;;
    ph <- aset ph i t ;;
    v <- aget out i ;;
    un <- aset un i v ;;
    OK (ph, un, out)) (ph, un, out).

(** Frame after frame: each has its measured phases and an output array. *)
Fixpoint dpv_frames (n hop : Z) (ph un : list double) (frames : list (list double * list double)) : res (list (list double)) :=
  match frames with
  | [] => OK []
  | (theta, out) :: rest =>
      '(ph, un, o) <- dpv_unwrap n hop theta ph un out ;;
      os <- dpv_frames n hop ph un rest ;; OK (o :: os)
  end.
(** A new vocoder (vectors of zeros, then reset) and its frames. *)
Definition dpv_run (n hop : Z) (frames : list (list double * list double)) : res (list (list double)) :=
  let z := repeat d0 (Z.to_nat (n / 2 + 1)) in
  '(ph, un) <- dpv_reset n hop z z ;;
  dpv_frames n hop ph un frames.
