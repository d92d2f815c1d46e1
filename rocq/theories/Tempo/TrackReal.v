(** The older tempo tracker over reals with infinities and NaN: what [TrackModel.env] is filled with. *)
From Coq Require Import List ZArith Reals Lia Lra Bool.
From Verif.Base Require Import Imp RealOps Arith Xreal.
From Verif.Onset Require Import DfxModel.
From Verif.Measures Require Import MeasModel.
From Verif.Tempo Require Import TrackModel.
Import ListNotations.
Open Scope Z_scope.

(** The values of an array all of which are finite. *)
Fixpoint finite_values (l : list xr) : option (list R) :=
  match l with
  | [] => Some []
  | Fin r :: l => match finite_values l with Some rs => Some (r :: rs) | None => None end
  | _ => None
  end.

(** A DFProcess object, and the number of calls made to it (which chooses the contents of the uninitialised
    scratch arrays). *)
Definition smoother : Type := dfx * nat.

(** DFProcess::process (DfxModel), on finite input. *)
Definition smooth (n : Z) (junk : nat -> Z -> R) (s : smoother) (src dst : list xr) : res (smoother * list xr) :=
  match finite_values src with
  | None => UB
  | Some xs => '(o, ys) <- dfx_process (fst s) (ztab n (junk (snd s))) xs dst ;; OK ((o, Datatypes.S (snd s)), ys)
  end.

(** Correlation::doAutoUnBiased (MeasModel), on finite input. *)
Definition correlate (src dst : list xr) (n : Z) : res (list xr) :=
  match finite_values src with
  | None => UB
  | Some xs => if zlen dst <? n then UB else
      ys <- doAutoUnBiased xs (repeat 0%R (Z.to_nat n)) n ;; OK (map Fin ys ++ skipn (Z.to_nat n) dst)
  end.

(** The weights of createCombFilter, TempoTrack.cpp:115-129. *)
Definition rayleigh (i : Z) : R := (IZR (i + 1) / 43 ^ 2 * exp (- (IZR (i + 1)) ^ 2 / (2 * 43 ^ 2)))%R.
Definition gauss (b : R) (i : Z) : R := (exp (- (1 / 2) * ((IZR (i + 1) - b) / (b / 4)) ^ 2) / (sqrt (2 * PI) * (b / 4)))%R.
(** createPhaseExtractor, TempoTrack.cpp:526. *)
Definition phase_gauss (p i : Z) : R :=
  (exp (- (1 / 2) * (IZR (i - p) / (IZR p / 8)) ^ 2) / (sqrt (2 * PI) * (IZR p / 8)))%R.
(** abs(1.0-abs(log(i/j)/log(2.0))), with fabs. *)
Definition octave_fabs (i j : Z) : R := Rabs (1 - Rabs (ln (IZR i / IZR j) / ln 2)).

(** [octave]: whether abs is fabs depends on the headers; any function will do. *)
Definition real_env (win lag : Z) (octave : Z -> Z -> R) (junk1 junk2 : nat -> Z -> R) : env xr smoother :=
  mkEnv xr smoother Xarith (fun x => match x with Fin r => negb (Reqb r 0) | _ => true end)
    (fun i => Fin (rayleigh i)) (fun b i => Fin (gauss b i)) (fun p i => Fin (phase_gauss p i))
    (fun i j => Fin (octave i j)) (Fin (1 / 100)) (smooth win junk1) (smooth lag junk2) correlate.

(** TempoTrack::TempoTrack (TTParams), TempoTrack.cpp:35-98.  [a], [b]: the LPOrd + 1 coefficients each.
    DFProcConfig::delta is not set by the constructor's caller; its default is 0 (DFProcess.h:34). *)
Definition real_tracker (win lag : Z) (a b : list R) (pre post alpha : Z) (junk : Z -> R) : res (tracker xr smoother) :=
  o1 <- dfx_new win a b pre post alpha true 0 junk ;;
  o2 <- dfx_new lag a b pre post alpha true 0 junk ;;
  tracker_new win lag (o1, 0%nat) (o2, 0%nat) (fun i => Fin (junk i)).
