(** C21, C51: musical key estimation (dsp/keydetection/GetKeyMode.cpp). *)
From Coq Require Import List ZArith Reals Lia Bool.
From Verif.Base Require Import Imp Arith RealOps.
From Verif.Key Require Import KeyModel KeySpec KeyProofs KeyReal.
Import ListNotations.
Open Scope Z_scope.

(** Whatever the arithmetic does (rounding, NaN), every call returns a key between 1 and 24. *)
Theorem C21_key_range :
  forall (T : Type) (A : arith T) (csize msize : Z) (frames : list (list T)),
    1 <= csize -> 1 <= msize -> Forall (fun f => zlen f = 36) frames ->
    exists keys s, run A csize msize (key_new A csize msize) frames = OK (keys, s) /\
      zlen keys = zlen frames /\ forall i, 0 <= i < zlen frames -> 1 <= zn 0 keys i <= 24.
Proof. exact key_range. Qed.
Print Assumptions C21_key_range.

(** In exact arithmetic: the key returned is the lower median of the last [msize] best keys,
    each being the best match of the mean of the last [csize] frames. *)
Theorem C21_key_meaning :
  forall csize msize frames,
    1 <= csize -> 1 <= msize -> Forall (fun f => zlen f = 36) frames ->
    exists keys s raws, run Rarith csize msize (key_new Rarith csize msize) frames = OK (keys, s) /\
      zlen keys = zlen frames /\ zlen raws = zlen frames /\
      forall i, 0 <= i < zlen frames ->
        best_key (mean_frame (last_n csize (firstn (Z.to_nat (i + 1)) frames))) (zn 0 raws i) /\
        lower_median (last_n msize (firstn (Z.to_nat (i + 1)) raws)) (zn 0 keys i).
Proof. exact key_process. Qed.
Print Assumptions C21_key_meaning.

(** A zero-length smoothing or median window (hpcpAverage or medianAverage = 0) makes the
    first call access an empty array. *)
Theorem C21_zero_window_refuted :
  exists csize msize (frame : list R), zlen frame = 36 /\
    process Rarith csize msize (key_new Rarith csize msize) frame = UB.
Proof. exact zero_window. Qed.
Print Assumptions C21_zero_window_refuted.

Theorem C21_zero_window_any :
  forall (T : Type) (A : arith T) csize msize frame,
    zlen frame = 36 -> csize = 0 \/ (1 <= csize /\ msize = 0) ->
    process A csize msize (key_new A csize msize) frame = UB.
Proof. exact @no_buffer. Qed.
Print Assumptions C21_zero_window_any.

Theorem C51_key_strengths :
  forall csize msize frames keys s,
    1 <= csize -> 1 <= msize -> frames <> [] -> Forall (fun f => zlen f = 36) frames ->
    run Rarith csize msize (key_new Rarith csize msize) frames = OK (keys, s) ->
    exists ks, getKeyStrengths Rarith s = OK ks /\ zlen ks = 24 /\
      forall k, 1 <= k <= 24 ->
        zn 0%R ks (k - 1) = key_strength (mean_frame (last_n csize frames)) k /\
        (-1 <= zn 0%R ks (k - 1) <= 1)%R.
Proof. exact strengths_spec. Qed.
Print Assumptions C51_key_strengths.

(** The key of the last frame is the strongest one. *)
Theorem C51_best_key_strongest :
  forall chroma k, best_key chroma k ->
    1 <= k <= 24 /\ forall j, 1 <= j <= 24 -> (key_strength chroma j <= key_strength chroma k)%R.
Proof. exact best_is_strongest. Qed.
Print Assumptions C51_best_key_strongest.

Theorem C51_before_process_refuted :
  exists csize msize, getKeyStrengths Rarith (key_new Rarith csize msize) = UB.
Proof. exact (ex_intro _ 1 (ex_intro _ 1 (strengths_before_process Rarith 1 1))). Qed.
Print Assumptions C51_before_process_refuted.

(** Cases, in an arithmetic of six decimal places: frames shaped like C major, C major, A minor. *)
Definition fixed6 : arith Z :=
  mkArith Z (fun n => n * 1000000) Z.add Z.sub (fun x y => x * y / 1000000)
    (fun x y => if y =? 0 then 0 else x * 1000000 / y) (fun x => Z.sqrt (x * 1000000)) Z.ltb.
Definition shaped (p : list Z) (b : Z) : list Z := ztab 36 (fun i => zn 0 p ((i + 2 - b) mod 36) * 1000).
Example C21_case_c_major :
  option_map fst (match run fixed6 1 3 (key_new fixed6 1 3)
    [shaped MajProfile 1; shaped MajProfile 1; shaped MinProfile 28; shaped MinProfile 28] with OK r => Some r | _ => None end)
  = Some [1; 1; 1; 22].
Proof. vm_compute. reflexivity. Qed.
Example C21_case_smoothing :
  option_map fst (match run fixed6 2 1 (key_new fixed6 2 1)
    [map (Z.mul 3) (shaped MajProfile 1); shaped MajProfile 22; shaped MajProfile 22] with OK r => Some r | _ => None end)
  = Some [1; 1; 8].
Proof. vm_compute. reflexivity. Qed.
Example C21_hypotheses : Forall (fun f : list R => zlen f = 36) [repeat 1%R 36; repeat 0%R 36].
Proof. repeat constructor. Qed.
