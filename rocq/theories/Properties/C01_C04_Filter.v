(** C01-C04: Filter and FiltFilt. *)
From Coq Require Import List ZArith Lia.
From Verif.Base Require Import Imp.
From Verif.Signal Require Import FilterModel FilterSpec FilterProofs
  FiltFiltModel FiltFiltSpec FiltFiltProofs.
Import ListNotations.
Open Scope Z_scope.

(** C01. For any arithmetic, accepted coefficients (FIR or order >= 1) and any sequence of
    process calls: no undefined behaviour, the produced samples satisfy the difference
    equation over the whole stream, and the rest of each output buffer is untouched. *)
Theorem C01_filter_stream :
  forall (T : Type) (zero : T) (add sub mul : T -> T -> T) (a b : list T)
         (calls : list (list T * list T)),
    accepted a b -> fir_or_order1 a b -> room calls ->
    exists f f' outs,
      filter_new zero a b = OK f /\ filter_run zero add sub mul f calls = OK (f', outs) /\
      Forall2 rest_untouched calls outs /\
      is_response zero add sub mul a b (concat (map fst calls)) (produced calls outs).
Proof. exact @filter_stream. Qed.
Print Assumptions C01_filter_stream.

(** The difference equation determines the output, ... *)
Theorem C01_response_unique :
  forall (T : Type) (zero : T) (add sub mul : T -> T -> T) (a b x y y' : list T),
    is_response zero add sub mul a b x y -> is_response zero add sub mul a b x y' -> y = y'.
Proof. exact @response_unique. Qed.
Print Assumptions C01_response_unique.

(** ... so two ways of cutting one stream into calls give the same samples. *)
Theorem C01_filter_cut_independent :
  forall (T : Type) (zero : T) (add sub mul : T -> T -> T) (a b : list T)
         (calls1 calls2 : list (list T * list T)) (f1 : filter T) outs1 (f2 : filter T) outs2 f,
    accepted a b -> fir_or_order1 a b -> room calls1 -> room calls2 ->
    concat (map fst calls1) = concat (map fst calls2) ->
    filter_new zero a b = OK f ->
    filter_run zero add sub mul f calls1 = OK (f1, outs1) ->
    filter_run zero add sub mul f calls2 = OK (f2, outs2) ->
    produced calls1 outs1 = produced calls2 outs2.
Proof. exact @filter_cut_independent. Qed.
Print Assumptions C01_filter_cut_independent.

(** Coefficients outside [accepted] make the constructor throw. *)
Theorem C01_filter_rejects :
  forall (T : Type) (zero : T) (a b : list T), ~ accepted a b -> filter_new zero a b = Throw.
Proof. exact @filter_new_throw. Qed.
Print Assumptions C01_filter_rejects.

(** A concrete case: order 2 over Z, 3 calls (one empty), wrap-around of the 21-slot buffer. *)
Example C01_case :
  let a := [1; -1; 2] in let b := [3; 0; 1] in
  let calls := [(seq 1 10, repeat 0%nat 12); ([], [0%nat]); (seq 11 15, repeat 0%nat 15)] in
  let callsZ := map (fun c => (map Z.of_nat (fst c), map Z.of_nat (snd c))) calls in
  accepted a b /\ fir_or_order1 a b /\ room callsZ /\
  exists f f' outs, filter_new 0 a b = OK f /\
    filter_run 0 Z.add Z.sub Z.mul f callsZ = OK (f', outs) /\
    f_offb f' = 16 /\ nth 0 outs [] = [3; 9; 13; 9; 1; 5; 29; 49; 25; -35; 0; 0].
Proof.
  cbv zeta. splits.
  - right; split; [congruence|reflexivity].
  - right; vm_compute; congruence.
  - intros i o [H|[H|[H|[]]]]; injection H as <- <-; vm_compute; congruence.
  - eexists _, _, _. split; [reflexivity|]. split; [vm_compute; reflexivity|].
    split; reflexivity.
Qed.

(** C02. reset() after any history = a new filter. *)
Theorem C02_filter_reset_fresh :
  forall (T : Type) (zero : T) (add sub mul : T -> T -> T) (a b : list T)
         (history : list (fop (T:=T))) (calls : list (list T * list T)) f f1 outs1,
    accepted a b -> fir_or_order1 a b -> ops_room history -> room calls ->
    filter_new zero a b = OK f ->
    filter_ops zero add sub mul f history = OK (f1, outs1) ->
    exists f2 f3 outs,
      filter_run zero add sub mul (filter_reset zero f1) calls = OK (f2, outs) /\
      filter_run zero add sub mul f calls = OK (f3, outs).
Proof. exact @filter_reset_fresh. Qed.
Print Assumptions C02_filter_reset_fresh.

Example C02_case :
  let h := [FProcess [5; 6; 7] [0; 0; 0]; FReset; FProcess [8] [0]] in
  accepted [1; 1] [2; 3] /\ fir_or_order1 [1; 1] [2; 3] /\ ops_room h /\
  exists f f1 outs, filter_new 0 [1; 1] [2; 3] = OK f /\
    filter_ops 0 Z.add Z.sub Z.mul f h = OK (f1, outs) /\ outs = [[10; 17; 15]; [16]] /\
    f_bufb f1 <> f_bufb f.
Proof.
  cbv zeta. splits.
  - right; split; [congruence|reflexivity].
  - right; vm_compute; congruence.
  - intros i o [H|[H|[H|[]]]]; inversion H; subst; vm_compute; congruence.
  - eexists _, _, _. split; [reflexivity|]. split; [vm_compute; reflexivity|].
    split; [reflexivity|]. vm_compute. congruence.
Qed.

(** C03. Full statement: for all accepted coefficients no history is undefined.  It is FALSE:
    the constructor accepts order-0 IIR filters and these write one past their buffer. *)
Theorem C03_filter_memory_safe_refuted :
  exists (a b : list Z) (inp out : list Z),
    accepted a b /\ zlen inp <= zlen out /\
    exists f, filter_new 0 a b = OK f /\
      filter_ops 0 Z.add Z.sub Z.mul f [FProcess inp out] = UB.
Proof.
  exists [1], [1], (repeat 1 21), (repeat 0 21).
  split; [right; split; [congruence|reflexivity]|].
  split; [vm_compute; congruence|].
  eexists; split; [reflexivity|]. vm_compute. reflexivity.
Qed.
Print Assumptions C03_filter_memory_safe_refuted.

(** It fails for every order-0 IIR filter and every input of at least 21 samples. *)
Theorem C03_filter_order0_always_UB :
  forall (T : Type) (zero : T) (add sub mul : T -> T -> T) (a0 b0 : T) (inp out : list T),
    21 <= zlen inp -> zlen inp <= zlen out ->
    exists f, filter_new zero [a0] [b0] = OK f /\
      filter_process zero add sub mul f inp out (zlen inp) = UB.
Proof. exact @filter_order0_UB. Qed.
Print Assumptions C03_filter_order0_always_UB.

(** What holds: FIR filters and IIR filters of order >= 1 are safe for every history.
    Missing from the full statement: exactly the order-0 IIR case refuted above. *)
Theorem C03_filter_memory_safe_partial :
  forall (T : Type) (zero : T) (add sub mul : T -> T -> T) (a b : list T) (ops : list (fop (T:=T))),
    accepted a b -> fir_or_order1 a b -> ops_room ops ->
    exists f f' outs, filter_new zero a b = OK f /\
      filter_ops zero add sub mul f ops = OK (f', outs).
Proof. exact @filter_safe. Qed.
Print Assumptions C03_filter_memory_safe_partial.

(** C04. Full statement: every call is zero-phase filtering of its own input.  FALSE for the
    second call on one object: the forward pass starts from the state the previous
    backward pass left. *)
Theorem C04_filtfilt_pure_refuted :
  exists (a b src : list Z) (r1 r2 : list Z) ff,
    accepted a b /\ fir_or_order1 a b /\ filtfilt_new 0 a b = OK ff /\
    filtfilt_run 0 2 Z.add Z.sub Z.mul ff [(src, repeat 0 (length src)); (src, repeat 0 (length src))]
      = OK [r1; r2] /\ r1 <> r2.
Proof.
  exists [1; -1], [1; 1], [1; 2; 4; 8]. eexists _, _, _.
  split; [right; split; [congruence|reflexivity]|].
  split; [right; vm_compute; congruence|].
  split; [reflexivity|].
  split; [vm_compute; reflexivity|]. congruence.
Qed.
Print Assumptions C04_filtfilt_pure_refuted.

(** What holds (1): the first call on an object is exactly zero-phase filtering. *)
Theorem C04_filtfilt_first_call_partial :
  forall (T : Type) (zero two : T) (add sub mul : T -> T -> T) (a b src dst : list T),
    accepted a b -> fir_or_order1 a b -> 0 < zlen src <= zlen dst ->
    exists ff ff' r, filtfilt_new zero a b = OK ff /\
      filtfilt_process zero two add sub mul ff src dst (zlen src)
        = OK (ff', r ++ skipn (length src) dst) /\
      zlen r = zlen src /\ zero_phase zero two add sub mul a b src r.
Proof. exact @filtfilt_first_call. Qed.
Print Assumptions C04_filtfilt_first_call_partial.

(** What holds (2): the exact meaning of every later call, for any sequence of calls. *)
Theorem C04_filtfilt_every_call_partial :
  forall (T : Type) (zero two : T) (add sub mul : T -> T -> T) (a b : list T)
         (calls : list (list T * list T)),
    accepted a b -> fir_or_order1 a b ->
    (forall src dst, In (src, dst) calls -> 0 < zlen src <= zlen dst) ->
    exists ff rs, filtfilt_new zero a b = OK ff /\
      filtfilt_run zero two add sub mul ff calls
        = OK (map (fun p => snd p ++ skipn (length (snd p)) (snd (fst p))) (combine calls rs)) /\
      chained zero two add sub mul a b [] [] (map fst calls) rs.
Proof. exact @filtfilt_every_call. Qed.
Print Assumptions C04_filtfilt_every_call_partial.

Example C04_case :
  accepted [1; -1] [1; 1] /\ fir_or_order1 [1; -1] [1; 1] /\ 0 < zlen [1; 2; 4; 8] <= zlen [0; 0; 0; 0; 9] /\
  exists ff ff', filtfilt_new 0 [1; -1] [1; 1] = OK ff /\
  filtfilt_process 0 2 Z.add Z.sub Z.mul ff [1; 2; 4; 8] [0; 0; 0; 0; 9] 4 = OK (ff', [279; 306; 324; 324; 9]).
Proof.
  splits; try (vm_compute; congruence).
  - right; split; [congruence|reflexivity].
  - right; vm_compute; congruence.
  - eexists _, _. split; [reflexivity|]. vm_compute. reflexivity.
Qed.
