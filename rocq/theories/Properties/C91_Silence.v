(** C91: smoothing and peak picking after a detection function that is zero throughout. *)
From Coq Require Import List ZArith Reals Lia Lra Bool.
From Verif.Base Require Import Imp RealOps Xreal.
From Verif.Signal Require Import FiltFiltSpec.
From Verif.Onset Require Import PeakSpec DfResults DfxModel DfxProofs DfxResults.
Import ListNotations.
Open Scope Z_scope.

(** DFProcess: normal results up to the first silent call, blank ones (zeros, or NaN) from then on. *)
Theorem C91_smoothing_after_silence_refuted :
  forall n pre post alpha positive delta a b, zlen a = zlen b -> 2 <= zlen b -> 0 <= pre -> 0 <= post -> pre + post < n -> 1 <= alpha ->
  forall junk calls1 calls2, (forall c, In c (calls1 ++ calls2) -> sized n c) ->
  (forall c, In c calls1 -> ~ quiet n c) -> match calls2 with [] => True | c :: _ => quiet n c end ->
  exists x outs ds rs, dfx_new n a b pre post alpha positive delta junk = OK x /\ length outs = length calls1 /\
    smoothings n pre post alpha positive delta (map (real_call n) calls1) ds rs outs /\ chained 0%R 2%R Rplus Rminus Rmult a b [] [] ds rs /\
    dfx_calls x (calls1 ++ calls2) =
      OK (map (fun q => filled n (fst q) (map Fin (snd q))) (combine calls1 outs) ++
          map (fun c => filled n c (repeat (if positive then Fin 0 else NaN) (Z.to_nat n))) calls2).
Proof. exact dfx_history. Qed.
Print Assumptions C91_smoothing_after_silence_refuted.

(** PeakPicking: no onset is ever reported again, and the detection function is overwritten with NaN. *)
Theorem C91_onsets_after_silence_refuted :
  forall n pre post alpha delta qa qc a b, zlen a = zlen b -> 2 <= zlen b -> 0 <= pre -> 0 <= post -> pre + post < n -> 1 <= alpha ->
  forall q o scratch src len onsets, px_run n pre post alpha delta qa qc a b q o -> q = true \/ silent n src ->
  zlen scratch = n -> n <= zlen src -> 4 <= len <= n ->
  exists o', ppx_process o scratch src len onsets = OK (o', repeat NaN (Z.to_nat len) ++ skipn (Z.to_nat len) (map Fin src), onsets) /\
    px_run n pre post alpha delta qa qc a b true o'.
Proof. exact px_deaf. Qed.
Print Assumptions C91_onsets_after_silence_refuted.

Theorem C91_defined :
  forall n pre post alpha delta qa qc a b, zlen a = zlen b -> 2 <= zlen b -> 0 <= pre -> 0 <= post -> pre + post < n -> 1 <= alpha ->
  forall q o scratch src len onsets, px_run n pre post alpha delta qa qc a b q o -> zlen scratch = n -> n <= zlen src -> 4 <= len <= n ->
  exists o' src' found, ppx_process o scratch src len onsets = OK (o', src', onsets ++ found).
Proof. exact px_defined. Qed.
Print Assumptions C91_defined.

(** One silent call, then one with a peak. *)
Example C91_case :
  let calls := [(repeat 0%R 6, repeat 0%R 6, repeat (Fin 0) 6); (repeat 0%R 6, [0; 0; 5; 0; 0; 0]%R, repeat (Fin 0) 6)] in
  exists x, dfx_new 6 [1; -1/2]%R [1/2; 0]%R 1 1 2 true 0 (fun _ => 0%R) = OK x /\
    dfx_calls x calls = OK [repeat (Fin 0) 6; repeat (Fin 0) 6] /\ ~ quiet 6 (zn (repeat 0%R 6, repeat 0%R 6, repeat (Fin 0) 6) calls 1).
Proof.
  cbv zeta. match goal with |- context [dfx_calls _ ?l] => set (calls := l : list call) end.
  destruct (C91_smoothing_after_silence_refuted 6 1 1 2 true 0%R [1; -1/2]%R [1/2; 0]%R) with (junk := fun _ : Z => 0%R) (calls1 := @nil call) (calls2 := calls)
    as (x & outs & ds & rs & E & L & _ & _ & Ex); try lia; try reflexivity; try (change (zlen [1/2; 0]%R) with 2; lia).
  - intros c [<-|[<-|[]]]; unfold sized; cbn; lia.
  - intros c [].
  - intros i Hi. apply zn_repeat.
  - exists x. split; [exact E|]. split; [exact Ex|]. intros Q. specialize (Q 2 ltac:(lia)). change (5%R = 0%R) in Q. lra.
Qed.
(** A picker that is made, then given silence. *)
Example C91_picker_case : exists o, px_run 6 1 1 2 0 1 1 [1; -1/2]%R [1/2; 0]%R true o.
Proof.
  destruct (ppx_new 6 [1; -1/2]%R [1/2; 0]%R 1 1 2 0 1 1 (fun _ => 0%R)) as [o| | |] eqn:E; [|discriminate..].
  pose proof (px_made 6 1 1 2 0%R 1%R 1%R [1; -1/2]%R [1/2; 0]%R (fun _ => 0%R) o E) as M.
  destruct (C91_onsets_after_silence_refuted 6 1 1 2 0%R 1%R 1%R [1; -1/2]%R [1/2; 0]%R) with (q := false) (o := o) (scratch := repeat 0%R 6) (src := repeat 0%R 6) (len := 6) (onsets := @nil Z)
    as (o' & _ & H); auto; try lia; try reflexivity; try (cbn; lia).
  - right. intros i Hi. apply zn_repeat.
  - exists o'. exact H.
Qed.
