(** C09, C10: Decimator (dsp/rateconversion/Decimator.cpp). *)
From Coq Require Import List ZArith QArith Lia Bool Ring.
From Verif.Base Require Import Imp Sums.
From Verif.Rate Require Import Df2tSpec Df2tProofs DecimatorModel DecimatorSpec DecimatorProofs.
Import ListNotations.
Open Scope Z_scope.

(** C09: for any arithmetic (so bit for bit in IEEE doubles), either sample type, and any block
    length that is a multiple of the factor, the outputs of successive process() calls are
    every f-th sample of the response of the order-7 filter to the whole input stream; nothing
    else in the output buffers changes. *)
Theorem C09_decimator_stream :
  forall (T : Type) (zero : T) add sub mul lit (F : Type) (fz : F) (up : F -> T) (down : T -> F)
         junk n f calls,
    2 <= f -> 0 <= n -> (f | n) -> blocks n (n / f) calls ->
    exists d outs ys zs,
      (d0 <- decimator_new zero lit junk n f ;; decimator_run add sub mul up down d0 calls) = OK (d, outs) /\
      (let '(b, a) := coefficients f in
       iir_response zero add sub mul (lead lit b) (pairs lit b a) (map up (fed calls)) ys) /\
      every zero f ys zs /\ got (n / f) outs = map down zs /\ beyond_kept (n / f) calls outs.
Proof. exact @decimator_stream. Qed.
Print Assumptions C09_decimator_stream.

(** The response is determined by the stream, and over a ring it is the solution of the
    difference equation y[t] = sum b_k x[t-k] - sum a_k y[t-k]. *)
Theorem C09_response_unique :
  forall (T : Type) (zero : T) add sub mul b0 cs x y y',
    iir_response zero add sub mul b0 cs x y -> iir_response zero add sub mul b0 cs x y' -> y = y'.
Proof. exact @response_unique. Qed.
Print Assumptions C09_response_unique.

Theorem C09_response_difference :
  forall (T : Type) (zero one : T) add sub mul opp,
    ring_theory zero one add mul sub opp (@eq T) ->
  forall b0 cs x y, iir_response zero add sub mul b0 cs x y ->
    forall t, 0 <= t < zlen x ->
      zn zero y t =
      sub (add (mul b0 (zn zero x t))
               (fsum zero add (zlen cs) (fun i => mul (fst (zn (zero, zero) cs i)) (zn zero x (t - 1 - i)))))
          (fsum zero add (zlen cs) (fun i => mul (snd (zn (zero, zero) cs i)) (zn zero y (t - 1 - i)))).
Proof. exact @response_difference. Qed.
Print Assumptions C09_response_difference.

(** Hence the result does not depend on the block length. *)
Theorem C09_decimator_block_independent :
  forall (T : Type) (zero : T) add sub mul lit (F : Type) (fz : F) (up : F -> T) (down : T -> F)
         junk junk' n n' f calls calls',
    2 <= f -> 0 <= n -> (f | n) -> 0 <= n' -> (f | n') ->
    blocks n (n / f) calls -> blocks n' (n' / f) calls' -> fed calls = fed calls' ->
    exists d outs d' outs',
      (d0 <- decimator_new zero lit junk n f ;; decimator_run add sub mul up down d0 calls) = OK (d, outs) /\
      (d0 <- decimator_new zero lit junk' n' f ;; decimator_run add sub mul up down d0 calls') = OK (d', outs') /\
      got (n / f) outs = got (n' / f) outs'.
Proof.
  intros T zero add sub mul lit F fz up down junk junk' n n' f calls calls' Hf Hn Hd Hn' Hd' HB HB' HF.
  destruct (decimator_stream zero add sub mul lit fz up down junk n f calls Hf Hn Hd HB)
    as (d & outs & ys & zs & E & R & V & G & _).
  destruct (decimator_stream zero add sub mul lit fz up down junk' n' f calls' Hf Hn' Hd' HB')
    as (d' & outs' & ys' & zs' & E' & R' & V' & G' & _).
  exists d, outs, d', outs'. splits; auto. rewrite G, G'. f_equal. rewrite HF in R.
  destruct (coefficients f) as [b a]. pose proof (response_unique _ _ _ _ _ _ _ _ _ R R') as ->.
  destruct V as [L V], V' as [L' V']. apply (zn_ext zero); [lia|]. intros i Hi.
  rewrite V, V' by lia. reflexivity.
Qed.
Print Assumptions C09_decimator_block_independent.

(** resetFilter makes it as new. *)
Theorem C09_decimator_reset_fresh :
  forall (T : Type) (zero : T) add sub mul lit (F : Type) (fz : F) (up : F -> T) (down : T -> F) junk n f calls0 calls,
    2 <= f -> 0 <= n -> blocks n (n / f) calls0 -> blocks n (n / f) calls ->
    exists d1 outs0 d' d'' outs,
      (d0 <- decimator_new zero lit junk n f ;; decimator_run add sub mul up down d0 calls0) = OK (d1, outs0) /\
      decimator_run add sub mul up down (decimator_reset zero d1) calls = OK (d', outs) /\
      (d0 <- decimator_new zero lit junk n f ;; decimator_run add sub mul up down d0 calls) = OK (d'', outs).
Proof. exact @decimator_reset_fresh. Qed.
Print Assumptions C09_decimator_reset_fresh.

(** A concrete case: factor 2, two blocks of four, coefficients rounded to integers by [lit]
    (here twice the literal, truncated). *)
Definition lit2 (q : Q) : Z := Z.quot (2 * Qnum q) (Z.pos (Qden q)).
Example C09_case :
  (d0 <- decimator_new 0 lit2 77 4 2 ;;
   '(_, outs) <- decimator_run Z.add Z.sub Z.mul (fun x => x) (fun x => x) d0
     [([1; 0; 0; 0], [9; 9; 9]); ([5; 0; 1; 0], [8; 8])] ;; OK outs)
  = OK [[0; 1; 9]; [-1; 6]].
Proof. vm_compute. reflexivity. Qed.

(** C10 is false for factor 1, which copies forwards without the promised intermediate buffer:
    with dst = src + 1 the first sample is smeared over the output. *)
Theorem C10_decimator_in_place_refuted :
  exists (mem : list Z) src dst n d d' mem',
    decimator_new 0 lit2 77 n 1 = OK d /\ inside mem src n /\ inside mem dst n /\
    decimator_process Z.add Z.sub Z.mul (fun x => x) (fun x => x) d mem src dst = OK (d', mem') /\
    ~ stored 0 mem dst (slice mem src n) mem'.
Proof.
  exists [1; 2; 3; 4], 0, 1, 3. do 3 eexists. split; [vm_compute; reflexivity|].
  split; [unfold inside; cbn; lia|]. split; [unfold inside; cbn; lia|].
  split; [vm_compute; reflexivity|]. intros [_ H]. specialize (H 2 ltac:(cbn; lia)).
  vm_compute in H. discriminate.
Qed.
Print Assumptions C10_decimator_in_place_refuted.

(** For every factor >= 2 the promise holds, after any history and for every overlap: the stored
    values are those of a call with separate buffers, and nothing else changes. *)
Theorem C10_decimator_in_place_partial :
  forall (T : Type) (zero : T) add sub mul lit (F : Type) (fz : F) (up : F -> T) (down : T -> F)
         junk n f calls0 mem src dst,
    2 <= f -> 0 <= n -> blocks n (n / f) calls0 -> inside mem src n -> inside mem dst (n / f) ->
    exists d1 outs0 d2 mem2 d3 vs,
      (d0 <- decimator_new zero lit junk n f ;; decimator_run add sub mul up down d0 calls0) = OK (d1, outs0) /\
      decimator_process add sub mul up down d1 mem src dst = OK (d2, mem2) /\
      decimator_block add sub mul up down d1 (slice mem src n) (repeat fz (Z.to_nat (n / f))) = OK (d3, vs) /\
      zlen vs = n / f /\ stored fz mem dst vs mem2.
Proof. exact @decimator_in_place. Qed.
Print Assumptions C10_decimator_in_place_partial.

(** For factor 1 it holds when dst is at or before src, or beyond its end. *)
Theorem C10_decimator_factor1_partial :
  forall (T : Type) (zero : T) add sub mul lit (F : Type) (fz : F) (up : F -> T) (down : T -> F) junk n mem src dst,
    0 <= n -> inside mem src n -> inside mem dst n -> dst <= src \/ src + n <= dst ->
    exists d mem', decimator_new zero lit junk n 1 = OK d /\
      decimator_process add sub mul up down d mem src dst = OK (d, mem') /\
      stored fz mem dst (slice mem src n) mem'.
Proof.
  intros. destruct (new_ok zero lit junk n 1) as (d & E & HD); [lia|lia|].
  destruct (factor1_spec add sub mul lit fz up down d n _ mem src dst HD) as (mem' & E' & S); auto.
  exists d, mem'. auto.
Qed.
Print Assumptions C10_decimator_factor1_partial.

Example C10_case :
  (d0 <- decimator_new 0 lit2 77 4 2 ;;
   '(_, m) <- decimator_process Z.add Z.sub Z.mul (fun x => x) (fun x => x) d0 [1; 0; 0; 7; 5] 0 1 ;; OK m)
  = OK [1; 0; 1; 7; 5].
Proof. vm_compute. reflexivity. Qed.
