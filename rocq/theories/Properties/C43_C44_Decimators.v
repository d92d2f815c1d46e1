(** C43: DecimatorB (dsp/rateconversion/DecimatorB.cpp).
    C44: stability and DC gain of the anti-alias filters of Decimator and DecimatorB. *)
From Coq Require Import List ZArith QArith Qreals Reals Lia Lra Bool.
From Verif.Base Require Import Imp Sums.
From Verif.Maths Require Import IntModel IntSpec.
From Verif.Rate Require Import Df2tSpec DecimatorModel DecimatorSpec DecimatorBModel DecimatorBSpec
  DecimatorBProofs StableSpec StableProofs StableClass.
Import ListNotations.
Open Scope Z_scope.

(** C43: any arithmetic, either sample type.  [halved k x z]: z results from x by k times
    filtering with the order-6 filter and keeping every second sample. *)
Theorem C43_decimatorB_stream :
  forall (T : Type) (zero : T) add sub mul lit (F : Type) (fz : F) (up : F -> T) (down : T -> F)
         junk n k calls,
    (1 <= k <= 30)%nat -> 0 <= n -> (2 ^ Z.of_nat k | n) -> blocks n (n / 2 ^ Z.of_nat k) calls ->
    exists e outs zs,
      (e0 <- decB_new zero lit junk n (2 ^ Z.of_nat k) ;; decB_run add sub mul up down e0 calls) = OK (e, outs) /\
      halved zero add sub mul (lead lit bw_b) (pairs lit bw_b bw_a) k (map up (fed calls)) zs /\
      got (n / 2 ^ Z.of_nat k) outs = map down zs /\
      beyond_kept (n / 2 ^ Z.of_nat k) calls outs.
Proof. exact @decimatorB_stream. Qed.
Print Assumptions C43_decimatorB_stream.

(** The result is determined by the stream. *)
Theorem C43_halved_unique :
  forall (T : Type) (zero : T) add sub mul (lit : Q -> T) k x z z',
    halved zero add sub mul (lead lit bw_b) (pairs lit bw_b bw_a) k x z ->
    halved zero add sub mul (lead lit bw_b) (pairs lit bw_b bw_a) k x z' -> z = z'.
Proof. exact @halved_unique. Qed.
Print Assumptions C43_halved_unique.

(** Unsupported factors (other than 0) and lengths leave every output buffer as it was. *)
Theorem C43_decimatorB_unsupported :
  forall (T : Type) (zero : T) add sub mul lit (F : Type) (up : F -> T) (down : T -> F) junk n f calls,
    f <> 0 -> f < 2 \/ ~ power_of_two f \/ ~ (f | n) ->
    exists e, (e0 <- decB_new zero lit junk n f ;; decB_run add sub mul up down e0 calls) = OK (e, map snd calls).
Proof. exact @decimatorB_unsupported. Qed.
Print Assumptions C43_decimatorB_unsupported.

(** Factor 0 is an integer division by zero in the constructor, before the check. *)
Theorem C43_decimatorB_zero_refuted :
  exists n f, forall (T : Type) (zero : T) lit junk, decB_new zero lit junk n f = UB.
Proof. exists 8, 0. reflexivity. Qed.
Print Assumptions C43_decimatorB_zero_refuted.

Example C43_case :
  (1 <= 2 <= 30)%nat /\ (2 ^ Z.of_nat 2 | 8) /\
  blocks 8 (8 / 2 ^ Z.of_nat 2) [([1;2;3;4;5;6;7;8], [0;0]); ([8;7;6;5;4;3;2;1], [0;0;9])].
Proof. split; [lia|]. split; [exists 2; reflexivity|]. repeat constructor; cbn; discriminate. Qed.

(** C44: bounded input gives bounded output, for all time. *)
Theorem C44_decimator_bounded :
  forall junk n f calls M, 2 <= f -> 0 <= n -> (f | n) -> blocks n (n / f) calls ->
  (0 <= M)%R -> bounded M (fed calls) ->
  exists d outs,
    (d0 <- decimator_new 0%R Q2R junk n f ;;
     decimator_run Rplus Rminus Rmult (fun v => v) (fun v => v) d0 calls) = OK (d, outs) /\
    bounded (3 * M) (got (n / f) outs).
Proof. exact decimator_bounded. Qed.
Print Assumptions C44_decimator_bounded.

Theorem C44_decimatorB_bounded :
  forall junk n k calls M, (1 <= k <= 30)%nat -> 0 <= n -> (2 ^ Z.of_nat k | n) ->
  blocks n (n / 2 ^ Z.of_nat k) calls -> (0 <= M)%R -> bounded M (fed calls) ->
  exists e outs,
    (e0 <- decB_new 0%R Q2R junk n (2 ^ Z.of_nat k) ;;
     decB_run Rplus Rminus Rmult (fun v => v) (fun v => v) e0 calls) = OK (e, outs) /\
    bounded (2 ^ k * M) (got (n / 2 ^ Z.of_nat k) outs).
Proof. exact decimatorB_bounded. Qed.
Print Assumptions C44_decimatorB_bounded.

(** A constant M comes out, after a settling time common to all signals, as a value within
    1e-6 M of M. *)
Theorem C44_decimator_dc :
  forall f, let '(b, a) := coefficients f in
  forall M eps, (0 < eps)%R ->
  exists t0 v, (Rabs (v - M) <= Rabs M / 1000000)%R /\
    forall x y, iir_response 0%R Rplus Rminus Rmult (lead Q2R b) (pairs Q2R b a) x y -> constant M x ->
    forall t, t0 <= t < zlen y -> (Rabs (zn 0%R y t - v) <= eps)%R.
Proof.
  intros f. pose proof (coefficients_ok f) as OKF. destruct (coefficients f) as [b a].
  destruct OKF as (m & T & N). apply (filter_dc b a m 3 T N). lia.
Qed.
Print Assumptions C44_decimator_dc.

Theorem C44_decimatorB_dc :
  forall M eps, (0 < eps)%R ->
  exists t0 v, (Rabs (v - M) <= Rabs M / 1000000)%R /\
    forall x y, iir_response 0%R Rplus Rminus Rmult (lead Q2R bw_b) (pairs Q2R bw_b bw_a) x y -> constant M x ->
    forall t, t0 <= t < zlen y -> (Rabs (zn 0%R y t - v) <= eps)%R.
Proof. apply (filter_dc bw_b bw_a 20 2 ok_w); [discriminate|lia]. Qed.
Print Assumptions C44_decimatorB_dc.

Example C44_case : bounded 2 [1; -2; 2]%R /\ constant 2 [2; 2]%R.
Proof.
  split; intros t Ht; unfold zlen in Ht; cbn in Ht.
  - assert (t = 0 \/ t = 1 \/ t = 2) as [->|[->| ->]] by lia; unfold zn; simpl; unfold Rabs;
      destruct (Rcase_abs _); lra.
  - assert (t = 0 \/ t = 1) as [->| ->] by lia; reflexivity.
Qed.
