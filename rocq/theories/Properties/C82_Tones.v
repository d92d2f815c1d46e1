From Coq Require Import List ZArith QArith Qreals Reals Lia Lra.
From Verif.Base Require Import Imp.
From Verif.Rate Require Import Df2tSpec DecimatorModel DecimatorSpec DecimatorBModel StableSpec ToneSpec ToneClass.
Import ListNotations.
Open Scope R_scope.

(** C82: frequency response of Decimator.  [chord l] is the sum of the tones in l,
    [through f g s l] the components with gain g, phase shift s and frequencies times f;
    [supported f] is f = 2, 4 or 8.  The settling time t0 is common to all signals. *)
Theorem C82_decimator_response :
  forall f, supported f ->
  exists g s : R -> R,
    (forall w, 0 <= g w <= 1.00001) /\
    (forall w, 0 <= w <= 0.8 * (PI / IZR f) -> 0.9998 <= g w) /\
    (forall w, PI / IZR f <= w <= PI -> g w <= 0.10005) /\
    forall Am eps, 0 <= Am -> 0 < eps -> exists t0,
    forall junk n calls l, (0 <= n)%Z -> (f | n)%Z -> blocks n (n / f) calls ->
      total l <= Am -> sampled (chord l) (fed calls) ->
      exists d outs,
        bind (decimator_new 0 Q2R junk n f) (fun d0 =>
          decimator_run Rplus Rminus Rmult (fun v => v) (fun v => v) d0 calls) = OK (d, outs) /\
        near t0 eps (chord (through (IZR f) g s l)) (got (n / f) outs).
Proof. exact decimator_response. Qed.
Print Assumptions C82_decimator_response.

Theorem C82_decimator_alias :
  forall f Am eps, supported f -> 0 <= Am -> 0 < eps -> exists t0,
  forall junk n calls l, (0 <= n)%Z -> (f | n)%Z -> blocks n (n / f) calls ->
    total l <= Am -> Forall (fun '(_, w, _) => PI / IZR f <= w <= PI) l -> sampled (chord l) (fed calls) ->
    exists d outs,
      bind (decimator_new 0 Q2R junk n f) (fun d0 =>
        decimator_run Rplus Rminus Rmult (fun v => v) (fun v => v) d0 calls) = OK (d, outs) /\
      near t0 (0.10005 * Am + eps) (fun _ => 0) (got (n / f) outs).
Proof. exact decimator_alias. Qed.
Print Assumptions C82_decimator_alias.

(** The other factors it accepts are not filtered: the alias of a tone at the output rate
    has full strength. *)
Theorem C82_other_factor_unfiltered :
  forall junk n f calls, (2 <= f)%Z -> ~ supported f -> (0 <= n)%Z -> (f | n)%Z -> blocks n (n / f) calls ->
  exists d outs,
    bind (decimator_new 0 Q2R junk n f) (fun d0 =>
      decimator_run Rplus Rminus Rmult (fun v => v) (fun v => v) d0 calls) = OK (d, outs) /\
    every 0 f (fed calls) (got (n / f) outs).
Proof. exact decimator_other. Qed.
Print Assumptions C82_other_factor_unfiltered.

Theorem C82_other_factor_alias :
  forall junk n f calls A p, (2 <= f)%Z -> ~ supported f -> (0 <= n)%Z -> (f | n)%Z -> blocks n (n / f) calls ->
  sampled (tone A (2 * PI / IZR f) p) (fed calls) ->
  exists d outs,
    bind (decimator_new 0 Q2R junk n f) (fun d0 =>
      decimator_run Rplus Rminus Rmult (fun v => v) (fun v => v) d0 calls) = OK (d, outs) /\
    constant (A * cos p) (got (n / f) outs).
Proof. exact decimator_other_alias. Qed.
Print Assumptions C82_other_factor_alias.

Example C82_case :
  supported 2 /\ ~ supported 3 /\ total [(3, PI, 0); (1, 0, 0)] = 4 /\
  blocks 2 (2 / 2) [([4; -2], [0])] /\ sampled (chord [(3, PI, 0); (1, 0, 0)]) (fed [([4; -2], [0])]).
Proof.
  split; [unfold supported; auto|]. split; [unfold supported; lia|].
  split; [unfold total; cbn; rewrite (Rabs_pos_eq 3), (Rabs_pos_eq 1); lra|].
  split; [repeat constructor; cbn; discriminate|].
  intros t Ht. change (zlen (fed [([4; -2], [0])])) with 2%Z in Ht. unfold chord, tone, fed. cbn.
  assert (t = 0 \/ t = 1)%Z as [-> | ->] by lia; unfold zn; cbn.
  - replace (PI * 0 + 0) with 0 by ring. replace (0 * 0 + 0) with 0 by ring. rewrite cos_0. lra.
  - change (Pos.to_nat 1) with 1%nat. cbn iota. replace (PI * 1 + 0) with PI by ring. replace (0 * 1 + 0) with 0 by ring. rewrite cos_PI, cos_0. lra.
Qed.

(** C83: frequency response of DecimatorB for factor 2^k. *)
Theorem C83_decimatorB_response :
  forall k, (1 <= k <= 30)%nat ->
  exists g s : R -> R,
    (forall w, 0 <= g w <= 1.00001 ^ k) /\
    (forall w, 0 <= w <= 0.8 * (PI / 2 ^ k) -> 0.9893 ^ k <= g w) /\
    (forall w, PI / 2 ^ k <= w <= PI -> g w <= 0.70712 * 1.00001 ^ (k - 1)) /\
    (forall w i, (i < k)%nat -> 3 / 4 * PI <= 2 ^ i * w <= PI -> g w <= 0.0052 * 1.00001 ^ (k - 1)) /\
    forall Am eps, 0 <= Am -> 0 < eps -> exists t0,
    forall junk n calls l, (0 <= n)%Z -> (2 ^ Z.of_nat k | n)%Z -> blocks n (n / 2 ^ Z.of_nat k) calls ->
      total l <= Am -> sampled (chord l) (fed calls) ->
      exists d outs,
        bind (decB_new 0 Q2R junk n (2 ^ Z.of_nat k)) (fun e0 =>
          decB_run Rplus Rminus Rmult (fun v => v) (fun v => v) e0 calls) = OK (d, outs) /\
        near t0 eps (chord (through (2 ^ k) g s l)) (got (n / 2 ^ Z.of_nat k) outs).
Proof. exact decimatorB_response. Qed.
Print Assumptions C83_decimatorB_response.

(** For k = 2 a component at 3 pi / 4 and one at pi / 2 are in the deep stop band. *)
Example C83_case : 3 / 4 * PI <= 2 ^ 0 * (3 / 4 * PI) <= PI /\ 3 / 4 * PI <= 2 ^ 1 * (PI / 2) <= PI.
Proof. pose proof PI_RGT_0. cbn. lra. Qed.
