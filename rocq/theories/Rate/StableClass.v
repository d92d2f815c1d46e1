(** Stability of the Decimator and DecimatorB classes. *)
From Coq Require Import List ZArith QArith Qreals Reals Lia Lra Bool.
From Verif.Base Require Import Imp Sums RealOps.
From Verif.Rate Require Import Df2tSpec Df2tProofs DecimatorModel DecimatorSpec DecimatorProofs
  DecimatorBModel DecimatorBSpec DecimatorBProofs StableSpec StableProofs.
Import ListNotations.
Open Scope R_scope.

Notation rsp b a := (iir_response 0 Rplus Rminus Rmult (lead Q2R b) (pairs Q2R b a)).

Lemma every_bounded f y z M : every 0 f y z -> (1 <= f)%Z -> bounded M y -> bounded M z.
Proof.
  intros [L V] Hf HB t Ht. rewrite V by auto. apply HB. pose proof (zlen_nonneg y).
  rewrite L in Ht. assert (f * (zlen y / f) <= zlen y)%Z by (apply Z.mul_div_le; lia). nia.
Qed.

Theorem decimator_bounded junk n f calls M : (2 <= f)%Z -> (0 <= n)%Z -> (f | n)%Z -> blocks n (n / f) calls ->
  0 <= M -> bounded M (fed calls) ->
  exists d outs,
    bind (decimator_new 0 Q2R junk n f) (fun d0 =>
      decimator_run Rplus Rminus Rmult (fun v => v) (fun v => v) d0 calls) = OK (d, outs) /\
    bounded (3 * M) (got (n / f) outs).
Proof.
  intros Hf Hn Hd HB HM HX.
  destruct (decimator_stream 0 Rplus Rminus Rmult Q2R 0 (fun v => v) (fun v => v) junk n f calls Hf Hn Hd HB)
    as (d & outs & ys & zs & E & R & V & G & _).
  exists d, outs. split; auto. rewrite G, map_id. rewrite map_id in R.
  apply (every_bounded f ys zs); auto; [lia|].
  pose proof (coefficients_ok f) as OKF. destruct (coefficients f) as [b a]. destruct OKF as (m & T & N).
  intros t Ht. apply (table_bound b a m 3 T N (fed calls) ys M R HM HX t Ht).
Qed.

Lemma halved_bounded k : forall x z M, halved 0 Rplus Rminus Rmult (lead Q2R bw_b) (pairs Q2R bw_b bw_a) k x z ->
  0 <= M -> bounded M x -> bounded (2 ^ k * M) z.
Proof.
  induction k as [|k IH]; intros x z M; cbn [halved pow].
  - intros -> _ H. intros t Ht. rewrite Rmult_1_l. auto.
  - intros (y & w & R & V & H) HM HX.
    assert (B1 : bounded (2 * M) w).
    { apply (every_bounded 2 y w); auto; [lia|]. intros t Ht.
      apply (table_bound bw_b bw_a 20 2 ok_w ltac:(discriminate) x y M R HM HX t Ht). }
    pose proof (IH w z (2 * M) H ltac:(lra) B1) as B2. intros t Ht. specialize (B2 t Ht). lra.
Qed.

Theorem decimatorB_bounded junk n k calls M : (1 <= k <= 30)%nat -> (0 <= n)%Z -> (2 ^ Z.of_nat k | n)%Z ->
  blocks n (n / 2 ^ Z.of_nat k) calls -> 0 <= M -> bounded M (fed calls) ->
  exists e outs,
    bind (decB_new 0 Q2R junk n (2 ^ Z.of_nat k)) (fun e0 =>
      decB_run Rplus Rminus Rmult (fun v => v) (fun v => v) e0 calls) = OK (e, outs) /\
    bounded (2 ^ k * M) (got (n / 2 ^ Z.of_nat k) outs).
Proof.
  intros Hk Hn Hd HB HM HX.
  destruct (decimatorB_stream 0 Rplus Rminus Rmult Q2R 0 (fun v => v) (fun v => v) junk n k calls Hk Hn Hd HB)
    as (e & outs & zs & E & H & G & _).
  exists e, outs. split; auto. rewrite G, map_id. rewrite map_id in H. now apply (halved_bounded k (fed calls)).
Qed.

Theorem filter_dc b a n G : table_ok b a n G = true -> a <> [] -> (0 <= G)%Z ->
  forall M eps, 0 < eps ->
  exists t0 v, Rabs (v - M) <= Rabs M / 1000000 /\
    forall x y, rsp b a x y -> constant M x ->
    forall t, (t0 <= t < zlen y)%Z -> Rabs (zn 0 y t - v) <= eps.
Proof.
  intros T N HG M eps He. apply (table_dc b a n G T N M eps He). now apply (IZR_le 0).
Qed.
