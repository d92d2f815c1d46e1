(** Cosine distance in IEEE doubles: proofs. *)
From Coq Require Import ZArith Reals Lia Lra Psatz List Bool.
From Flocq Require Import Core.
From Flocq.IEEE754 Require Import BinarySingleNaN.
From Verif.Base Require Import Imp Sums RealOps Arith Dbl Double Loops.
From Verif.Maths Require Import DoubleModel DoubleProofs StatDouble StatDoubleSpec StatDoubleProofs StatRoundDouble DotDouble.
From Verif.Fft Require Import FftrDouble FftrTwiddle.
From Verif.Pca Require Import PcaResults.
From Verif.Measures Require Import MeasModel CosDouble CosDoubleSpec.
Import ListNotations.
Open Scope R_scope.
Local Notation u := uro.
Local Notation eta := (bpow radix2 (-1075)).

Lemma dsmall_val : finite dsmall /\ Rabs (dval dsmall - / 100000000000000000000) <= u * / 100000000000000000000.
Proof.
  destruct (dmake_ok 6646139978924579 (-119)) as [F V].
  { apply (small_huge _ 0); [|lia]. unfold F2R. cbn [Fnum Fexp]. change (bpow radix2 (-119)) with (/ 664613997892457936451903530140172288). change (bpow radix2 0) with 1.
    rewrite Rabs_pos_eq; lra. }
  fold dsmall in F, V. split; [exact F|]. rewrite V.
  rewrite rnd_format.
  - unfold F2R. cbn [Fnum Fexp]. change (bpow radix2 (-119)) with (/ 664613997892457936451903530140172288). rewrite uro_val. apply Rabs_le. lra.
  - apply generic_format_FLT. exists (Float radix2 6646139978924579 (-119)); [reflexivity|cbn; lia|cbn; lia].
Qed.

(** The three sums are sums of products. *)
Lemma cosine_sums (v w : list double) n : zlen v = n -> zlen w = n ->
  dcosine v w = OK (dsub (dint 1) (ddiv (fsum (dint 0) dadd n (fun j => dmul (zn d0 v j) (zn d0 w j)))
    (dadd (dsqrt (Babs (dmul (fsum (dint 0) dadd n (fun j => dmul (zn d0 v j) (zn d0 v j))) (fsum (dint 0) dadd n (fun j => dmul (zn d0 w j) (zn d0 w j)))))) dsmall))).
Proof.
  intros L1 L2. unfold dcosine, cosine. rewrite L1, L2, Z.eqb_refl. cbn [negb a_of a_add a_sub a_mul a_div a_sqrt Darith].
  assert (N : (0 <= n)%Z) by (rewrite <- L1; unfold zlen; lia).
  match goal with |- context [for_up 0 n ?B ?S] =>
    destruct (for_up_inv (fun i s => s = (fsum (dint 0) dadd i (fun j => dmul (zn d0 v j) (zn d0 w j)), fsum (dint 0) dadd i (fun j => dmul (zn d0 v j) (zn d0 v j)),
       fsum (dint 0) dadd i (fun j => dmul (zn d0 w j) (zn d0 w j)))) 0 n B S) as (s & E & ->); [lia|reflexivity| |] end.
  - intros i s Hi ->. rewrite !(aget_OK d0) by lia. ret. ret. eexists; split; [reflexivity|]. rewrite !fsum_S by lia. reflexivity.
  - rewrite E. ret. reflexivity.
Qed.

Lemma sqrt_rel x y e : 0 < y -> 0 <= e <= / 100 -> Rabs (x - y) <= e * y -> Rabs (sqrt x - sqrt y) <= 51 / 100 * e * sqrt y.
Proof.
  intros Hy He H. apply Rabs_le_inv in H. assert (EY : 0 <= e * y <= / 100 * y) by (split; [apply Rmult_le_pos; lra|apply Rmult_le_compat_r; lra]).
  assert (X : 98 / 100 * y <= x) by lra. assert (X0 : 0 < x) by lra.
  pose proof (sqrt_lt_R0 y Hy) as S1. pose proof (sqrt_lt_R0 x X0) as S2. pose proof (sqrt_sqrt x (Rlt_le _ _ X0)) as Qx. pose proof (sqrt_sqrt y (Rlt_le _ _ Hy)) as Qy.
  set (a := sqrt x) in *. set (b := sqrt y) in *. assert (AB : 97 / 100 * b <= a).
  { destruct (Rle_lt_dec (97 / 100 * b) a) as [L|L]; [exact L|]. assert (a * a <= 97 / 100 * b * (97 / 100 * b)) by (apply Rmult_le_compat; lra). lra. }
  assert (P : (a - b) * (a + b) = x - y) by (rewrite <- Qx, <- Qy; ring).
  assert (EB : e * y <= 51 / 100 * e * b * (a + b)).
  { rewrite <- Qy. replace (51 / 100 * e * b * (a + b)) with (51 / 100 * (e * b) * (a + b)) by ring. assert (0 <= e * b) by (apply Rmult_le_pos; lra).
    assert (e * b * (197 / 100 * b) <= e * b * (a + b)) by (apply Rmult_le_compat_l; lra). assert (0 <= e * b * b) by (apply Rmult_le_pos; lra). lra. }
  apply Rabs_le. split; apply Rmult_le_reg_r with (a + b); try lra; rewrite P; lra.
Qed.

Theorem cosine_doubles n v w : (1 <= n <= 2147483647)%Z -> zlen v = n -> zlen w = n -> all_finite n v -> all_finite n w ->
  bpow radix2 (-400) <= dot n v v <= bpow radix2 400 -> bpow radix2 (-400) <= dot n w w <= bpow radix2 400 ->
  exists d, dcosine v w = OK d /\ finite d /\ Rabs (dval d - exact_cosine n v w) <= (21 / 10 * IZR n + 6) * u.
Proof.
  intros Hn L1 L2 [_ Fv] [_ Fw] [A1 A2] [B1 B2]. eexists. split; [apply (cosine_sums v w n L1 L2)|].
  replace (dint 0) with d0 by reflexivity.
  set (a := dot n v v) in *. set (b := dot n w w) in *. set (s := dot n v w).
  pose proof uro_pos as U. pose proof uro_val as UV. assert (ET : 0 < eta) by apply bpow_gt_0.
  assert (AP : 0 < a) by (eapply Rlt_le_trans; [apply bpow_gt_0|exact A1]). assert (BP : 0 < b) by (eapply Rlt_le_trans; [apply bpow_gt_0|exact B1]).
  set (N := IZR n). assert (N1 : 1 <= N <= 2147483647) by (split; apply IZR_le; lia).
  set (h := bpow radix2 800). assert (H4 : bpow radix2 400 * bpow radix2 400 = h) by (unfold h; rewrite <- bpow_plus; reflexivity).
  set (l := bpow radix2 (-800)). assert (H5 : bpow radix2 (-400) * bpow radix2 (-400) = l) by (unfold l; rewrite <- bpow_plus; reflexivity).
  set (g := bpow radix2 (-400)) in *. assert (gP : 0 < g) by apply bpow_gt_0. set (G := bpow radix2 400) in *. assert (GP : 0 < G) by apply bpow_gt_0.
  assert (AB : l <= a * b <= h) by (split; [rewrite <- H5|rewrite <- H4]; apply Rmult_le_compat; lra).
  assert (LP : 0 < l) by apply bpow_gt_0.
  set (D := sqrt (a * b)). assert (ABP : 0 < a * b) by lra. assert (DP : 0 < D) by (apply sqrt_lt_R0; lra).
  assert (DD : D * D = a * b) by (apply sqrt_sqrt; lra).
  assert (Dl : g <= D) by (unfold D; rewrite <- (sqrt_square g) by lra; apply sqrt_le_1_alt; lra).
  assert (DG : D <= G) by (unfold D; rewrite <- (sqrt_square G) by lra; apply sqrt_le_1_alt; lra).
  assert (Eg : 2 * eta <= / 1000 * u * g).
  { apply Rle_trans with (bpow radix2 (-10) * u * g).
    - unfold uro, g. change 2 with (bpow radix2 1). rewrite <- !bpow_plus. apply bpow_le. lia.
    - apply Rmult_le_compat_r; [lra|]. apply Rmult_le_compat_r; [lra|]. change (bpow radix2 (-10)) with (/ 1024). lra. }
  set (e1 := 1002 / 1000 * (N * u)). assert (NU : 0 < N * u <= / 1000000) by (rewrite UV; split; [apply Rmult_lt_0_compat|]; lra).
  assert (UN : u <= N * u) by nra.
  (* the three dot products *)
  assert (TA : forall x, total n (fun j => dval (zn d0 x j) * dval (zn d0 x j)) = dot n x x).
  { intros x. apply rsum_ext. intros j _. apply Rabs_pos_eq, Rle_0_sqr. }
  assert (G998 : G <= bpow radix2 998) by (apply bpow_le; lia).
  assert (TS : total n (fun j => dval (zn d0 v j) * dval (zn d0 w j)) <= D).
  { unfold total. rewrite (rsum_ext n _ (fun j => Rabs (dval (zn d0 v j)) * Rabs (dval (zn d0 w j)))) by (intros; apply Rabs_mult).
    set (t := rsum n _). assert (T0 : 0 <= t) by (apply rsum_nonneg; intros; apply Rmult_le_pos; apply Rabs_pos).
    pose proof (cauchy n (fun j => Rabs (dval (zn d0 v j))) (fun j => Rabs (dval (zn d0 w j)))) as C. cbv beta in C. fold t in C.
    rewrite (rsum_ext n (fun j => Rabs (dval (zn d0 v j)) * Rabs (dval (zn d0 v j))) (fun j => dval (zn d0 v j) * dval (zn d0 v j))) in C
      by (intros; rewrite <- Rabs_mult; apply Rabs_pos_eq, Rle_0_sqr).
    rewrite (rsum_ext n (fun j => Rabs (dval (zn d0 w j)) * Rabs (dval (zn d0 w j))) (fun j => dval (zn d0 w j) * dval (zn d0 w j))) in C
      by (intros; rewrite <- Rabs_mult; apply Rabs_pos_eq, Rle_0_sqr).
    change (t * t <= a * b) in C. unfold D. rewrite <- (sqrt_square t) by exact T0. apply sqrt_le_1_alt. exact C. }
  assert (REL : forall T M, 0 <= T -> T <= M -> g <= M -> 1001 / 1000 * N * u * T + 2 * N * eta <= e1 * M).
  { intros T M H0 H1 H2. assert (Q1 : N * u * T <= N * u * M) by (apply Rmult_le_compat_l; lra).
    assert (Q2 : N * (2 * eta) <= N * (/ 1000 * u * M)).
    { apply Rmult_le_compat_l; [lra|]. eapply Rle_trans; [exact Eg|]. apply Rmult_le_compat_l; [apply Rmult_le_pos; lra|exact H2]. }
    unfold e1. replace (N * (/ 1000 * u * M)) with (/ 1000 * (N * u * M)) in Q2 by ring. replace (1002 / 1000 * (N * u) * M) with (1002 / 1000 * (N * u * M)) by ring.
    replace (1001 / 1000 * N * u * T) with (1001 / 1000 * (N * u * T)) by ring. lra. }
  destruct (dot_doubles n (zn d0 v) (zn d0 v)) as [Fa Ea]; [lia|intros j Hj; split; apply Fv; exact Hj|rewrite TA; fold a; lra|].
  destruct (dot_doubles n (zn d0 w) (zn d0 w)) as [Fb Eb]; [lia|intros j Hj; split; apply Fw; exact Hj|rewrite TA; fold b; lra|].
  destruct (dot_doubles n (zn d0 v) (zn d0 w)) as [Fs Es]; [lia|intros j Hj; split; [apply Fv|apply Fw]; exact Hj|lra|].
  rewrite TA in Ea, Eb. fold a in Ea. fold b in Eb. fold N in Ea, Eb, Es.
  change (rsum n (fun j => dval (zn d0 v j) * dval (zn d0 v j))) with a in Ea. change (rsum n (fun j => dval (zn d0 w j) * dval (zn d0 w j))) with b in Eb.
  change (rsum n (fun j => dval (zn d0 v j) * dval (zn d0 w j))) with s in Es.
  set (ha := fsum d0 dadd n (fun j => dmul (zn d0 v j) (zn d0 v j))) in *. set (hb := fsum d0 dadd n (fun j => dmul (zn d0 w j) (zn d0 w j))) in *.
  set (hs := fsum d0 dadd n (fun j => dmul (zn d0 v j) (zn d0 w j))) in *.
  assert (RA : Rabs (dval ha - a) <= e1 * a) by (eapply Rle_trans; [exact Ea|apply REL; lra]).
  assert (RB : Rabs (dval hb - b) <= e1 * b) by (eapply Rle_trans; [exact Eb|apply REL; lra]).
  assert (RS : Rabs (dval hs - s) <= e1 * D) by (eapply Rle_trans; [exact Es|apply REL; [apply total_pos|exact TS|exact Dl]]).
  assert (SB : Rabs s <= D) by (eapply Rle_trans; [apply rsum_total; lia|exact TS]).
  clear Ea Eb Es TA TS REL. assert (E10 : 0 < e1 <= 2 / 1000000) by (unfold e1; lra). assert (UE : u <= e1) by (unfold e1; lra).
  (* the product *)
  assert (PAB : Rabs (dval ha * dval hb - a * b) <= 2001 / 1000 * e1 * (a * b)).
  { replace (dval ha * dval hb - a * b) with ((dval ha - a) * (dval hb - b) + a * (dval hb - b) + b * (dval ha - a)) by ring.
    eapply Rle_trans; [apply Rabs_triang|]. eapply Rle_trans; [apply Rplus_le_compat_r, Rabs_triang|]. rewrite !Rabs_mult, (Rabs_pos_eq a), (Rabs_pos_eq b) by lra.
    assert (K1 : Rabs (dval ha - a) * Rabs (dval hb - b) <= e1 * a * (e1 * b)) by (apply Rmult_le_compat; auto using Rabs_pos).
    assert (K2 : a * Rabs (dval hb - b) <= a * (e1 * b)) by (apply Rmult_le_compat_l; lra).
    assert (K3 : b * Rabs (dval ha - a) <= b * (e1 * a)) by (apply Rmult_le_compat_l; lra).
    assert (K4 : e1 * (e1 * (a * b)) <= / 1000 * (e1 * (a * b))) by (apply Rmult_le_compat_r; [apply Rmult_le_pos; lra|lra]).
    replace (e1 * a * (e1 * b)) with (e1 * (e1 * (a * b))) in K1 by ring. replace (a * (e1 * b)) with (e1 * (a * b)) in K2 by ring.
    replace (b * (e1 * a)) with (e1 * (a * b)) in K3 by ring. replace (2001 / 1000 * e1 * (a * b)) with (2001 / 1000 * (e1 * (a * b))) by ring. lra. }
  assert (E1AB : e1 * (a * b) <= / 1000 * (a * b)) by (apply Rmult_le_compat_r; lra).
  assert (PB : 0 < dval ha * dval hb <= 101 / 100 * (a * b)) by (apply Rabs_le_inv in PAB; lra).
  destruct (dmul_ok ha hb Fa Fb) as [Fp Vp].
  { rewrite Rabs_pos_eq by lra. eapply Rle_trans; [apply PB|]. apply Rle_trans with (2 * h); [lra|]. unfold h, huge. change 2 with (bpow radix2 1). rewrite <- bpow_plus. apply bpow_le. lia. }
  set (p := dmul ha hb) in *. pose proof (rnd_error (dval ha * dval hb)) as Ep. rewrite <- Vp in Ep. rewrite (Rabs_pos_eq (dval ha * dval hb)) in Ep by lra.
  assert (El : eta <= / 1000 * u * (a * b)).
  { apply Rle_trans with (bpow radix2 (-10) * u * l).
    - unfold uro, l. rewrite <- !bpow_plus. apply bpow_le. lia.
    - apply Rmult_le_compat; try lra; [apply Rmult_le_pos; [apply bpow_ge_0|lra]|]. apply Rmult_le_compat_r; [lra|]. change (bpow radix2 (-10)) with (/ 1024). lra. }
  set (e2 := 2001 / 1000 * e1 + 102 / 100 * u).
  assert (RP : Rabs (dval p - a * b) <= e2 * (a * b)).
  { replace (dval p - a * b) with ((dval p - dval ha * dval hb) + (dval ha * dval hb - a * b)) by ring. eapply Rle_trans; [apply Rabs_triang|].
    assert (K : u * (dval ha * dval hb) <= u * (101 / 100 * (a * b))) by (apply Rmult_le_compat_l; lra).
    unfold e2. replace ((2001 / 1000 * e1 + 102 / 100 * u) * (a * b)) with (2001 / 1000 * e1 * (a * b) + 102 / 100 * (u * (a * b))) by ring.
    replace (u * (101 / 100 * (a * b))) with (101 / 100 * (u * (a * b))) in K by ring. replace (/ 1000 * u * (a * b)) with (/ 1000 * (u * (a * b))) in El by ring.
    assert (0 < u * (a * b)) by (apply Rmult_lt_0_compat; lra). lra. }
  assert (E20 : 0 <= e2 <= / 100) by (unfold e2; lra).
  assert (PP : 0 < dval p) by (apply Rabs_le_inv in RP; assert (e2 * (a * b) <= / 100 * (a * b)) by (apply Rmult_le_compat_r; lra); lra).
  (* its root *)
  assert (Fq : finite (Babs p)) by (unfold finite; rewrite is_finite_Babs; exact Fp).
  assert (Vq : dval (Babs p) = dval p) by (unfold dval; rewrite B2R_Babs; apply Rabs_pos_eq; fold (dval p); lra).
  destruct (dsqrt_ok (Babs p) Fq) as [Fr Vr]; [rewrite Vq; lra|]. rewrite Vq in Vr. set (r := dsqrt (Babs p)) in *.
  pose proof (sqrt_rel (dval p) (a * b) e2 ABP E20 RP) as RQ. fold D in RQ.
  assert (QB : 0 <= sqrt (dval p) <= 1006 / 1000 * D).
  { split; [apply sqrt_pos|]. apply Rabs_le_inv in RQ. assert (e2 * D <= / 100 * D) by (apply Rmult_le_compat_r; lra). lra. }
  assert (RR : Rabs (dval r - D) <= (51 / 100 * e2 + 101 / 100 * u) * D).
  { pose proof (rnd_unit (sqrt (dval p)) (1006 / 1000) D) as E. rewrite <- Vr in E.
    assert (E' : Rabs (dval r - sqrt (dval p)) <= u * (1006 / 1000 + / 1000) * D).
    { apply E; [eapply Rle_trans; [|exact Dl]; apply bpow_le; lia|]. rewrite Rabs_pos_eq; lra. }
    replace (dval r - D) with ((dval r - sqrt (dval p)) + (sqrt (dval p) - D)) by ring. eapply Rle_trans; [apply Rabs_triang|].
    assert (0 < u * D) by (apply Rmult_lt_0_compat; lra).
    replace (u * (1006 / 1000 + / 1000) * D) with (1007 / 1000 * (u * D)) in E' by lra. replace ((51 / 100 * e2 + 101 / 100 * u) * D) with (51 / 100 * e2 * D + 101 / 100 * (u * D)) by ring. lra. }
  set (e3 := 51 / 100 * e2 + 101 / 100 * u) in *. assert (E30 : u <= e3 <= / 10000) by (unfold e3, e2; lra).
  (* the denominator *)
  destruct dsmall_val as [Fc Vc]. set (c := / 100000000000000000000) in *. assert (CP : 0 < c) by (unfold c; lra).
  set (M := D + c). assert (MP : 0 < M) by (unfold M; lra). assert (DM : D <= M) by (unfold M; lra).
  assert (RM : Rabs (dval r + dval dsmall - M) <= e3 * M).
  { unfold M. replace (dval r + dval dsmall - (D + c)) with ((dval r - D) + (dval dsmall - c)) by ring. eapply Rle_trans; [apply Rabs_triang|].
    assert (u * c <= e3 * c) by (apply Rmult_le_compat_r; lra). lra. }
  assert (E3M : e3 * M <= / 10000 * M) by (apply Rmult_le_compat_r; lra).
  assert (XB : 0 < dval r + dval dsmall <= 1001 / 1000 * M) by (apply Rabs_le_inv in RM; lra).
  destruct (dadd_ok r dsmall Fr Fc) as [Fm Vm].
  { rewrite Rabs_pos_eq by lra. eapply Rle_trans; [apply XB|]. apply Rle_trans with (4 * G).
    - assert (c <= G); [|unfold M; lra]. apply Rle_trans with (bpow radix2 0); [change (bpow radix2 0) with 1; unfold c; lra|apply bpow_le; lia].
    - unfold G, huge. change 4 with (bpow radix2 2). rewrite <- bpow_plus. apply bpow_le. lia. }
  set (q := dadd r dsmall) in *.
  pose proof (rnd_plus (dval r) (dval dsmall) (dval_format _) (dval_format _)) as Eq. rewrite <- Vm in Eq. rewrite (Rabs_pos_eq (dval r + dval dsmall)) in Eq by lra.
  set (e4 := e3 + 102 / 100 * u).
  assert (RQM : Rabs (dval q - M) <= e4 * M).
  { replace (dval q - M) with ((dval q - (dval r + dval dsmall)) + (dval r + dval dsmall - M)) by ring. eapply Rle_trans; [apply Rabs_triang|].
    assert (K : u * (dval r + dval dsmall) <= u * (1001 / 1000 * M)) by (apply Rmult_le_compat_l; lra). assert (0 < u * M) by (apply Rmult_lt_0_compat; lra).
    unfold e4. replace ((e3 + 102 / 100 * u) * M) with (e3 * M + 102 / 100 * (u * M)) by ring. replace (u * (1001 / 1000 * M)) with (1001 / 1000 * (u * M)) in K by ring. lra. }
  assert (E40 : 0 < e4 <= 2 / 10000) by (unfold e4; lra).
  assert (E4M : e4 * M <= 2 / 10000 * M) by (apply Rmult_le_compat_r; lra).
  assert (QM : 999 / 1000 * M <= dval q) by (apply Rabs_le_inv in RQM; lra). assert (QP : 0 < dval q) by lra.
  (* the quotient *)
  assert (SM : Rabs (s / M) <= 1).
  { unfold Rdiv. rewrite Rabs_mult, Rabs_inv, (Rabs_pos_eq M) by lra. apply Rmult_le_reg_r with M; [exact MP|]. rewrite Rmult_assoc, Rinv_l by lra. lra. }
  assert (RT : Rabs (dval hs / dval q - s / M) <= 1002 / 1000 * (e1 + e4)).
  { assert (T1 : Rabs (dval hs - s) <= e1 * M) by (eapply Rle_trans; [exact RS|]; apply Rmult_le_compat_l; lra).
    assert (T2 : Rabs (s / M * (dval q - M)) <= e4 * M) by (rewrite Rabs_mult; replace (e4 * M) with (1 * (e4 * M)) by ring; apply Rmult_le_compat; auto using Rabs_pos).
    replace (dval hs / dval q - s / M) with (((dval hs - s) - s / M * (dval q - M)) * / dval q) by (field; lra).
    rewrite Rabs_mult, Rabs_inv, (Rabs_pos_eq (dval q)) by lra. apply Rmult_le_reg_r with (dval q); [exact QP|]. rewrite Rmult_assoc, Rinv_l, Rmult_1_r by lra.
    assert (T3 : Rabs (dval hs - s - s / M * (dval q - M)) <= e1 * M + e4 * M).
    { unfold Rminus at 1. eapply Rle_trans; [apply Rabs_triang|]. rewrite Rabs_Ropp. lra. }
    eapply Rle_trans; [exact T3|]. assert (K : 1002 / 1000 * (e1 + e4) * (999 / 1000 * M) <= 1002 / 1000 * (e1 + e4) * dval q) by (apply Rmult_le_compat_l; lra).
    assert (0 < (e1 + e4) * M) by (apply Rmult_lt_0_compat; lra). replace (1002 / 1000 * (e1 + e4) * (999 / 1000 * M)) with (1000998 / 1000000 * ((e1 + e4) * M)) in K by field. lra. }
  pose proof (near' _ _ _ _ RT SM) as TB.
  destruct (ddiv_ok hs q Fs) as [Ft Vt]; [lra|apply (small_huge _ 1); [change (bpow radix2 1) with 2; lra|lia]|]. set (t := ddiv hs q) in *.
  pose proof (rnd_le_bound (dval hs / dval q) (101 / 100) ltac:(lra) ltac:(lra)) as Et. rewrite <- Vt in Et.
  assert (RTT : Rabs (dval t - s / M) <= 1002 / 1000 * (e1 + e4) + 102 / 100 * u).
  { replace (dval t - s / M) with ((dval t - dval hs / dval q) + (dval hs / dval q - s / M)) by ring. eapply Rle_trans; [apply Rabs_triang|]. lra. }
  pose proof (near' _ _ _ _ RTT SM) as TTB.
  (* the difference *)
  destruct (dint_ok 1) as [F1 V1]; [unfold two53; lia|].
  assert (DB : Rabs (1 - dval t) <= 201 / 100) by (apply Rabs_le_inv in TTB; apply Rabs_le; lra).
  destruct (dsub_ok (dint 1) t F1 Ft) as [Fd Vd]; [rewrite V1; apply (small_huge _ 2); [change (bpow radix2 2) with 4; lra|lia]|].
  rewrite V1 in Vd. pose proof (rnd_le_bound (1 - dval t) (201 / 100) ltac:(lra) DB) as Ed. rewrite <- Vd in Ed.
  split; [exact Fd|]. unfold exact_cosine. fold a b s D c. fold M.
  match goal with |- Rabs (dval ?d - _) <= _ => replace (dval d - (1 - s / M)) with ((dval d - (1 - dval t)) - (dval t - s / M)) by ring end.
  unfold Rminus at 1. eapply Rle_trans; [apply Rabs_triang|]. rewrite Rabs_Ropp.
  fold N. replace ((21 / 10 * N + 6) * u) with (21 / 10 * (N * u) + 6 * u) by ring. unfold e4, e3, e2, e1 in *. lra.
Qed.

(** Nearly a number from 0 to 2. *)
Theorem cosine_range n v w : (1 <= n <= 2147483647)%Z -> zlen v = n -> zlen w = n -> all_finite n v -> all_finite n w ->
  bpow radix2 (-400) <= dot n v v <= bpow radix2 400 -> bpow radix2 (-400) <= dot n w w <= bpow radix2 400 ->
  exists d, dcosine v w = OK d /\ - ((21 / 10 * IZR n + 6) * u) <= dval d <= 2 + (21 / 10 * IZR n + 6) * u.
Proof.
  intros Hn L1 L2 Fv Fw HA HB. destruct (cosine_doubles n v w Hn L1 L2 Fv Fw HA HB) as (d & E & _ & B). exists d. split; [exact E|].
  assert (C : Rabs (dot n v w) <= sqrt (dot n v v * dot n w w)).
  { rewrite <- sqrt_Rsqr_abs. apply sqrt_le_1_alt. unfold Rsqr. apply (cauchy n (fun j => dval (zn d0 v j)) (fun j => dval (zn d0 w j))). }
  unfold exact_cosine in B. pose proof (sqrt_pos (dot n v v * dot n w w)) as S0. set (D := sqrt _) in *. set (s := dot n v w) in *. set (M := D + / 100000000000000000000) in *.
  assert (MP : 0 < M) by (unfold M; lra). assert (DM : D <= M) by (unfold M; lra).
  assert (SM : Rabs (s / M) <= 1).
  { unfold Rdiv. rewrite Rabs_mult, Rabs_inv, (Rabs_pos_eq M) by lra. apply Rmult_le_reg_r with M; [exact MP|]. rewrite Rmult_assoc, Rinv_l by lra. lra. }
  apply Rabs_le_inv in B. apply Rabs_le_inv in SM. lra.
Qed.

Theorem cosine_sizes v w : zlen v <> zlen w -> exists d, dcosine v w = OK d /\ finite d /\ dval d = 1.
Proof.
  intros H. unfold dcosine, cosine. destruct (Z.eqb_spec (zlen v) (zlen w)); [contradiction|]. cbn [negb a_of Darith]. exists (dint 1). split; [reflexivity|].
  destruct (dint_ok 1) as [F V]; [unfold two53; lia|]. auto.
Qed.

(** Two parallel vectors at a negative distance. *)
Definition par_v : list double := [dint 1; dint 2].
Definition par_w : list double := [ddiv (dint 5) (dint 7); ddiv (dint 10) (dint 7)].
Definition all_finite_b (l : list double) : bool := forallb is_finite l.
Lemma all_finite_b_OK l : all_finite_b l = true -> all_finite (zlen l) l.
Proof.
  intros H. split; [lia|]. intros j Hj. unfold all_finite_b in H. rewrite forallb_forall in H. apply H. unfold zn. destruct (Z.ltb_spec j 0); [lia|]. apply nth_In. unfold zlen in Hj. lia.
Qed.
Definition negative_result (r : res double) : bool := match r with OK d => is_finite d && Bltb d d0 | _ => false end.
Lemma negative_OK r : negative_result r = true -> exists d, r = OK d /\ finite d /\ dval d < 0.
Proof.
  destruct r as [d| | |]; cbn [negative_result]; try discriminate. intros H. apply andb_true_iff in H. destruct H as [F H]. exists d. split; [reflexivity|]. split; [exact F|].
  rewrite Bltb_correct in H by (exact F || reflexivity). destruct (Rlt_bool_spec (B2R d) (B2R d0)) as [L|L]; [exact L|discriminate].
Qed.
Lemma par_computed : negative_result (dcosine par_v par_w) = true.
Proof. vm_compute. reflexivity. Qed.
Lemma par_finite : all_finite_b par_v = true /\ all_finite_b par_w = true.
Proof. vm_compute. auto. Qed.
Theorem cosine_negative : exists v w d, zlen v = zlen w /\ all_finite (zlen v) v /\ all_finite (zlen w) w /\ dcosine v w = OK d /\ finite d /\ dval d < 0.
Proof.
  destruct (negative_OK _ par_computed) as (d & E & F & N). destruct par_finite as [F1 F2]. exists par_v, par_w, d.
  split; [reflexivity|]. split; [apply all_finite_b_OK; exact F1|]. split; [apply all_finite_b_OK; exact F2|]. auto.
Qed.

(** Equal vectors at distance 1. *)
Definition big_v : list double := [dmake 1 300].
Definition one_result (r : res double) : bool := match r with OK d => is_finite d && Beqb d (dint 1) | _ => false end.
Lemma one_OK r : one_result r = true -> exists d, r = OK d /\ finite d /\ dval d = 1.
Proof.
  destruct r as [d| | |]; cbn [one_result]; try discriminate. intros H. apply andb_true_iff in H. destruct H as [F H]. exists d. split; [reflexivity|]. split; [exact F|].
  destruct (dint_ok 1) as [F1 V1]; [unfold two53; lia|]. rewrite Beqb_correct in H by (exact F || exact F1). destruct (Req_bool_spec (B2R d) (B2R (dint 1))) as [L|L]; [|discriminate].
  unfold dval in *. rewrite L. exact V1.
Qed.
Lemma big_computed : one_result (dcosine big_v big_v) = true.
Proof. vm_compute. reflexivity. Qed.
Lemma big_finite : all_finite_b big_v = true.
Proof. vm_compute. reflexivity. Qed.
Theorem cosine_overflow : exists v d, all_finite (zlen v) v /\ dcosine v v = OK d /\ finite d /\ dval d = 1 /\ 1 <= dot (zlen v) v v.
Proof.
  destruct (one_OK _ big_computed) as (d & E & F & N). exists big_v, d. split; [apply all_finite_b_OK, big_finite|]. split; [exact E|]. split; [exact F|]. split; [exact N|].
  destruct (dmake_ok 1 300) as [_ V]; [apply (small_huge _ 300); [unfold F2R; cbn [Fnum Fexp]; rewrite Rmult_1_l, Rabs_pos_eq by apply bpow_ge_0; lra|lia]|].
  rewrite rnd_format in V by (apply generic_format_FLT; exists (Float radix2 1 300); [reflexivity|cbn; lia|cbn; lia]).
  change (zlen big_v) with 1%Z. assert (R1 : forall f, rsum 1 f = 0 + f 0%Z) by (intros f; exact (eq_refl : rsum 1 f = 0 + f 0%Z)). unfold dot. rewrite R1. change (zn d0 big_v 0) with (dmake 1 300). rewrite V.
  unfold F2R. cbn [Fnum Fexp]. assert (1 <= bpow radix2 300) by (change 1 with (bpow radix2 0); apply bpow_le; lia). nra.
Qed.

(** A case meeting the hypotheses: (3, 4) and (4, -3). *)
Lemma cosine_case : let v := [dint 3; dint 4] in let w := [dint 4; dint (-3)] in
  zlen v = 2%Z /\ zlen w = 2%Z /\ all_finite 2 v /\ all_finite 2 w /\ dot 2 v v = 25 /\ dot 2 w w = 25 /\ exact_cosine 2 v w = 1 /\
  bpow radix2 (-400) <= 25 <= bpow radix2 400.
Proof.
  cbv zeta. assert (D : forall z, (Z.abs z <= 4)%Z -> finite (dint z) /\ dval (dint z) = IZR z) by (intros z Hz; apply dint_ok; unfold two53; lia).
  destruct (D 3%Z) as [F3 V3]; [lia|]. destruct (D 4%Z) as [F4 V4]; [lia|]. destruct (D (-3)%Z) as [F5 V5]; [lia|].
  assert (AF : forall a b, finite a -> finite b -> all_finite 2 [a; b]).
  { intros a b Ha Hb. split; [cbn; lia|]. intros j Hj. assert (J : j = 0%Z \/ j = 1%Z) by lia. destruct J as [-> | ->]; assumption. }
  assert (DO : forall a b c d, dot 2 [a; b] [c; d] = dval a * dval c + dval b * dval d).
  { intros. unfold dot. assert (R2 : forall f, rsum 2 f = 0 + f 0%Z + f 1%Z) by (intros f; exact (eq_refl : rsum 2 f = 0 + f 0%Z + f 1%Z)). rewrite R2. change (zn d0 [a; b] 0) with a. change (zn d0 [c; d] 0) with c.
    change (zn d0 [a; b] 1) with b. change (zn d0 [c; d] 1) with d. ring. }
  split; [reflexivity|]. split; [reflexivity|]. split; [auto|]. split; [auto|]. unfold exact_cosine. rewrite !DO, V3, V4, V5.
  split; [ring|]. split; [ring|]. split.
  - replace (3 * 4 + 4 * -3) with 0 by ring. unfold Rdiv. ring.
  - split; [apply Rle_trans with (bpow radix2 0)|apply Rle_trans with (bpow radix2 5)]; try (apply bpow_le; lia); [change (bpow radix2 0) with 1|change (bpow radix2 5) with 32]; lra.
Qed.
