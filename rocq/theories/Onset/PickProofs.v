(** PeakPicking. *)
From Coq Require Import List ZArith Reals Lia Lra Bool.
From Verif.Base Require Import Imp Sums RealOps Loops.
From Verif.Signal Require Import FilterModel FilterSpec FilterProofs FiltFiltModel FiltFiltSpec FiltFiltProofs.
From Verif.Maths Require Import MedianSpec RealModel RealSpec RealProofs NormModel NormSpec NormProofs.
From Verif.Polyfit Require Import PolyModel PolySpec PolyMath FitProofs FitResults.
From Verif.Onset Require Import PeakModel PeakSpec PeakProofs DfResults.
Import ListNotations.
Open Scope Z_scope.

(** *** Increasing lists *)
Lemma increasing_app l x : increasing l -> Forall (fun y => y < x) l -> increasing (l ++ [x]).
Proof.
  induction l as [|z l IH]; cbn; [auto|]. intros (A & B) F. inversion F; subst. split; [|auto].
  apply Forall_app. auto.
Qed.
Lemma increasing_filter p l : increasing l -> increasing (List.filter p l).
Proof.
  induction l as [|x l IH]; cbn; [auto|]. intros (A & B). destruct (p x); cbn; auto. split; auto.
  apply Forall_forall. intros y Hy. apply filter_In in Hy. rewrite Forall_forall in A. apply A. tauto.
Qed.

(** *** The parabola *)
Lemma offsets_distinct : distinct 3 (map IZR [-2; -1; 0; 1; 2]).
Proof.
  exists [0; 1; 2]%R. split; [|split].
  - repeat constructor; cbn; intros H; repeat destruct H as [H|H]; try lra; exact H.
  - reflexivity.
  - intros v Hv. cbn in *. tauto.
Qed.

Lemma rsum_5 f : rsum 5 f = (f 0%Z + f 1%Z + f 2%Z + f 3%Z + f 4%Z)%R.
Proof. change (rsum 5 f) with (0 + f 0%Z + f 1%Z + f 2%Z + f 3%Z + f 4%Z)%R. ring. Qed.

Lemma list3 {A} (l : list A) : zlen l = 3 -> exists x y z, l = [x; y; z].
Proof.
  destruct l as [|x [|y [|z [|w l]]]]; unfold zlen; cbn [length]; intros; try lia. eauto.
Qed.

Lemma parabola_fit y0 y1 y2 y3 y4 poly : zlen poly = 3 ->
  exists r c1, polyfit2 (map IZR [-2; -1; 0; 1; 2]) [y0; y1; y2; y3; y4] poly =
    OK (r, [((-3 * y0 + 12 * y1 + 17 * y2 + 12 * y3 - 3 * y4) / 35)%R; c1; ((2 * y0 - y1 - 2 * y2 - y3 + 2 * y4) / 14)%R]).
Proof.
  intros L. destruct (polyfit2_ok (map IZR [-2; -1; 0; 1; 2]) [y0; y1; y2; y3; y4] poly) as (r & c & -> & _ & H); try (cbn; lia).
  rewrite L in H. destruct (H offsets_distinct) as (Lc & N & _). clear H.
  destruct (list3 c Lc) as (c0 & c1 & c2 & ->). exists r, c1. do 2 f_equal.
  pose proof (N 0 ltac:(lia)) as N0. pose proof (N 2 ltac:(lia)) as N2. clear N.
  change (zlen (map IZR [-2; -1; 0; 1; 2])) with 5 in *. rewrite rsum_5 in N0, N2. rewrite !poly_peval in N0, N2.
  cbv -[Rplus Rmult Rminus IZR] in N0, N2.
  assert (E0 : c0 = ((-3 * y0 + 12 * y1 + 17 * y2 + 12 * y3 - 3 * y4) / 35)%R) by lra.
  assert (E2 : c2 = ((2 * y0 - y1 - 2 * y2 - y3 + 2 * y4) / 14)%R) by lra.
  rewrite <- E0, <- E2. reflexivity.
Qed.

(** *** quadEval *)
Definition peakb (s : Z -> R) (i : Z) : bool := Rltb (s (i - 1)%Z) (s i) && Rltb (s (i + 1)%Z) (s i) && Rltb 0 (s i).
Definition bendb (qa qc : R) (s : Z -> R) (i : Z) : bool := Rltb (parabola_bend s i) (- qa) || Rltb qc (parabola_height s i).

Lemma quad_eval_ok qa qc src idx :
  exists found, quad_eval qa qc src idx = OK (idx ++ found) /\ increasing found /\ forall i, In i found <-> is_onset (zlen src) qa qc (zn 0%R src) i.
Proof.
  unfold quad_eval. set (n := zlen src).
  assert (M : exists mx, for_up 2 (n - 2) (fun i acc =>
    v <- aget src i ;; u <- aget src (i - 1) ;; w <- aget src (i + 1) ;;
    OK (if Rltb u v && Rltb w v && Rltb 0 v then acc ++ [i] else acc)) [] = OK mx /\ increasing mx /\
    forall i, In i mx <-> 2 <= i < n - 2 /\ peakb (zn 0%R src) i = true).
  { destruct (Z_le_gt_dec (n - 2) 2) as [Hs|Hs].
    { rewrite for_up_empty by lia. exists []. splits; cbn; auto. intros i. split; [tauto|lia]. }
    match goal with |- context [for_up 2 (n - 2) ?B ?S] =>
      destruct (for_up_inv (fun k mx => increasing mx /\ forall i, In i mx <-> 2 <= i < k /\ peakb (zn 0%R src) i = true) 2 (n - 2) B S) as (mx & EQ & I1 & I2); [lia| | |] end.
    - split; cbn; auto. intros i. split; [tauto|lia].
    - intros i mx Hi (I1 & I2). rewrite !(aget_OK 0%R) by lia. ret. ret. ret. fold (peakb (zn 0%R src) i).
      destruct (peakb (zn 0%R src) i) eqn:B; (eexists; split; [reflexivity|]); split.
      + apply increasing_app; auto. apply Forall_forall. intros y Hy. apply I2 in Hy. lia.
      + intros k. rewrite in_app_iff, I2. cbn. split.
        * intros [(H & H2)|[<- |[]]]; split; auto; lia.
        * intros (H & H2). destruct (Z.eq_dec k i) as [->|]; [auto|]. left. split; auto. lia.
      + auto.
      + intros k. rewrite I2. split; intros (H & H2); (split; [|auto]); [lia|]. destruct (Z.eq_dec k i) as [->|]; [congruence|lia].
    - exists mx. auto. }
  destruct M as (mx & -> & Inc & Mem). ret.
  assert (F : exists p, for_up 0 (zlen mx) (fun j '(idx, poly) =>
    maxFit <- for_up (-2) 3 (fun k acc => m <- aget mx j ;; selMax <- aget src (m + k) ;; OK (acc ++ [selMax])) [] ;;
    '(_, poly) <- polyfit2 (map IZR [-2; -1; 0; 1; 2]) maxFit poly ;;
    f <- aget poly 0 ;; h <- aget poly 2 ;;
    if Rltb h (- qa) || Rltb qc f then m <- aget mx j ;; OK (idx ++ [m], poly) else OK (idx, poly)) (idx, [0; 0; 0]%R) =
      OK (idx ++ List.filter (bendb qa qc (zn 0%R src)) mx, p)).
  { pose proof (zlen_nonneg mx) as Lm.
    match goal with |- context [for_up 0 (zlen mx) ?B ?S] =>
      destruct (for_up_inv (fun j (s : list Z * list R) => zlen (snd s) = 3 /\ fst s = idx ++ List.filter (bendb qa qc (zn 0%R src)) (firstn (Z.to_nat j) mx))
        0 (zlen mx) B S) as ((ix & p) & EQ & I1 & I2); [lia| | |] end.
    - cbn. split; auto. now rewrite app_nil_r.
    - intros j (ix & p) Hj (I1 & I2). cbn [fst snd] in *.
      assert (Hin : In (zn 0 mx j) mx).
      { unfold zn. destruct (Z.ltb_spec j 0); [lia|]. apply nth_In. unfold zlen in Hj. lia. }
      apply Mem in Hin. destruct Hin as (Hb & _). set (m := zn 0 mx j) in *.
      match goal with |- context [for_up (-2) 3 ?B ?S] =>
        assert (E5 : for_up (-2) 3 B S = OK [zn 0 src (m + -2); zn 0 src (m + -1); zn 0 src (m + 0); zn 0 src (m + 1); zn 0 src (m + 2)]%R) end.
      { rewrite (aget_OK 0) by lia. do 5 (rewrite for_up_first by lia; cbv beta; ret; rewrite (aget_OK 0%R) by (fold m; fold n; lia); ret; ret).
        rewrite for_up_empty by lia. reflexivity. }
      rewrite E5. ret. clear E5.
      destruct (parabola_fit (zn 0%R src (m + -2)) (zn 0%R src (m + -1)) (zn 0%R src (m + 0)) (zn 0%R src (m + 1)) (zn 0%R src (m + 2)) p I1) as (r & c1 & ->).
      ret. change (aget (?x :: ?y) 0) with (OK x). ret. 
      match goal with |- context [aget [?x; ?y; ?z] 2] => change (aget [x; y; z] 2) with (OK z) end. ret.
      replace (m + -2) with (m - 2) by lia. replace (m + -1) with (m - 1) by lia. replace (m + 0) with m by lia.
      fold (parabola_bend (zn 0%R src) m) (parabola_height (zn 0%R src) m). fold (bendb qa qc (zn 0%R src) m).
      assert (Ef : firstn (Z.to_nat (j + 1)) mx = firstn (Z.to_nat j) mx ++ [m]).
      { apply (zn_ext 0); [zl; lia|]. intros i Hi. rewrite zlen_firstn in Hi by lia. rewrite zn_firstn by lia. rewrite zn_app, zlen_firstn, Z2Nat.id by lia.
        destruct (Z.ltb_spec i (Z.min j (zlen mx))); [rewrite zn_firstn by lia; reflexivity|]. replace i with j by lia. replace (j - _) with 0 by lia. reflexivity. }
      destruct (bendb qa qc (zn 0%R src) m) eqn:B.
      + rewrite (aget_OK 0) by lia. fold m. ret. eexists; split; [reflexivity|]. cbn [fst snd]. split; [reflexivity|].
        rewrite Ef, filter_app. cbn [List.filter]. rewrite B, I2, app_assoc. reflexivity.
      + eexists; split; [reflexivity|]. cbn [fst snd]. split; [reflexivity|].
        rewrite Ef, filter_app. cbn [List.filter]. rewrite B, I2, app_nil_r. reflexivity.
    - cbn [fst snd] in *. subst ix. exists p. rewrite firstn_all2 in EQ by (unfold zlen; lia). exact EQ. }
  destruct F as (p & ->). ret. eexists; split; [reflexivity|]. split; [apply increasing_filter; auto|].
  intros i. rewrite filter_In, Mem. unfold is_onset, is_peak, bendb, peakb.
  rewrite orb_true_iff, !andb_true_iff, !Rltb_true. tauto.
Qed.

(** *** process *)
Lemma pp_short o scratch src len onsets : len < 4 -> pp_process o scratch src len onsets = OK (o, src, onsets).
Proof. intros H. unfold pp_process. destruct (Z.ltb_spec len 4); [reflexivity|lia]. Qed.

Lemma collect_ok work len : 0 <= len <= zlen work ->
  for_up 0 len (fun i acc => v <- aget work i ;; OK (acc ++ [v])) [] = OK (firstn (Z.to_nat len) work : list R).
Proof. apply copy_all. Qed.

Lemma pp_process_ok o scratch src len onsets s' work : 4 <= len <= zlen work -> len <= zlen src ->
  dfp_process (pp_smooth o) scratch src (pp_work o) = OK (s', work) ->
  exists found, pp_process o scratch src len onsets =
      OK ({| pp_length := pp_length o; pp_a := pp_a o; pp_c := pp_c o; pp_work := work; pp_smooth := s' |},
          firstn (Z.to_nat len) work ++ skipn (Z.to_nat len) src, onsets ++ found) /\
    increasing found /\ forall i, In i found <-> is_onset len (pp_a o) (pp_c o) (zn 0%R work) i.
Proof.
  intros Hl Hs E. unfold pp_process. destruct (Z.ltb_spec len 4); [lia|]. rewrite E. ret. rewrite collect_ok by lia. ret.
  assert (Lf : zlen (firstn (Z.to_nat len) work) = len) by (zl; lia).
  destruct (quad_eval_ok (pp_a o) (pp_c o) (firstn (Z.to_nat len) work) onsets) as (found & -> & I & M). ret.
  rewrite Lf. rewrite (for_up_set len (fun b => aget (firstn (Z.to_nat len) work) b) (zn 0%R work)).
  2: lia.
  2:{ intros i Hi. rewrite (aget_OK 0%R) by lia. now rewrite zn_firstn by lia. }
  ret. exists found. split.
  - do 2 f_equal. f_equal. f_equal. apply (zn_ext 0%R); [zl; lia|]. intros i Hi. rewrite zlen_ztab in Hi. rewrite zn_ztab by lia. now rewrite zn_firstn by lia.
  - split; auto. intros i. rewrite M, Lf. unfold is_onset, is_peak, parabola_bend, parabola_height.
    split; intros ((H1 & H2 & H3 & H4) & H5); repeat rewrite zn_firstn in * by lia; splits; auto; try lia.
Qed.

Lemma parabola_least s i : exists slope, forall c0 c1 c2,
  (rsum 5 (fun j => Rsqr (parabola_height s i + slope * IZR (j - 2) + parabola_bend s i * Rsqr (IZR (j - 2)) - s (i + (j - 2))%Z))
   <= rsum 5 (fun j => Rsqr (c0 + c1 * IZR (j - 2) + c2 * Rsqr (IZR (j - 2)) - s (i + (j - 2))%Z)))%R.
Proof.
  exists ((- 2 * s (i - 2)%Z - s (i - 1)%Z + s (i + 1)%Z + 2 * s (i + 2)%Z) / 10)%R. intros c0 c1 c2. rewrite !rsum_5.
  change (0 - 2) with (-2). change (1 - 2) with (-1). change (2 - 2) with 0. change (3 - 2) with 1. change (4 - 2) with 2.
  replace (i + -2) with (i - 2) by lia. replace (i + -1) with (i - 1) by lia. rewrite Z.add_0_r. unfold parabola_height, parabola_bend.
  set (a := s (i - 2)). set (b := s (i - 1)). set (m := s i). set (d := s (i + 1)). set (e := s (i + 2)).
  set (h := ((-3 * a + 12 * b + 17 * m + 12 * d - 3 * e) / 35)%R). set (g := ((2 * a - b - 2 * m - d + 2 * e) / 14)%R).
  set (sl := ((-2 * a - b + d + 2 * e) / 10)%R). unfold Rsqr.
  match goal with |- (?L <= ?R)%R => assert (E : (R = L + (Rsqr (c0 - h - 2 * (c1 - sl) + 4 * (c2 - g)) + Rsqr (c0 - h - (c1 - sl) + (c2 - g)) + Rsqr (c0 - h)
    + Rsqr (c0 - h + (c1 - sl) + (c2 - g)) + Rsqr (c0 - h + 2 * (c1 - sl) + 4 * (c2 - g))))%R) end.
  { unfold Rsqr, h, g, sl. field. }
  rewrite E. pose proof (Rle_0_sqr (c0 - h - 2 * (c1 - sl) + 4 * (c2 - g))). pose proof (Rle_0_sqr (c0 - h - (c1 - sl) + (c2 - g))).
  pose proof (Rle_0_sqr (c0 - h)). pose proof (Rle_0_sqr (c0 - h + (c1 - sl) + (c2 - g))). pose proof (Rle_0_sqr (c0 - h + 2 * (c1 - sl) + 4 * (c2 - g))). lra.
Qed.
