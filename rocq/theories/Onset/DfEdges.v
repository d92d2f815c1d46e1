(** DFProcess with median windows as long as the data, or longer. *)
From Coq Require Import List ZArith Reals Lia Lra Bool.
From Verif.Base Require Import Imp Sums RealOps Loops.
From Verif.Signal Require Import FilterModel FilterSpec FilterProofs FiltFiltModel FiltFiltSpec FiltFiltProofs.
From Verif.Maths Require Import MedianSpec RealModel RealSpec RealProofs NormModel NormSpec NormProofs.
From Verif.Onset Require Import PeakModel PeakSpec PeakProofs DfResults PickResults.
Import ListNotations.
Open Scope Z_scope.

(** The first call, up to the median filter. *)
Lemma first_call n pre post alpha positive delta a b junk scratch src dst : accepted a b -> fir_or_order1 a b -> 1 <= n -> 1 <= alpha ->
  call_ok n scratch src dst ->
  exists o d r, dfp_new n a b pre post alpha positive delta junk = OK o /\ zlen d = n /\ zlen r = n /\ conditioned n alpha (zn 0%R src) (zn 0%R d) /\
    zero_phase 0%R 2%R Rplus Rminus Rmult a b d r /\
    df_length o = n /\ df_pre o = pre /\ df_post o = post /\ df_positive o = positive /\ df_delta o = delta /\
    forall out, median_filter o scratch r dst = OK out -> exists o', dfp_process o scratch src dst = OK (o', out).
Proof.
  intros Hab Hord Hn Ha (C1 & C2 & C3 & C4).
  destruct (filter_new_rep 0%R a b Hab) as (f & E & R). unfold dfp_new, filtfilt_new. rewrite E. ret. ret.
  eexists.
  destruct (remove_ok n alpha src (ztab n junk)) as (d & E1 & Ld & Cd); auto; try (zl; lia).
  assert (Hor : f_order f = zlen b - 1) by (destruct R as (_&_&_&H&_); exact H).
  destruct (filtfilt_process_spec 0%R 2%R Rplus Rminus Rmult a b {| ff_filter := f; ff_ord := f_order f |} [] [] d (ztab n junk)) as (ff' & y & z & E2 & Ly & S1 & S2 & O' & P'); auto.
  { eapply accepted_b; eauto. }
  { apply is_response_nil. }
  { zl. lia. }
  rewrite (skipn_all2 (ztab n junk)) in E2 by (pose proof (zlen_ztab n junk); unfold zlen in *; lia). rewrite app_nil_r in E2.
  assert (1 <= zlen b).
  { pose proof (accepted_b a b Hab) as Hb. clear - Hb. destruct b as [|b0 bt]; [congruence|]. rewrite zlen_cons. pose proof (zlen_nonneg bt). lia. }
  assert (Lz : zlen z = zlen d + 2 * (3 * (zlen b - 1))) by (destruct S2 as [S2 _]; rewrite S2; zl; lia).
  exists d, (firstn (length d) (skipn (Z.to_nat (3 * (zlen b - 1))) (rev z))).
  split; [reflexivity|]. cbn [df_length df_pre df_post df_positive df_delta]. splits; auto.
  - rewrite zlen_firstn, zlen_skipn, zlen_rev by lia. unfold zlen in *; lia.
  - exists y, z. auto.
  - intros out Em. unfold dfp_process; cbn [df_length df_alpha df_src df_filter df_dst].
    destruct (Z.eqb_spec n 0); [lia|]. rewrite E1. ret. rewrite Ld in E2. rewrite E2. ret. rewrite Em. ret. eexists; reflexivity.
Qed.

(** The last loop of the median filter. *)
Definition less (positive : bool) (delta v m : R) : R := let val := (v - m - delta)%R in if positive then Rmax 0 val else val.
Lemma subtract_ok o src s dst : zlen src = df_length o -> zlen s = df_length o -> df_length o <= zlen dst ->
  for_up 0 (df_length o) (fun i dst =>
    v <- aget src i ;; s <- aget s i ;;
    let val := (v - s - df_delta o)%R in
    if df_positive o then aset dst i (if Rltb 0 val then val else 0%R) else aset dst i val) dst =
  OK (ztab (df_length o) (fun i => less (df_positive o) (df_delta o) (zn 0%R src i) (zn 0%R s i)) ++ skipn (Z.to_nat (df_length o)) dst).
Proof.
  intros H1 H2 H3. pose proof (zlen_nonneg src). apply for_up_tab; [lia|]. intros i x Hi Lx _ _. rewrite !(aget_OK 0%R) by lia. ret. ret. cbv zeta. unfold less. cbv zeta.
  destruct (df_positive o); [|reflexivity]. set (val := (_ - _ - _)%R). unfold Rmax. destruct (Rltb_spec 0 val), (Rle_dec 0 val); try reflexivity; try lra.
  f_equal. lra.
Qed.

Section Edges.
  Variables (o : dfp) (scratch src dst : list R).
  Notation L := (df_length o).
  Notation P := (df_pre o).
  Notation Q := (df_post o).
  Hypothesis HL : 1 <= L.
  Hypothesis Hsc : zlen scratch = L.
  Hypothesis Hs : zlen src = L.
  Hypothesis Hd : L <= zlen dst.

  Definition result (m : Z -> R) : list R :=
    ztab L (fun i => less (df_positive o) (df_delta o) (zn 0%R src i) (m i)) ++ skipn (Z.to_nat L) dst.

  (** Loops that fill the medians at 0 .. hi-1 in turn. *)
  Definition filling (w : Z -> list R) (n : Z) (i : Z) (s : Z * list R * list R) : Prop :=
    let '(index, sc, y) := s in index = i /\ zlen sc = L /\ zlen y = n /\ (forall t, 0 <= t < i -> is_median (w t) (zn 0%R sc t)) /\
      forall t, i <= t -> zn 0%R sc t = zn 0%R scratch t.
  Lemma fill_one w n i (sc y : list R) m : 0 <= i < L -> filling w n i (i, sc, y) -> is_median (w i) m ->
    exists s, (sc <- aset sc i m ;; OK (i + 1, sc, y)) = OK s /\ filling w n (i + 1) s.
  Proof.
    intros Hi (_ & H1 & H2 & H3 & H4) Hm. rewrite aset_OK by lia. ret. eexists; split; [reflexivity|]. cbn. splits; [auto|zl; lia|auto| |].
    - intros t Ht. rewrite zn_upd by lia. destruct (Z.eqb_spec t i) as [->|]; [auto|]. apply H3. lia.
    - intros t Ht. rewrite zn_upd by lia. destruct (Z.eqb_spec t i) as [->|]; [lia|]. apply H4. lia.
  Qed.

  (** No values after: always right. *)
  Lemma none_after : L <= P -> Q = 0 -> exists m, median_filter o scratch src dst = OK (result m) /\ forall t, 0 <= t < L -> is_median (around L P Q (zn 0%R src) t) (m t).
  Proof.
    intros HP HQ. unfold median_filter. cbv zeta. rewrite HQ.
    match goal with |- context [for_up 0 P ?B ?S] => set (body := B); set (st := S) end.
    destruct (for_up_inv (filling (around L P 0 (zn 0%R src)) (P + 1)) 0 L body st) as (((ix & sc) & y) & E & I1 & I2 & I3 & I4 & I5); [lia| | |].
    { unfold st. cbn. splits; auto; [zl; lia|intros; lia]. }
    { intros i ((ix & sc) & y) Hi I. assert (I' := I). destruct I' as (I1 & I2 & I3 & I4 & I5). subst ix. unfold body. destruct (Z.leb_spec L i); [lia|].
      destruct (copy_front src y (i + 0 + 1)) as (y' & -> & Ly & Fy); [lia|lia|]. ret.
      destruct (median_of y' (i + 0 + 1) _ Fy) as (m & -> & Hm); [lia|]. ret.
      apply (fill_one _ (P + 1) i sc y' m); [lia|cbn; splits; auto; lia|].
      unfold around. replace (Z.max 0 (i - P)) with 0 by lia. replace (Z.min (L - 1) (i + 0)) with i by lia.
      replace (i - 0 + 1) with (i + 0 + 1) by lia. rewrite (ztab_ext _ _ (zn 0%R src)) by (intros; f_equal; lia). exact Hm. }
    assert (Skip : forall hi, L <= hi -> for_up L hi body (L, sc, y) = OK (L, sc, y)).
    { intros hi Hh. pattern hi. apply (Zlt_lower_bound_ind _ L); [|exact Hh]. clear hi Hh. intros hi IH Hh. destruct (Z.eq_dec hi L) as [->|]; [apply for_up_empty; lia|].
      replace hi with (hi - 1 + 1) by lia. rewrite for_up_last by lia. rewrite IH by lia. ret. unfold body. destruct (Z.leb_spec L L); [reflexivity|lia]. }
    subst ix. rewrite (for_up_split 0 L P) by lia. rewrite E. ret. rewrite Skip by lia. ret. rewrite for_up_empty by lia. ret. rewrite for_up_empty by lia. ret.
    rewrite subtract_ok by auto. exists (zn 0%R sc). split; [reflexivity|]. auto.
  Qed.

  (** Window and data equally long, values before and after: the median at position [pre] leaves out the first value. *)
  Definition around_but_first (t : Z) : list R := if t =? P then ztab (L - 1) (fun j => zn 0%R src (1 + j)) else around L P Q (zn 0%R src) t.
  Lemma equally_long : 1 <= P -> 1 <= Q -> P + Q = L -> exists m, median_filter o scratch src dst = OK (result m) /\ forall t, 0 <= t < L -> is_median (around_but_first t) (m t).
  Proof.
    intros HP HQ HL'. unfold median_filter. cbv zeta.
    match goal with |- context [for_up 0 P ?B ?S] => destruct (for_up_inv (filling around_but_first (P + Q + 1)) 0 P B S) as (((ix & sc) & y) & -> & I1 & I2 & I3 & I4 & I5); [lia| | |] end.
    { cbn. splits; auto; [zl; lia|intros; lia]. }
    { intros i ((ix & sc) & y) Hi I. assert (I' := I). destruct I' as (I1 & I2 & I3 & I4 & I5). subst ix. destruct (Z.leb_spec L i); [lia|].
      destruct (copy_front src y (i + Q + 1)) as (y' & -> & Ly & Fy); [lia|lia|]. ret.
      destruct (median_of y' (i + Q + 1) _ Fy) as (m & -> & Hm); [lia|]. ret.
      apply (fill_one _ (P + Q + 1) i sc y' m); [lia|cbn; splits; auto; lia|].
      unfold around_but_first. destruct (Z.eqb_spec i P); [lia|]. unfold around. replace (Z.max 0 (i - P)) with 0 by lia. replace (Z.min (L - 1) (i + Q)) with (i + Q) by lia.
      replace (i + Q - 0 + 1) with (i + Q + 1) by lia. rewrite (ztab_ext _ _ (zn 0%R src)) by (intros; f_equal; lia). exact Hm. }
    ret. subst ix. rewrite for_up_empty by lia. ret. replace (Z.max (L - Q) 1) with P by lia.
    match goal with |- context [for_up P L ?B ?S] => destruct (for_up_inv (filling around_but_first (P + Q + 1)) P L B S) as (((ix & sc') & y') & -> & J1 & J2 & J3 & J4 & J5); [lia| | |] end.
    { cbn. splits; auto. }
    { clear sc y I2 I3 I4 I5. intros i ((ix & sc) & y) Hi I. assert (I' := I). destruct I' as (I1 & I2 & I3 & I4 & I5). subst ix. destruct (Z.leb_spec L i); [lia|].
      set (k := Z.max (i - P) 1). assert (Hk : 1 <= k < L) by (unfold k; lia).
      destruct (copy_range src y k L) as (y' & -> & Ly & Fy); [lia|lia|lia|]. ret.
      destruct (median_of y' (L - k) _ Fy) as (m & -> & Hm); [lia|]. ret.
      apply (fill_one _ (P + Q + 1) i sc y' m); [lia|cbn; splits; auto; lia|].
      unfold around_but_first. destruct (Z.eqb_spec i P).
      - replace k with 1 in Hm by (unfold k; lia). exact Hm.
      - unfold around. replace (Z.max 0 (i - P)) with k by (unfold k; lia). replace (Z.min (L - 1) (i + Q)) with (L - 1) by lia.
        replace (L - 1 - k + 1) with (L - k) by lia. exact Hm. }
    ret. subst ix. rewrite subtract_ok by auto. exists (zn 0%R sc'). auto.
  Qed.

  (** No values before, and windows as long as the data or longer: the medians are those of the next position, and the
      last one is whatever the new array contained. *)
  Lemma none_before : P = 0 -> L <= Q -> exists m, median_filter o scratch src dst = OK (result m) /\ m (L - 1) = zn 0%R scratch (L - 1) /\
    forall t, 0 <= t < L - 1 -> is_median (around L P Q (zn 0%R src) (t + 1)) (m t).
  Proof.
    intros HP HQ. unfold median_filter. cbv zeta. rewrite HP. rewrite for_up_empty by lia. ret. rewrite for_up_empty by lia. ret. replace (Z.max (L - Q) 1) with 1 by lia.
    match goal with |- context [for_up 1 L ?B ?S] =>
      destruct (for_up_inv (fun i => filling (fun t => around L 0 Q (zn 0%R src) (t + 1)) (Q + 1) (i - 1)) 1 L B S) as (((ix & sc) & y) & -> & I1 & I2 & I3 & I4 & I5); [lia| | |] end.
    { cbn. splits; auto; [zl; lia|intros; lia]. }
    { intros i ((ix & sc) & y) Hi I. assert (I' := I). destruct I' as (I1 & I2 & I3 & I4 & I5). subst ix. destruct (Z.leb_spec L (i - 1)); [lia|].
      replace (Z.max (i - 0) 1) with i by lia.
      destruct (copy_range src y i L) as (y' & -> & Ly & Fy); [lia|lia|lia|]. ret.
      destruct (median_of y' (L - i) _ Fy) as (m & -> & Hm); [lia|]. ret. replace (i + 1 - 1) with (i - 1 + 1) by lia.
      apply (fill_one _ (Q + 1) (i - 1) sc y' m); [lia|cbn; splits; auto; lia|].
      unfold around. replace (Z.max 0 (i - 1 + 1 - 0)) with i by lia. replace (Z.min (L - 1) (i - 1 + 1 + Q)) with (L - 1) by lia.
      replace (L - 1 - i + 1) with (L - i) by lia. exact Hm. }
    ret. subst ix. rewrite subtract_ok by auto. exists (zn 0%R sc). splits; auto. apply I5. lia.
  Qed.
End Edges.

(** *** First calls *)
Section Calls.
  Variables (n pre post alpha : Z) (positive : bool) (delta : R) (a b : list R) (junk : Z -> R) (src dst : list R).
  Hypothesis Hab : accepted a b.
  Hypothesis Hord : fir_or_order1 a b.
  Hypothesis Hn : 1 <= n.
  Hypothesis Hal : 1 <= alpha.

  Lemma result_at o r t m : df_length o = n -> zlen r = n -> 0 <= t < n -> zn 0%R (result o r dst m) t = less (df_positive o) (df_delta o) (zn 0%R r t) (m t).
  Proof.
    intros H1 H2 Ht. unfold result. rewrite H1. rewrite zn_app by (zl; lia). rewrite zlen_ztab by lia. destruct (Z.ltb_spec t (Z.max 0 n)); [|lia]. now rewrite zn_ztab by lia.
  Qed.
  Lemma result_rest o r m : df_length o = n -> n <= zlen dst -> zlen (result o r dst m) = zlen dst /\ skipn (Z.to_nat n) (result o r dst m) = skipn (Z.to_nat n) dst.
  Proof.
    intros H1 H2. unfold result. rewrite H1. split; [zl; lia|]. rewrite skipn_app.
    match goal with |- context [ztab n ?f] => pose proof (zlen_ztab n f) as Lz; rewrite (skipn_all2 (ztab n f)) by (unfold zlen in *; lia);
      replace (Z.to_nat n - length (ztab n f))%nat with 0%nat by (unfold zlen in *; lia) end. reflexivity.
  Qed.

  Theorem smoothing_none_after scratch : call_ok n scratch src dst -> 0 <= pre -> post = 0 ->
    exists o o' out d r, dfp_new n a b pre post alpha positive delta junk = OK o /\ dfp_process o scratch src dst = OK (o', out) /\
      smoothing n pre post alpha positive delta src dst d r out /\ zero_phase 0%R 2%R Rplus Rminus Rmult a b d r.
  Proof.
    intros C HP HQ. destruct (Z_lt_le_dec pre n) as [S|G]; [apply smoothing_first; auto; lia|].
    destruct (first_call n pre post alpha positive delta a b junk scratch src dst Hab Hord Hn Hal C) as (o & d & r & E & Ld & Lr & Cd & Zp & H1 & H2 & H3 & H4 & H5 & Go).
    assert (C' := C). destruct C' as (C1 & C2 & C3 & C4).
    destruct (none_after o scratch r dst) as (m & Em & Hm); try lia. destruct (Go _ Em) as (o' & Eo).
    exists o, o', (result o r dst m), d, r. splits; auto. destruct (result_rest o r m H1 C3) as (R1 & R2).
    unfold smoothing. splits; auto. intros t Ht. exists (m t). rewrite H1, H2, H3 in Hm. split; [apply Hm; auto|].
    rewrite result_at by auto. rewrite H4, H5. reflexivity.
  Qed.

  (** Windows as long as the data: all medians are right but the one at position [pre]. *)
  Theorem smoothing_equally_long scratch : call_ok n scratch src dst -> 1 <= pre -> 1 <= post -> pre + post = n ->
    exists o o' out d r, dfp_new n a b pre post alpha positive delta junk = OK o /\ dfp_process o scratch src dst = OK (o', out) /\
      zlen d = n /\ zlen r = n /\ conditioned n alpha (zn 0%R src) (zn 0%R d) /\ zero_phase 0%R 2%R Rplus Rminus Rmult a b d r /\
      (forall t, 0 <= t < n -> exists m, is_median (if t =? pre then ztab (n - 1) (fun j => zn 0%R r (1 + j)) else around n pre post (zn 0%R r) t) m /\
         zn 0%R out t = (if positive then Rmax 0 (zn 0%R r t - m - delta) else zn 0%R r t - m - delta)%R) /\
      zlen out = zlen dst /\ skipn (Z.to_nat n) out = skipn (Z.to_nat n) dst.
  Proof.
    intros C HP HQ HL.
    destruct (first_call n pre post alpha positive delta a b junk scratch src dst Hab Hord Hn Hal C) as (o & d & r & E & Ld & Lr & Cd & Zp & H1 & H2 & H3 & H4 & H5 & Go).
    assert (C' := C). destruct C' as (C1 & C2 & C3 & C4).
    destruct (equally_long o scratch r dst) as (m & Em & Hm); try lia. destruct (Go _ Em) as (o' & Eo).
    exists o, o', (result o r dst m), d, r. splits; auto; try (apply result_rest; auto).
    intros t Ht. exists (m t). unfold around_but_first in Hm. rewrite H1, H2, H3 in Hm. split; [apply Hm; auto|].
    rewrite result_at by auto. rewrite H4, H5. reflexivity.
  Qed.

  (** No values before: every value can come out at the end. *)
  Theorem smoothing_uninitialised v : n <= zlen src -> n <= zlen dst -> (exists i, 0 <= i < n /\ zn 0%R src i <> 0%R) -> pre = 0 -> n <= post -> positive = false ->
    exists scratch o o' out, zlen scratch = n /\ dfp_new n a b pre post alpha positive delta junk = OK o /\ dfp_process o scratch src dst = OK (o', out) /\ zn 0%R out (n - 1) = v.
  Proof.
    intros C2 C3 C4 HP HQ Hp.
    destruct (first_call n pre post alpha positive delta a b junk (repeat 0%R (Z.to_nat n)) src dst Hab Hord Hn Hal) as (o & d & r & E & Ld & Lr & Cd & Zp & H1 & H2 & H3 & H4 & H5 & _).
    { unfold call_ok. splits; auto. zl. lia. }
    set (scratch := repeat (zn 0%R r (n - 1) - v - delta)%R (Z.to_nat n)). exists scratch.
    destruct (first_call n pre post alpha positive delta a b junk scratch src dst Hab Hord Hn Hal) as (o2 & d2 & r2 & E2 & Ld2 & Lr2 & Cd2 & Zp2 & _ & _ & _ & _ & _ & Go).
    { unfold call_ok. splits; auto. unfold scratch. zl. lia. }
    rewrite E in E2. injection E2 as <-.
    assert (r2 = r) as ->.
    { assert (d2 = d) as ->.
      { destruct Cd as (mn & N & Q1 & Q2 & Q3 & Q4), Cd2 as (mn2 & N2 & T1 & T2 & T3 & T4).
        assert (mn2 = mn) as -> by (eapply is_min_unique; eauto).
        assert (N2 = N) as -> by (eapply (mean_unique n alpha); eauto).
        apply (zn_ext 0%R); [lia|]. intros i Hi. rewrite Q4, T4 by lia. reflexivity. }
      destruct Zp as (y & z & P1 & P2 & P3), Zp2 as (y2 & z2 & T1 & T2 & T3).
      assert (y2 = y) as -> by (eapply response_unique; eauto). assert (z2 = z) as -> by (eapply response_unique; eauto). congruence. }
    destruct (none_before o scratch r dst) as (m & Em & Hm & _); try lia. { unfold scratch. zl. lia. }
    destruct (Go _ Em) as (o' & Eo). exists o, o', (result o r dst m). splits; auto. { unfold scratch. zl. lia. }
    rewrite result_at by (auto; lia). rewrite H1 in Hm. rewrite Hm, H4, H5, Hp. unfold less, scratch. rewrite zn_repeat_in by lia. ring.
  Qed.
End Calls.

(** *** The filter that changes nothing *)
Lemma response_identity x y : is_response 0%R Rplus Rminus Rmult [] [1%R] x y -> y = x.
Proof.
  intros (L & H). apply (zn_ext 0%R); [exact L|]. intros i Hi. rewrite H by (rewrite <- L; exact Hi).
  unfold diff_eq_at. change (zlen [1%R]) with 1. change 1 with (0 + 1). rewrite fsum_S by lia. unfold fsum. cbn -[zn Rmult]. replace (i - 0) with i by lia.
  change (zn 0%R [1%R] 0) with 1%R. ring.
Qed.
Lemma zero_phase_identity d r : zero_phase 0%R 2%R Rplus Rminus Rmult [] [1%R] d r -> r = d.
Proof.
  intros (y & z & A & B & ->). apply response_identity in A. apply response_identity in B. subst z. rewrite rev_involutive, A. change (3 * (zlen [1%R] - 1)) with 0.
  change (Z.to_nat 0) with 0%nat. cbn [skipn].
  assert (extended 0%R 2%R Rminus Rmult 0 d = d) as ->; [|apply firstn_all].
  unfold extended. apply (zn_ext 0%R); [rewrite zlen_ztab; pose proof (zlen_nonneg d); lia|]. rewrite zlen_ztab. intros i Hi. rewrite zn_ztab by lia. unfold reflect_at. replace (i - 0) with i by lia.
  destruct (Z.ltb_spec i 0); [lia|]. destruct (Z.ltb_spec i (zlen d)); [reflexivity|lia].
Qed.

Lemma median_single x m : is_median [x] m -> m = x.
Proof.
  intros (u & v & A & B & ->). unfold is_kth, count, zlen in *. cbn in A, B.
  destruct (Rltb_spec x u), (Rltb_spec u x); cbn in A; try lia. destruct (Rltb_spec x v), (Rltb_spec v x); cbn in B; try lia. lra.
Qed.
Lemma median_pair x y m : (x <= y)%R -> is_median [x; y] m -> m = ((x + y) / 2)%R.
Proof.
  intros H (u & v & A & B & ->). unfold is_kth, count, zlen in *. cbn in A, B. change (2 / 2) with 1 in A. change (1 / 2) with 0 in B.
  assert (u = y) by (destruct (Rltb_spec x u), (Rltb_spec u x), (Rltb_spec y u), (Rltb_spec u y); cbn in A; try lia; lra).
  assert (v = x) by (destruct (Rltb_spec x v), (Rltb_spec v x), (Rltb_spec y v), (Rltb_spec v y); cbn in B; try lia; lra).
  lra.
Qed.

(** Two values, one before and one after: the second value comes out as 0, though it exceeds the median by 1. *)
Theorem equally_long_refuted junk scratch : zlen scratch = 2 ->
  exists o o' out, dfp_new 2 [] [1%R] 1 1 1 false 0%R junk = OK o /\ dfp_process o scratch [0; 2]%R [0; 0]%R = OK (o', out) /\
    forall d r, zero_phase 0%R 2%R Rplus Rminus Rmult [] [1%R] d r -> ~ smoothing 2 1 1 1 false 0%R [0; 2]%R [0; 0]%R d r out.
Proof.
  intros Hsc.
  destruct (smoothing_equally_long 2 1 1 1 false 0%R [] [1%R] junk [0; 2]%R [0; 0]%R) with (scratch := scratch) as (o & o' & out & d & r & E & Eo & Ld & Lr & Cd & Zp & Hout & _); try lia.
  { left. split; [reflexivity|discriminate]. } { left. reflexivity. }
  { unfold call_ok. splits; try (cbn; lia); auto. exists 1. split; [lia|]. change (2%R <> 0%R). lra. }
  exists o, o', out. splits; auto. intros d2 r2 Z2 (L2 & Lr2 & _ & C2 & T2 & _).
  apply zero_phase_identity in Zp, Z2. subst r r2.
  assert (Val : forall d, conditioned 2 1 (zn 0%R [0; 2]%R) (zn 0%R d) -> zn 0%R d 0 = 0%R /\ zn 0%R d 1 = 2%R).
  { clear. intros d (mn & N & ((i & Hi & Ei) & Hmin) & (N0 & N1) & N2 & H).
    assert (mn = 0%R). { apply Rle_antisym; [apply (Hmin 0); lia|]. rewrite <- Ei. assert (i = 0 \/ i = 1) as [-> | ->] by lia; [change (0 <= 0)%R|change (0 <= 2)%R]; lra. }
    assert (N = 1%R). { change (Z.to_nat 1) with 1%nat in N1.
      assert (S : rsum 2 (fun i => Rabs (zn 0%R [0; 2]%R i) ^ 1)%R = 2%R).
      { change (rsum 2) with (rsum (0 + 1 + 1)). rewrite !rsum_S by lia. rewrite rsum_0 by lia. change (0 + Rabs 0 ^ 1 + Rabs 2 ^ 1 = 2)%R. rewrite Rabs_R0, (Rabs_pos_eq 2) by lra. lra. }
      rewrite S in N1. change (IZR 2) with 2%R in N1. lra. }
    subst. rewrite !H by lia. change (zn 0%R [0; 2]%R 0) with 0%R. change (zn 0%R [0; 2]%R 1) with 2%R. lra. }
  destruct (Val d Cd) as (V0 & V1). destruct (Val d2 C2) as (W0 & W1).
  destruct (Hout 1) as (m & M & O1); [lia|]. change (1 =? 1) with true in M. cbn iota in M.
  change (ztab (2 - 1) (fun j => zn 0%R d (1 + j))) with [zn 0%R d 1] in M. apply median_single in M.
  destruct (T2 1) as (m2 & M2 & O2); [lia|]. change (around 2 1 1 (zn 0%R d2) 1) with [zn 0%R d2 0; zn 0%R d2 1] in M2. rewrite W0, W1 in M2. apply median_pair in M2; [|lra].
  cbn iota in O1, O2. rewrite V1 in *. rewrite W1 in O2. lra.
Qed.
