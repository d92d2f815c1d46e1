(** DFProcess objects. *)
From Coq Require Import List ZArith Reals Lia Lra Bool.
From Verif.Base Require Import Imp Sums RealOps Loops.
From Verif.Signal Require Import FilterModel FilterSpec FilterProofs FiltFiltModel FiltFiltSpec FiltFiltProofs.
From Verif.Maths Require Import MedianSpec RealModel RealSpec RealProofs NormModel NormSpec NormProofs.
From Verif.Onset Require Import PeakModel PeakSpec PeakProofs.
Import ListNotations.
Open Scope Z_scope.

Notation resp := (is_response 0%R Rplus Rminus Rmult).
Notation ext := (extended 0%R 2%R Rminus Rmult).

Lemma remove_ok n alpha src dst : 1 <= alpha -> 1 <= n <= zlen src -> zlen dst = n -> (exists i, 0 <= i < n /\ zn 0%R src i <> 0%R) ->
  exists d, remove_dc_normalize n alpha src dst = OK d /\ zlen d = n /\ conditioned n alpha (zn 0%R src) (zn 0%R d).
Proof.
  intros Ha Hn Hd (k & Hk & Nk). unfold remove_dc_normalize.
  destruct (minmax_spec src n Hn) as (mn & mx & -> & Hmn & _). ret.
  destruct (alpha_norm_ok src n alpha Ha Hn) as (N & -> & HN). ret.
  destruct (Reqb_spec N 0) as [Z0|N0].
  { exfalso. apply Nk. apply (proj1 (mean_zero_iff n alpha (zn 0%R src) N Ha ltac:(lia) HN) Z0). auto. }
  match goal with |- context [for_up 0 n ?b ?l] =>
    assert (FE : for_up 0 n b l = OK (ztab n (fun i => (zn 0 src i - mn) / N)%R ++ skipn (Z.to_nat n) l)) end.
  { apply for_up_tab; [lia|]. intros i s Hi Ls _ _. rewrite (aget_OK 0%R) by lia. reflexivity. }
  rewrite FE. rewrite skipn_all2 by (unfold zlen in Hd; lia). rewrite app_nil_r. eexists; split; [reflexivity|]. split; [zl; lia|].
  exists mn, N. splits; auto. intros i Hi. now rewrite zn_ztab.
Qed.

Section Objects.
  Variables (n pre post alpha : Z) (positive : bool) (delta : R) (a b : list R).
  Hypothesis Hab : accepted a b.
  Hypothesis Hord : fir_or_order1 a b.
  Hypothesis Hpre : 0 <= pre.
  Hypothesis Hpost : 0 <= post.
  Hypothesis Hn : pre + post < n.
  Hypothesis Hal : 1 <= alpha.

  Definition ready (o : dfp) (xs ys : list R) : Prop :=
    df_length o = n /\ df_pre o = pre /\ df_post o = post /\ df_alpha o = alpha /\ df_positive o = positive /\ df_delta o = delta /\
    zlen (df_src o) = n /\ zlen (df_dst o) = n /\ ff_ord (df_filter o) = zlen b - 1 /\
    rep 0%R a b (ff_filter (df_filter o)) xs ys /\ resp a b xs ys.

  Lemma new_ready junk : exists o, dfp_new n a b pre post alpha positive delta junk = OK o /\ ready o [] [].
  Proof.
    destruct (filter_new_rep 0%R a b Hab) as (f & E & R). unfold dfp_new, filtfilt_new. rewrite E. ret. ret.
    eexists; split; [reflexivity|]. unfold ready; cbn. splits; auto; try (zl; lia).
    - destruct R as (_ & _ & _ & H & _). exact H.
    - apply is_response_nil.
  Qed.

  (** What is required of a call. *)
  Definition call_ok (scratch src dst : list R) : Prop :=
    zlen scratch = n /\ n <= zlen src /\ n <= zlen dst /\ exists i, 0 <= i < n /\ zn 0%R src i <> 0%R.

  Lemma process_ready o xs ys scratch src dst : ready o xs ys -> call_ok scratch src dst ->
    exists o' out d y z r, dfp_process o scratch src dst = OK (o', out) /\ smoothing n pre post alpha positive delta src dst d r out /\
      zlen y = zlen d + 2 * (3 * (zlen b - 1)) /\ resp a b (xs ++ ext (3 * (zlen b - 1)) d) (ys ++ y) /\ resp a b (rev y) z /\
      r = firstn (length d) (skipn (Z.to_nat (3 * (zlen b - 1))) (rev z)) /\ ready o' (rev y) z.
  Proof.
    intros (R1 & R2 & R3 & R4 & R5 & R6 & R7 & R8 & R9 & R10 & R11) (C1 & C2 & C3 & C4). unfold dfp_process.
    rewrite R1. destruct (Z.eqb_spec n 0); [lia|]. rewrite R4.
    destruct (remove_ok n alpha src (df_src o)) as (d & -> & Ld & Cd); auto; [lia|]. ret.
    destruct (filtfilt_process_spec 0%R 2%R Rplus Rminus Rmult a b (df_filter o) xs ys d (df_dst o)) as (ff' & y & z & E & Ly & S1 & S2 & O' & P'); auto.
    { eapply accepted_b; eauto. }
    { lia. }
    rewrite Ld in E. rewrite E. ret. clear E.
    rewrite (skipn_all2 (df_dst o)) by (unfold zlen in *; lia). rewrite app_nil_r.
    set (r := firstn (length d) (skipn (Z.to_nat (3 * (zlen b - 1))) (rev z))).
    assert (1 <= zlen b).
    { pose proof (accepted_b a b Hab) as Hb. destruct b; [congruence|]. zl. pose proof (zlen_nonneg l). lia. }
    assert (Lz : zlen z = zlen d + 2 * (3 * (zlen b - 1))) by (destruct S2 as [S2 _]; rewrite S2; zl; lia).
    assert (Lr : zlen r = n) by (unfold r; zl; unfold zlen in *; lia).
    destruct (median_filter_ok o scratch r dst) as (g & -> & T); try lia. ret. rewrite R1, R2, R3, R5, R6 in *.
    do 6 eexists; split; [reflexivity|]. split.
    { unfold smoothing. splits; [exact Ld|exact Lr| |exact Cd| |].
      - zl. lia.
      - intros t Ht. destruct (T t Ht) as (m & M1 & M2). exists m. split; [exact M1|]. rewrite <- M2. rewrite zn_app by (zl; lia). 
        rewrite (zlen_ztab n g) by lia. destruct (Z.ltb_spec t (Z.max 0 n)); [|lia]. apply zn_ztab. lia.
      - rewrite skipn_app. rewrite skipn_all2 by (pose proof (zlen_ztab n g); unfold zlen in *; lia).
        replace (Z.to_nat n - length (ztab n g))%nat with 0%nat by (pose proof (zlen_ztab n g); unfold zlen in *; lia). reflexivity. }
    splits; [exact Ly|exact S1|exact S2|reflexivity|]. unfold ready; cbn. splits; auto.
  Qed.

  Lemma calls_ready calls : forall o xs ys, ready o xs ys -> (forall scratch src dst, In (scratch, src, dst) calls -> call_ok scratch src dst) ->
    exists outs ds rs, dfp_calls o calls = OK outs /\ smoothings n pre post alpha positive delta calls ds rs outs /\
      chained 0%R 2%R Rplus Rminus Rmult a b xs ys ds rs.
  Proof.
    induction calls as [|((scratch & src) & dst) calls IH]; intros o xs ys R C.
    - exists [], [], []. splits; cbn; auto.
    - destruct (process_ready o xs ys scratch src dst R) as (o' & out & d & y & z & r & E & S & Ly & A & B & Er & R'); [apply C; now left|].
      destruct (IH o' (rev y) z R') as (outs & ds & rs & E2 & S2 & Ch); [intros; apply C; now right|].
      exists (out :: outs), (d :: ds), (r :: rs). cbn [dfp_calls]. rewrite E. ret. rewrite E2. ret. splits; [reflexivity|cbn; auto|].
      cbn [chained]. exists y, z. splits; auto.
  Qed.

  Theorem smoothing_calls junk calls : (forall scratch src dst, In (scratch, src, dst) calls -> call_ok scratch src dst) ->
    exists o outs ds rs, dfp_new n a b pre post alpha positive delta junk = OK o /\ dfp_calls o calls = OK outs /\
      smoothings n pre post alpha positive delta calls ds rs outs /\ chained 0%R 2%R Rplus Rminus Rmult a b [] [] ds rs.
  Proof.
    intros C. destruct (new_ready junk) as (o & E & R). destruct (calls_ready calls o [] [] R C) as (outs & ds & rs & E2 & S & Ch).
    exists o, outs, ds, rs. auto.
  Qed.

  Theorem smoothing_first junk scratch src dst : call_ok scratch src dst ->
    exists o o' out d r, dfp_new n a b pre post alpha positive delta junk = OK o /\ dfp_process o scratch src dst = OK (o', out) /\
      smoothing n pre post alpha positive delta src dst d r out /\ zero_phase 0%R 2%R Rplus Rminus Rmult a b d r.
  Proof.
    intros C. destruct (new_ready junk) as (o & E & R).
    destruct (process_ready o [] [] scratch src dst R C) as (o' & out & d & y & z & r & E2 & S & Ly & A & B & Er & R').
    exists o, o', out, d, r. splits; auto. exists y, z. auto.
  Qed.
End Objects.

(** *** Windows longer than the data *)
Lemma median_overrun o scratch src dst : 1 <= df_pre o -> 1 <= df_post o -> 1 <= df_length o < df_pre o + df_post o ->
  zlen scratch = df_length o -> zlen src = df_length o -> median_filter o scratch src dst = UB.
Proof.
  intros HP HQ HL Hsc Hs. unfold median_filter. cbv zeta. set (L := df_length o) in *. set (P := df_pre o) in *. set (Q := df_post o) in *.
  match goal with |- context [for_up 0 P ?B ?S] => assert (U : for_up 0 P B S = UB) end.
  { set (k := Z.max 0 (L - Q)).
    match goal with |- for_up 0 P ?B ?S = UB => set (body := B); set (st := S) end.
    rewrite (for_up_split 0 k P) by (unfold k; lia).
    destruct (for_up_inv (fun i (s : Z * list R * list R) => let '(ix, sc, y) := s in ix = i /\ zlen sc = L /\ zlen y = P + Q + 1) 0 k body st)
      as (((ix & sc) & y) & -> & I1 & I2 & I3); [unfold k; lia| | |].
    { cbn. splits; auto. zl. lia. }
    { intros i ((ix & sc) & y) Hi (I1 & I2 & I3). subst ix. unfold body. destruct (Z.leb_spec L i); [unfold k in *; lia|].
      destruct (copy_front src y (i + Q + 1)) as (y' & -> & Ly & Fy); [unfold k in *; lia|unfold k in *; lia|]. ret.
      destruct (median_of y' (i + Q + 1) _ Fy) as (m & -> & Hm); [unfold k in *; lia|]. ret. rewrite aset_OK by (unfold k in *; lia). ret.
      eexists; split; [reflexivity|]. cbv beta iota. splits; auto; zl; lia. }
    subst ix. ret. rewrite for_up_first by (unfold k; lia). unfold body at 1. destruct (Z.leb_spec L k); [unfold k in *; lia|].
    match goal with |- context [for_up 0 (k + Q + 1) ?B ?S] => assert (U : for_up 0 (k + Q + 1) B S = UB) end.
    { rewrite (for_up_split 0 L (k + Q + 1)) by (unfold k in *; lia).
      destruct (copy_front src y L) as (y' & -> & Ly & Fy); [unfold k in *; lia|lia|]. ret. rewrite for_up_first by (unfold k; lia).
      rewrite (aget_UB src L) by lia. reflexivity. }
    rewrite U. reflexivity. }
  rewrite U. reflexivity.
Qed.

Theorem smoothing_overrun n pre post alpha positive delta a b junk scratch src dst :
  accepted a b -> fir_or_order1 a b -> 1 <= pre -> 1 <= post -> 1 <= n < pre + post -> 1 <= alpha ->
  zlen scratch = n -> n <= zlen src -> (exists i, 0 <= i < n /\ zn 0%R src i <> 0%R) ->
  exists o, dfp_new n a b pre post alpha positive delta junk = OK o /\ dfp_process o scratch src dst = UB.
Proof.
  intros Hab Hord HP HQ Hn Ha Hsc Hs Hz.
  destruct (filter_new_rep 0%R a b Hab) as (f & E & R). unfold dfp_new, filtfilt_new. rewrite E. ret. ret.
  eexists; split; [reflexivity|]. unfold dfp_process; cbn [df_length df_alpha df_src df_filter df_dst].
  destruct (Z.eqb_spec n 0); [lia|].
  destruct (remove_ok n alpha src (ztab n junk)) as (d & -> & Ld & Cd); auto; [lia|zl; lia|]. ret.
  assert (Hor : f_order f = zlen b - 1) by (destruct R as (_&_&_&H&_); exact H).
  destruct (filtfilt_process_spec 0%R 2%R Rplus Rminus Rmult a b {| ff_filter := f; ff_ord := f_order f |} [] [] d (ztab n junk)) as (ff' & y & z & E2 & Ly & S1 & S2 & O' & P'); auto.
  { eapply accepted_b; eauto. }
  { apply is_response_nil. }
  { zl. lia. }
  rewrite Ld in E2. rewrite E2. ret. clear E2.
  rewrite (skipn_all2 (ztab n junk)) by (pose proof (zlen_ztab n junk); unfold zlen in *; lia). rewrite app_nil_r.
  assert (1 <= zlen b).
  { pose proof (accepted_b a b Hab) as Hb. clear - Hb. destruct b as [|b0 bt]; [congruence|]. rewrite zlen_cons. pose proof (zlen_nonneg bt). lia. }
  assert (Lz : zlen z = zlen d + 2 * (3 * (zlen b - 1))) by (destruct S2 as [S2 _]; rewrite S2; zl; lia).
  rewrite median_overrun; [reflexivity|cbn [df_length df_pre df_post]; try lia..]. rewrite zlen_firstn, zlen_skipn, zlen_rev by lia. unfold zlen in *; lia.
Qed.
