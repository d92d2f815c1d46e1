(** PeakPicking objects. *)
From Coq Require Import List ZArith Reals Lia Lra Bool.
From Verif.Base Require Import Imp Sums RealOps Loops.
From Verif.Signal Require Import FilterModel FilterSpec FilterProofs FiltFiltModel FiltFiltSpec FiltFiltProofs.
From Verif.Maths Require Import MedianSpec RealModel RealSpec RealProofs NormModel NormSpec NormProofs.
From Verif.Onset Require Import PeakModel PeakSpec PeakProofs DfResults PickProofs.
Import ListNotations.
Open Scope Z_scope.

(** Objects a client can have: constructed, then used any number of times. *)
Section Run.
  Variables (n pre post alpha : Z) (delta qa qc : R) (a b : list R).
  Inductive pp_run : ppick -> Prop :=
  | pp_made junk o : pp_new n a b pre post alpha delta qa qc junk = OK o -> pp_run o
  | pp_used o scratch src len onsets o' src' onsets' : pp_run o -> call_ok n scratch src (pp_work o) -> len <= n ->
      pp_process o scratch src len onsets = OK (o', src', onsets') -> pp_run o'.
End Run.

Section Objects.
  Variables (n pre post alpha : Z) (delta qa qc : R) (a b : list R).
  Hypothesis Hab : accepted a b.
  Hypothesis Hord : fir_or_order1 a b.
  Hypothesis Hpre : 0 <= pre.
  Hypothesis Hpost : 0 <= post.
  Hypothesis Hn : pre + post < n.
  Hypothesis Hal : 1 <= alpha.

  Definition pp_ready (o : ppick) (xs ys : list R) : Prop :=
    pp_length o = n /\ pp_a o = qa /\ pp_c o = qc /\ zlen (pp_work o) = n /\ ready n pre post alpha false delta a b (pp_smooth o) xs ys.

  Lemma pp_new_ready junk : exists o, pp_new n a b pre post alpha delta qa qc junk = OK o /\ pp_ready o [] [].
  Proof.
    unfold pp_new. destruct (new_ready n pre post alpha false delta a b Hab Hpre Hpost Hn junk) as (s & -> & R). ret.
    eexists; split; [reflexivity|]. unfold pp_ready; cbn. splits; auto. zl. lia.
  Qed.

  Definition pp_effect (xs ys scratch src : list R) (len : Z) (src' : list R) (found : list Z) : Prop :=
    exists d r s, zlen d = n /\ zlen r = n /\ zlen s = n /\ conditioned n alpha (zn 0%R src) (zn 0%R d) /\ filtered_on a b xs ys d r /\
      thresholded n pre post false delta (zn 0%R r) (zn 0%R s) /\ src' = firstn (Z.to_nat len) s ++ skipn (Z.to_nat len) src /\
      increasing found /\ forall i, In i found <-> is_onset len qa qc (zn 0%R s) i.

  Lemma pp_call o xs ys scratch src len onsets : pp_ready o xs ys -> call_ok n scratch src (pp_work o) -> 4 <= len <= n ->
    exists o' src' found xs' ys', pp_process o scratch src len onsets = OK (o', src', onsets ++ found) /\ pp_ready o' xs' ys' /\
      pp_effect xs ys scratch src len src' found.
  Proof.
    intros (R1 & R2 & R3 & R4 & R5) C Hl.
    destruct (process_ready n pre post alpha false delta a b Hab Hord Hpre Hpost Hn Hal (pp_smooth o) xs ys scratch src (pp_work o) R5 C)
      as (s' & out & d & y & z & r & E & S & Ly & A & B & Er & R').
    destruct S as (S1 & S2 & S3 & S4 & S5 & S6).
    destruct (pp_process_ok o scratch src len onsets s' out) as (found & E2 & I & M); auto; [lia|destruct C; lia|].
    do 5 eexists; split; [exact E2|]. split.
    - unfold pp_ready; cbn. splits; eauto. lia.
    - exists d, r, out. splits; auto; [lia| |].
      + exists y, z. auto.
      + intros i. rewrite M, R2, R3. tauto.
  Qed.

  Lemma run_ready o : pp_run n pre post alpha delta qa qc a b o -> exists xs ys, resp a b xs ys /\ pp_ready o xs ys.
  Proof.
    induction 1 as [junk o E|o scratch src len onsets o' src' onsets' H (xs & ys & Hr & IH) C Hl E].
    - destruct (pp_new_ready junk) as (o' & E' & R). rewrite E in E'. injection E' as <-. exists [], []. split; auto. apply is_response_nil.
    - destruct (Z_lt_le_dec len 4) as [S|S].
      + rewrite pp_short in E by auto. injection E as <- <- <-. eauto.
      + destruct (pp_call o xs ys scratch src len onsets IH C) as (o2 & s2 & f2 & xs' & ys' & E' & R & _); [lia|].
        rewrite E in E'. injection E' as <- _ _. exists xs', ys'. split; auto. destruct R as (_ & _ & _ & _ & R). unfold ready in R. tauto.
  Qed.

  Theorem pp_onsets o scratch src len onsets : pp_run n pre post alpha delta qa qc a b o -> call_ok n scratch src (pp_work o) -> 4 <= len <= n ->
    exists o' src' found xs ys, pp_process o scratch src len onsets = OK (o', src', onsets ++ found) /\ pp_run n pre post alpha delta qa qc a b o' /\
      resp a b xs ys /\ pp_effect xs ys scratch src len src' found.
  Proof.
    intros H C Hl. destruct (run_ready o H) as (xs & ys & Hr & R).
    destruct (pp_call o xs ys scratch src len onsets R C Hl) as (o' & src' & found & xs' & ys' & E & R' & F).
    exists o', src', found, xs, ys. splits; auto. eapply pp_used; eauto. lia.
  Qed.

  Theorem pp_first junk scratch src len onsets : zlen scratch = n -> n <= zlen src -> (exists i, 0 <= i < n /\ zn 0%R src i <> 0%R) -> 4 <= len <= n ->
    exists o o' src' found, pp_new n a b pre post alpha delta qa qc junk = OK o /\ pp_process o scratch src len onsets = OK (o', src', onsets ++ found) /\
      pp_effect [] [] scratch src len src' found.
  Proof.
    intros H1 H2 H3 Hl. destruct (pp_new_ready junk) as (o & E & R).
    destruct (pp_call o [] [] scratch src len onsets R) as (o' & src' & found & xs' & ys' & E2 & R' & F); auto.
    { unfold call_ok. destruct R as (_ & _ & _ & R & _). splits; auto. lia. }
    exists o, o', src', found. splits; auto.
  Qed.

  Lemma pp_too_long o scratch src len onsets : pp_run n pre post alpha delta qa qc a b o -> call_ok n scratch src (pp_work o) -> 4 <= len -> n < len ->
    pp_process o scratch src len onsets = UB.
  Proof.
    intros H C H4 Hl. destruct (run_ready o H) as (xs & ys & _ & (R1 & R2 & R3 & R4 & R5)).
    destruct (process_ready n pre post alpha false delta a b Hab Hord Hpre Hpost Hn Hal (pp_smooth o) xs ys scratch src (pp_work o) R5 C)
      as (s' & out & d & y & z & r & E & (S1 & S2 & S3 & S4) & _).
    unfold pp_process. destruct (Z.ltb_spec len 4); [lia|]. rewrite E. ret.
    rewrite (for_up_split 0 (zlen out) len) by lia. rewrite collect_ok by lia. ret. rewrite for_up_first by lia. rewrite aget_UB by lia. reflexivity.
  Qed.

  Lemma minmax_short data k : 1 <= k -> zlen data < k -> getFrameMinMax data k = UB.
  Proof.
    intros Hk Hd. pose proof (zlen_nonneg data). unfold getFrameMinMax. destruct (Z.eqb_spec k 0); [lia|].
    destruct (Z.eq_dec (zlen data) 0) as [Z0|N0]; [rewrite aget_UB by lia; reflexivity|]. rewrite (aget_OK 0%R) by lia. ret.
    match goal with |- for_up 0 k ?B ?S = UB => set (body := B); set (st := S) end.
    rewrite (for_up_split 0 (zlen data) k) by lia.
    destruct (for_up_inv (fun _ _ => True) 0 (zlen data) body st) as ((mn & mx) & -> & _); [lia|exact I| |].
    { intros i (mn & mx) Hi _. unfold body. rewrite (aget_OK 0%R) by lia. ret. eexists; split; [reflexivity|exact I]. }
    ret. rewrite for_up_first by lia. unfold body at 1. rewrite aget_UB by lia. reflexivity.
  Qed.

  (** The object's configured length is read from the data, whatever len says. *)
  Lemma pp_short_data o scratch src len onsets : pp_run n pre post alpha delta qa qc a b o -> 4 <= len -> zlen src < n ->
    pp_process o scratch src len onsets = UB.
  Proof.
    intros H H4 Hs. destruct (run_ready o H) as (xs & ys & _ & (R1 & R2 & R3 & R4 & (Q1 & _))).
    unfold pp_process. destruct (Z.ltb_spec len 4); [lia|]. unfold dfp_process. rewrite Q1. destruct (Z.eqb_spec n 0); [lia|].
    unfold remove_dc_normalize. rewrite minmax_short by lia. reflexivity.
  Qed.
End Objects.

(** *** Scaling *)
Lemma is_min_unique n f u v : is_min n f u -> is_min n f v -> u = v.
Proof.
  intros ((i & Hi & Ei) & A) ((j & Hj & Ej) & B). apply Rle_antisym; [rewrite <- Ej; auto|rewrite <- Ei; auto].
Qed.
Lemma is_min_scale n f m c : (0 < c)%R -> is_min n f m -> is_min n (fun i => c * f i)%R (c * m)%R.
Proof. intros Hc ((i & Hi & Ei) & A). split; [exists i; split; auto; now rewrite Ei|]. intros j Hj. apply Rmult_le_compat_l; [lra|auto]. Qed.

Lemma zn_scale c src i : zn 0%R (map (Rmult c) src) i = (c * zn 0 src i)%R.
Proof.
  destruct (Z_lt_le_dec i 0) as [H|H]; [rewrite !zn_out by lia; ring|]. destruct (Z_lt_le_dec i (zlen src)) as [H2|H2].
  - rewrite (zn_map _ 0%R) by lia. reflexivity.
  - rewrite !zn_out by (rewrite ?zlen_map; lia). ring.
Qed.

Lemma is_min_ext n f g m : (forall i, 0 <= i < n -> f i = g i) -> is_min n f m -> is_min n g m.
Proof. intros H ((i & Hi & Ei) & A). split; [exists i; split; auto; now rewrite <- H|]. intros j Hj. rewrite <- H by auto. auto. Qed.
Lemma mean_ext n p f g m : (forall i, 0 <= i < n -> f i = g i) -> is_power_mean n p f m -> is_power_mean n p g m.
Proof. intros H (A & B). split; auto. rewrite B. apply rsum_ext. intros. now rewrite H. Qed.

Lemma remove_scale n alpha c src dst : (0 < c)%R -> 1 <= alpha -> 1 <= n ->
  remove_dc_normalize n alpha (map (Rmult c) src) dst = remove_dc_normalize n alpha src dst.
Proof.
  intros Hc Ha Hn. unfold remove_dc_normalize. destruct (Z_lt_le_dec (zlen src) n) as [S|S].
  { rewrite !minmax_short by (rewrite ?zlen_map; lia). reflexivity. }
  assert (Lm : zlen (map (Rmult c) src) = zlen src) by apply zlen_map.
  destruct (minmax_spec src n) as (mn & mx & -> & Hmn & _); [lia|]. destruct (minmax_spec (map (Rmult c) src) n) as (mn' & mx' & -> & Hmn' & _); [lia|]. cbn [bind].
  destruct (alpha_norm_ok src n alpha Ha) as (N & -> & HN); [lia|]. destruct (alpha_norm_ok (map (Rmult c) src) n alpha Ha) as (N' & -> & HN'); [lia|]. cbn [bind].
  assert (mn' = (c * mn)%R) as ->.
  { eapply is_min_unique; [exact Hmn'|]. eapply is_min_ext; [|apply (is_min_scale n _ mn c Hc Hmn)]. intros. cbv beta. now rewrite zn_scale. }
  assert (N' = (c * N)%R) as ->.
  { eapply (mean_unique n alpha); [auto|lia|exact HN'|]. eapply mean_ext; [|pose proof (mean_scale n alpha _ N c HN) as M; rewrite Rabs_pos_eq in M by lra; exact M]. intros. cbv beta. now rewrite zn_scale. }
  destruct (Reqb_spec N 0) as [->|N0]; [rewrite Rmult_0_r; destruct (Reqb_spec 0 0); [reflexivity|lra]|].
  destruct (Reqb_spec (c * N) 0) as [E|_]; [exfalso; apply Rmult_integral in E; lra|].
  apply for_up_ext. intros i s Hi. rewrite !(aget_OK 0%R) by lia. cbn [bind]. rewrite zn_scale. f_equal. field. split; [auto|lra].
Qed.

Theorem dfp_scale o scratch c src dst : (0 < c)%R -> 1 <= df_alpha o -> 1 <= df_length o ->
  dfp_process o scratch (map (Rmult c) src) dst = dfp_process o scratch src dst.
Proof. intros Hc Ha Hn. unfold dfp_process. rewrite remove_scale by auto. reflexivity. Qed.

Lemma write_all (m src : list R) : zlen m <= zlen src ->
  for_up 0 (zlen m) (fun b src => v <- aget m b ;; aset src b v) src = OK (m ++ skipn (length m) src).
Proof.
  intros H. pose proof (zlen_nonneg m). rewrite (for_up_set (zlen m) (fun b => aget m b) (zn 0%R m)) by (auto; intros; apply aget_OK; lia).
  f_equal. f_equal; [|f_equal; unfold zlen; lia]. apply (zn_ext 0%R); [zl; lia|]. intros i Hi. rewrite zlen_ztab in Hi. now rewrite zn_ztab by lia.
Qed.

Theorem pp_scale n pre post alpha delta qa qc a b o scratch c src len onsets :
  accepted a b -> fir_or_order1 a b -> 0 <= pre -> 0 <= post -> pre + post < n -> 1 <= alpha ->
  pp_run n pre post alpha delta qa qc a b o -> call_ok n scratch src (pp_work o) -> 4 <= len <= n -> (0 < c)%R ->
  exists o' s onsets', zlen s = len /\
    pp_process o scratch src len onsets = OK (o', s ++ skipn (Z.to_nat len) src, onsets') /\
    pp_process o scratch (map (Rmult c) src) len onsets = OK (o', s ++ skipn (Z.to_nat len) (map (Rmult c) src), onsets').
Proof.
  intros Hab Hord Hpre Hpost Hn Hal H C Hl Hc.
  destruct (run_ready n pre post alpha delta qa qc a b Hab Hord Hpre Hpost Hn Hal o H) as (xs & ys & _ & (R1 & R2 & R3 & R4 & R5)).
  destruct (process_ready n pre post alpha false delta a b Hab Hord Hpre Hpost Hn Hal (pp_smooth o) xs ys scratch src (pp_work o) R5 C)
    as (s' & out & d & y & z & r & E & (S1 & S2 & S3 & S4) & _).
  assert (E' : dfp_process (pp_smooth o) scratch (map (Rmult c) src) (pp_work o) = OK (s', out)).
  { rewrite dfp_scale; auto; destruct R5 as (Q1 & _ & _ & Q4 & _); lia. }
  destruct C as (C1 & C2 & _).
  destruct (quad_eval_ok (pp_a o) (pp_c o) (firstn (Z.to_nat len) out) onsets) as (found & Q & _).
  assert (G : forall sr, n <= zlen sr -> dfp_process (pp_smooth o) scratch sr (pp_work o) = OK (s', out) ->
    pp_process o scratch sr len onsets = OK ({| pp_length := pp_length o; pp_a := pp_a o; pp_c := pp_c o; pp_work := out; pp_smooth := s' |}, firstn (Z.to_nat len) out ++ skipn (Z.to_nat len) sr, onsets ++ found)).
  { intros sr Lsr Er. unfold pp_process. destruct (Z.ltb_spec len 4); [lia|]. rewrite Er. ret. rewrite collect_ok by lia. ret. rewrite Q. ret.
    assert (Lf : zlen (firstn (Z.to_nat len) out) = len) by (zl; lia).
    rewrite write_all by lia. ret. replace (length (firstn (Z.to_nat len) out)) with (Z.to_nat len) by (unfold zlen in Lf; lia). reflexivity. }
  do 3 eexists. split; [|split; apply G]; auto; [zl; lia|rewrite zlen_map; lia].
Qed.
