(** DFProcess and PeakPicking objects given detection functions that may be zero throughout. *)
From Coq Require Import List ZArith Reals Lia Lra Bool.
From Verif.Base Require Import Imp Sums RealOps Loops Xreal Images.
From Verif.Signal Require Import FilterModel FilterSpec FilterProofs FiltFiltModel FiltFiltSpec FiltFiltProofs FilterImage.
From Verif.Maths Require Import MedianSpec RealModel RealSpec RealProofs NormModel NormSpec NormProofs.
From Verif.Onset Require Import PeakModel PeakSpec PeakProofs DfResults PickProofs PickResults DfxModel DfxProofs.
Import ListNotations.
Open Scope Z_scope.

(** *** What is said *)
(** The first n values are all zero. *)
Definition silent (n : Z) (src : list R) : Prop := forall i, 0 <= i < n -> zn 0%R src i = 0%R.
Lemma silent_dec n src : silent n src \/ exists i, 0 <= i < n /\ zn 0%R src i <> 0%R.
Proof.
  destruct (Z_lt_le_dec n 0). { left. intros i Hi. lia. }
  unfold silent. pattern n. apply natlike_ind; [| |lia].
  - left. intros i Hi. lia.
  - intros x Hx [IH|(i & Hi & N)]; [|right; exists i; split; [lia|auto]].
    destruct (Reqb_spec (zn 0%R src x) 0) as [E|N]; [left|right; exists x; split; [lia|auto]].
    intros i Hi. destruct (Z.eq_dec i x) as [->|]; [auto|apply IH; lia].
Qed.

(** One call: the uninitialised scratch array, the data and the buffer for the result. *)
Definition call : Type := (list R * list R * list xr)%type.
Definition sized (n : Z) (c : call) : Prop := let '(scratch, src, dst) := c in zlen scratch = n /\ n <= zlen src /\ n <= zlen dst.
Definition quiet (n : Z) (c : call) : Prop := let '(_, src, _) := c in silent n src.
(** The first n places of the buffer replaced by values. *)
Definition filled (n : Z) (c : call) (vs : list xr) : list xr := let '(_, _, dst) := c in vs ++ skipn (Z.to_nat n) dst.
(** The same call in real arithmetic, into a buffer of n zeros. *)
Definition real_call (n : Z) (c : call) : list R * list R * list R := let '(scratch, src, _) := c in (scratch, src, repeat 0%R (Z.to_nat n)).

Section Objects.
  Variables (n pre post alpha : Z) (positive : bool) (delta : R) (a b : list R).
  Hypothesis Hlen : zlen a = zlen b.
  Hypothesis Hord : 2 <= zlen b.
  Hypothesis Hpre : 0 <= pre.
  Hypothesis Hpost : 0 <= post.
  Hypothesis Hn : pre + post < n.
  Hypothesis Hal : 1 <= alpha.
  Notation isready := (ready n pre post alpha positive delta a b).
  Notation isnumb := (numb n pre post alpha positive delta a b).

  Lemma calls_numb calls : forall x, isnumb x -> (forall c, In c calls -> sized n c) ->
    dfx_calls x calls = OK (map (fun c => filled n c (repeat (blank positive) (Z.to_nat n))) calls).
  Proof.
    induction calls as [|((scratch & src) & dst) calls IH]; intros x Hx Hc; cbn [dfx_calls map]; [reflexivity|].
    destruct (Hc (scratch, src, dst)) as (C1 & C2 & C3); [now left|].
    destruct (numb_call n pre post alpha positive delta a b) with (x := x) (scratch := scratch) (src := src) (dst := dst) as (x' & -> & Hx'); auto.
    ret. rewrite IH; auto. intros; apply Hc; now right.
  Qed.

  Lemma calls_quiet calls x : isnumb x \/ (exists o xs ys, x = lift o /\ isready o xs ys) -> (forall c, In c calls -> sized n c) ->
    match calls with [] => True | c :: _ => quiet n c end ->
    dfx_calls x calls = OK (map (fun c => filled n c (repeat (blank positive) (Z.to_nat n))) calls).
  Proof.
    intros [H|(o & xs & ys & -> & R)] Hc Hq; [apply calls_numb; auto|]. destruct calls as [|((scratch & src) & dst) calls]; [reflexivity|].
    destruct (Hc (scratch, src, dst)) as (C1 & C2 & C3); [now left|].
    cbn [dfx_calls map]. destruct (silent_call n pre post alpha positive delta a b) with (o := o) (xs := xs) (ys := ys) (scratch := scratch) (src := src) (dst := dst) as (x' & -> & Hx'); auto.
    ret. rewrite calls_numb; auto. intros; apply Hc; now right.
  Qed.

  Lemma calls_before calls1 : forall o xs ys calls2, isready o xs ys -> (forall c, In c (calls1 ++ calls2) -> sized n c) ->
    (forall c, In c calls1 -> ~ quiet n c) -> match calls2 with [] => True | c :: _ => quiet n c end ->
    exists outs, dfp_calls o (map (real_call n) calls1) = OK outs /\ length outs = length calls1 /\
      dfx_calls (lift o) (calls1 ++ calls2) =
        OK (map (fun q => filled n (fst q) (map Fin (snd q))) (combine calls1 outs) ++ map (fun c => filled n c (repeat (blank positive) (Z.to_nat n))) calls2).
  Proof.
    induction calls1 as [|((scratch & src) & dst) calls1 IH]; intros o xs ys calls2 R Hc Hs Hq.
    - exists []. cbn [map dfp_calls app combine length]. split; [reflexivity|]. split; [reflexivity|]. apply calls_quiet; auto. right. eauto.
    - destruct (Hc (scratch, src, dst)) as (C1 & C2 & C3); [now left|].
      destruct (normal_call n pre post alpha positive delta a b) with (o := o) (xs := xs) (ys := ys) (scratch := scratch) (src := src) (dst := dst)
        as (o' & out & d & y & z & r & E1 & E2 & _ & _ & _ & _ & _ & R'); auto.
      { unfold call_ok; splits; auto; [zl; lia|]. destruct (silent_dec n src) as [S|S]; [|exact S]. exfalso. apply (Hs (scratch, src, dst)); [now left|exact S]. }
      destruct (IH o' (rev y) z calls2 R') as (outs & F1 & F2 & F3); auto; [intros; apply Hc; now right|intros; apply Hs; now right|].
      exists (out :: outs). cbn [map dfp_calls real_call app dfx_calls]. rewrite E2. ret. rewrite F1. ret. split; [reflexivity|].
      split; [cbn; lia|]. rewrite E1. ret. rewrite F3. ret. reflexivity.
  Qed.

  Theorem dfx_history junk calls1 calls2 : (forall c, In c (calls1 ++ calls2) -> sized n c) ->
    (forall c, In c calls1 -> ~ quiet n c) -> match calls2 with [] => True | c :: _ => quiet n c end ->
    exists x outs ds rs, dfx_new n a b pre post alpha positive delta junk = OK x /\ length outs = length calls1 /\
      smoothings n pre post alpha positive delta (map (real_call n) calls1) ds rs outs /\ chained 0%R 2%R Rplus Rminus Rmult a b [] [] ds rs /\
      dfx_calls x (calls1 ++ calls2) =
        OK (map (fun q => filled n (fst q) (map Fin (snd q))) (combine calls1 outs) ++ map (fun c => filled n c (repeat (blank positive) (Z.to_nat n))) calls2).
  Proof.
    intros Hc Hs Hq.
    assert (Hab : accepted a b) by (right; split; [destruct a; [cbn in Hlen; lia|discriminate]|exact Hlen]).
    assert (Hfo : fir_or_order1 a b) by (right; lia).
    destruct (new_ready n pre post alpha positive delta a b Hab Hpre Hpost Hn junk) as (o & E & R).
    destruct (calls_before calls1 o [] [] calls2 R Hc Hs Hq) as (outs & F1 & F2 & F3).
    destruct (smoothing_calls n pre post alpha positive delta a b Hab Hfo Hpre Hpost Hn Hal junk (map (real_call n) calls1)) as (o2 & outs2 & ds & rs & E2 & G1 & G2 & G3).
    { intros scratch src dst Hin. apply in_map_iff in Hin. destruct Hin as (((sc & sr) & de) & Q & Hin). injection Q as <- <- <-.
      destruct (Hc (sc, sr, de)) as (C1 & C2 & C3); [apply in_or_app; now left|]. unfold call_ok; splits; auto; [zl; lia|].
      destruct (silent_dec n sr) as [S|S]; [|exact S]. exfalso. apply (Hs _ Hin). exact S. }
    rewrite E in E2. injection E2 as <-. rewrite F1 in G1. injection G1 as <-.
    exists (lift o), outs, ds, rs. splits; auto. rewrite new_fin, E. reflexivity.
  Qed.
End Objects.

(** *** PeakPicking *)
Section Picking.
  Variables (n pre post alpha : Z) (delta qa qc : R) (a b : list R).
  (** Objects a client can have, and whether they have been given a detection function zero throughout. *)
  Inductive px_run : bool -> ppx -> Prop :=
  | px_made junk o : ppx_new n a b pre post alpha delta qa qc junk = OK o -> px_run false o
  | px_used q o scratch src len onsets o' src' onsets' : px_run q o -> zlen scratch = n -> n <= zlen src -> 4 <= len <= n ->
      (exists i, 0 <= i < n /\ zn 0%R src i <> 0%R) -> ppx_process o scratch src len onsets = OK (o', src', onsets') -> px_run q o'
  | px_silent q o scratch src len onsets o' src' onsets' : px_run q o -> zlen scratch = n -> n <= zlen src -> 4 <= len <= n ->
      silent n src -> ppx_process o scratch src len onsets = OK (o', src', onsets') -> px_run true o'.

  Hypothesis Hlen : zlen a = zlen b.
  Hypothesis Hord : 2 <= zlen b.
  Hypothesis Hpre : 0 <= pre.
  Hypothesis Hpost : 0 <= post.
  Hypothesis Hn : pre + post < n.
  Hypothesis Hal : 1 <= alpha.

  Definition liftp (o : ppick) : ppx := {| px_length := pp_length o; px_a := pp_a o; px_c := pp_c o; px_work := map Fin (pp_work o); px_smooth := lift (pp_smooth o) |}.
  Notation isready := (pp_ready n pre post alpha delta qa qc a b).
  Definition px_numb (o : ppx) : Prop := zlen (px_work o) = n /\ numb n pre post alpha false delta a b (px_smooth o).

  Lemma collectx len (work : list xr) : 0 <= len <= zlen work -> for_up 0 len (fun i acc => v <- aget work i ;; OK (acc ++ [v])) [] = OK (firstn (Z.to_nat len) work).
  Proof.
    intros H. destruct (for_up_inv (fun i s => s = firstn (Z.to_nat i) work) 0 len (fun i acc => v <- aget work i ;; OK (acc ++ [v])) []) as (s & E & ->); [lia|reflexivity| |exact E].
    intros i s Hi ->. rewrite (aget_OK (Fin 0)) by lia. ret. eexists; split; [reflexivity|].
    apply (zn_ext (Fin 0)); [zl; lia|]. intros j Hj. assert (Li : zlen (firstn (Z.to_nat i) work) = i) by (zl; lia). rewrite zlen_app, Li in Hj. change (zlen [Xn work i]) with 1 in Hj.
    rewrite zn_app, Li by lia. rewrite (zn_firstn (Fin 0) work (Z.to_nat (i + 1))) by lia.
    destruct (Z.ltb_spec j i); [rewrite zn_firstn by lia; reflexivity|]. replace j with i by lia. rewrite Z.sub_diag. reflexivity.
  Qed.

  Lemma quad_nan qa' qc' k idx : 1 <= k -> quad_evalx qa' qc' (repeat NaN (Z.to_nat k)) idx = OK idx.
  Proof.
    intros Hk. unfold quad_evalx. replace (forallb _ (repeat NaN (Z.to_nat k))) with false.
    2:{ symmetry. destruct (Z.to_nat k) eqn:E; [lia|]. reflexivity. }
    match goal with |- context [for_up 2 ?H ?B ?S] => assert (E : for_up 2 H B S = OK []) end.
    { destruct (Z_lt_le_dec (zlen (repeat NaN (Z.to_nat k)) - 2) 2) as [S|S]; [apply for_up_empty; lia|].
      match goal with |- for_up 2 ?H ?B ?S = _ => destruct (for_up_inv (fun _ s => s = []) 2 H B S) as (s & E & ->); [lia|reflexivity| |exact E] end.
      intros i s Hi ->. rewrite zlen_repeat in *. rewrite !(aget_OK NaN) by (zl; lia). ret. rewrite !zn_repeat. eexists; split; [reflexivity|]. reflexivity. }
    rewrite E. reflexivity.
  Qed.

  Lemma px_rest o s work scratch src len onsets : 4 <= len <= n -> n <= zlen src -> zlen work = n -> dfx_process (px_smooth o) scratch src (px_work o) = OK (s, work) ->
    ppx_process o scratch src len onsets =
      (on <- quad_evalx (px_a o) (px_c o) (firstn (Z.to_nat len) work) onsets ;;
       OK ({| px_length := px_length o; px_a := px_a o; px_c := px_c o; px_work := work; px_smooth := s |}, firstn (Z.to_nat len) work ++ skipn (Z.to_nat len) (map Fin src), on)).
  Proof.
    intros Hl Hs Hw E. unfold ppx_process. destruct (Z.ltb_spec len 4); [lia|]. rewrite E. ret. rewrite collectx by lia. ret. apply bind_ext. intros on.
    replace (zlen (firstn (Z.to_nat len) work)) with len by (zl; lia).
    rewrite (for_up_set len (fun b => aget (firstn (Z.to_nat len) work) b) (Xn work)).
    2: zl; lia.
    2:{ intros i Hi. rewrite (aget_OK (Fin 0)) by (zl; lia). now rewrite zn_firstn by lia. }
    ret. replace (ztab len (Xn work)) with (firstn (Z.to_nat len) work); [reflexivity|].
    apply (zn_ext (Fin 0)); [zl; lia|]. intros i Hi. rewrite zlen_firstn in Hi. rewrite zn_ztab by lia. now rewrite zn_firstn by lia.
  Qed.

  Definition nothing (o : ppx) (scratch src : list R) (len : Z) (onsets : list Z) : Prop :=
    exists o', ppx_process o scratch src len onsets = OK (o', repeat NaN (Z.to_nat len) ++ skipn (Z.to_nat len) (map Fin src), onsets) /\ px_numb o'.

  Lemma nothing_from o scratch src len onsets : zlen (px_work o) = n -> n <= zlen src -> 4 <= len <= n ->
    (exists x', dfx_process (px_smooth o) scratch src (px_work o) = OK (x', repeat (blank false) (Z.to_nat n) ++ skipn (Z.to_nat n) (px_work o)) /\ numb n pre post alpha false delta a b x') ->
    nothing o scratch src len onsets.
  Proof.
    intros Lw Ls Hl (x' & E & N). rewrite (skipn_all2 (px_work o)), app_nil_r in E by (unfold zlen in *; lia). cbn [blank] in E.
    unfold nothing. rewrite (px_rest o x' (repeat NaN (Z.to_nat n))) by (auto; try (zl; lia)).
    assert (F : firstn (Z.to_nat len) (repeat NaN (Z.to_nat n)) = repeat NaN (Z.to_nat len)).
    { replace (Z.to_nat n) with (Z.to_nat len + Z.to_nat (n - len))%nat by lia. rewrite repeat_app, firstn_app, repeat_length, Nat.sub_diag. cbn. rewrite app_nil_r.
      apply firstn_all2. rewrite repeat_length. lia. }
    rewrite F, quad_nan by lia. ret. eexists; split; [reflexivity|]. split; [cbn; zl; lia|exact N].
  Qed.

  Lemma picks_nothing o scratch src len onsets : px_numb o -> zlen scratch = n -> n <= zlen src -> 4 <= len <= n -> nothing o scratch src len onsets.
  Proof. intros (Lw & N) L1 L2 Hl. apply nothing_from; auto. apply numb_call; auto. lia. Qed.
  Lemma picks_silent o xs ys scratch src len onsets : isready o xs ys -> zlen scratch = n -> n <= zlen src -> 4 <= len <= n -> silent n src -> nothing (liftp o) scratch src len onsets.
  Proof.
    intros (R1 & R2 & R3 & R4 & R5) L1 L2 Hl Hs. apply nothing_from; auto; [cbn; zl; lia|].
    cbn [liftp px_smooth px_work]. apply (silent_call n pre post alpha false delta a b) with (xs := xs) (ys := ys); auto. zl. lia.
  Qed.

  Lemma all_fin l : forallb (fun x => match x with Fin _ => true | _ => false end) (map Fin l) = true.
  Proof. induction l; cbn; auto. Qed.
  Lemma quad_fin qa' qc' l idx : quad_evalx qa' qc' (map Fin l) idx = quad_eval qa' qc' l idx.
  Proof.
    unfold quad_evalx. rewrite all_fin, map_map. cbn [xval]. now rewrite map_id.
  Qed.
  Lemma picks_normal o xs ys scratch src len onsets : isready o xs ys -> zlen scratch = n -> n <= zlen src -> 4 <= len <= n -> (exists i, 0 <= i < n /\ zn 0%R src i <> 0%R) ->
    exists o' src' found xs' ys', ppx_process (liftp o) scratch src len onsets = OK (liftp o', map Fin src', onsets ++ found) /\ isready o' xs' ys' /\
      pp_effect n pre post alpha delta qa qc a b xs ys scratch src len src' found.
  Proof.
    intros R L1 L2 Hl Hs.
    assert (Hab : accepted a b) by (right; split; [destruct a; [cbn in Hlen; lia|discriminate]|exact Hlen]).
    assert (Hfo : fir_or_order1 a b) by (right; lia).
    assert (C : call_ok n scratch src (pp_work o)) by (destruct R as (_ & _ & _ & R & _); unfold call_ok; splits; auto; lia).
    destruct (pp_call n pre post alpha delta qa qc a b Hab Hfo Hpre Hpost Hn Hal o xs ys scratch src len onsets R C Hl) as (o' & src' & found & xs' & ys' & E & R' & F).
    exists o', src', found, xs', ys'. splits; auto.
    destruct R as (R1 & R2 & R3 & R4 & R5).
    destruct (process_ready n pre post alpha false delta a b Hab Hfo Hpre Hpost Hn Hal (pp_smooth o) xs ys scratch src (pp_work o) R5 C) as (s' & out & d & y & z & r & E2 & S & _).
    assert (Ln : df_length (pp_smooth o) = n) by apply R5.
    assert (Lo : zlen out = n) by (destruct S as (_ & _ & S & _); lia).
    pose proof (dfx_finite (pp_smooth o) scratch src (pp_work o) (map Fin (pp_work o)) s' out) as E3. rewrite Ln in E3.
    rewrite skipn_all2, app_nil_r in E3 by (rewrite map_length; unfold zlen in *; lia).
    assert (E4 : dfx_process (px_smooth (liftp o)) scratch src (px_work (liftp o)) = OK (lift s', map Fin out)) by (cbn [liftp px_smooth px_work]; apply E3; auto; zl; lia).
    rewrite (px_rest (liftp o) (lift s') (map Fin out) scratch src len onsets Hl L2 ltac:(zl; lia) E4). cbn [liftp px_a px_c px_length].
    rewrite firstn_map, quad_fin.
    revert E. unfold pp_process. destruct (Z.ltb_spec len 4); [lia|]. rewrite E2. ret. rewrite collect_ok by lia. ret.
    destruct (quad_eval (pp_a o) (pp_c o) (firstn (Z.to_nat len) out) onsets) as [on| | |]; cbn [bind]; try discriminate.
    replace (zlen (firstn (Z.to_nat len) out)) with len by (zl; lia).
    rewrite (for_up_set len (fun b => aget (firstn (Z.to_nat len) out) b) (zn 0%R out)).
    2: lia.
    2:{ intros i Hi. rewrite (aget_OK 0%R) by (zl; lia). now rewrite zn_firstn by lia. }
    ret. intros E. injection E as <- <- <-. unfold liftp. cbn. do 3 f_equal. f_equal. rewrite map_app, skipn_map. f_equal. f_equal.
    apply (zn_ext 0%R); [zl; lia|]. intros i Hi. rewrite zn_ztab by (zl; lia). now rewrite zn_firstn by (zl; lia).
  Qed.

  Lemma px_state q o : px_run q o -> px_numb o \/ q = false /\ exists p xs ys, o = liftp p /\ isready p xs ys.
  Proof.
    assert (Hab : accepted a b) by (right; split; [destruct a; [cbn in Hlen; lia|discriminate]|exact Hlen]).
    induction 1 as [junk o E|q o scratch src len onsets o' src' onsets' H IH L1 L2 Hl Hs E|q o scratch src len onsets o' src' onsets' H IH L1 L2 Hl Hs E].
    - right. split; [reflexivity|]. destruct (pp_new_ready n pre post alpha delta qa qc a b Hab Hpre Hpost Hn junk) as (p & E' & R). exists p, [], []. split; [|exact R].
      revert E E'. unfold ppx_new, pp_new. rewrite new_fin. destruct (dfp_new _ _ _ _ _ _ _ _ _) as [s| | |]; cbn; try discriminate. intros E E'. injection E as <-. injection E' as <-.
      unfold liftp. cbn. f_equal. now rewrite map_repeat_zero.
    - destruct IH as [N|(-> & p & xs & ys & -> & R)].
      + left. destruct (picks_nothing o scratch src len onsets N L1 L2 Hl) as (o2 & E2 & N2). rewrite E in E2. injection E2 as <- _ _. exact N2.
      + right. split; [reflexivity|]. destruct (picks_normal p xs ys scratch src len onsets R L1 L2 Hl Hs) as (p' & src2 & found & xs' & ys' & E2 & R' & _).
        rewrite E in E2. injection E2 as -> _ _. exists p', xs', ys'. auto.
    - left. destruct IH as [N|(-> & p & xs & ys & -> & R)].
      + destruct (picks_nothing o scratch src len onsets N L1 L2 Hl) as (o2 & E2 & N2). rewrite E in E2. injection E2 as <- _ _. exact N2.
      + destruct (picks_silent p xs ys scratch src len onsets R L1 L2 Hl Hs) as (o2 & E2 & N2). rewrite E in E2. injection E2 as <- _ _. exact N2.
  Qed.

  (** Once silent, never an onset again. *)
  Theorem px_deaf q o scratch src len onsets : px_run q o -> q = true \/ silent n src -> zlen scratch = n -> n <= zlen src -> 4 <= len <= n ->
    exists o', ppx_process o scratch src len onsets = OK (o', repeat NaN (Z.to_nat len) ++ skipn (Z.to_nat len) (map Fin src), onsets) /\ px_run true o'.
  Proof.
    intros H D L1 L2 Hl.
    assert (G : nothing o scratch src len onsets).
    { destruct (px_state q o H) as [N|(-> & p & xs & ys & -> & R)]; [apply picks_nothing; auto|]. destruct D as [D|D]; [discriminate|]. apply (picks_silent p xs ys); auto. }
    destruct G as (o' & E & _). exists o'. split; [exact E|].
    destruct (silent_dec n src) as [S|S]; [eapply px_silent; eauto|]. destruct D as [-> |D]; [eapply px_used; eauto|]. eapply px_silent; eauto.
  Qed.
  (** No use of the object is undefined. *)
  Theorem px_defined q o scratch src len onsets : px_run q o -> zlen scratch = n -> n <= zlen src -> 4 <= len <= n ->
    exists o' src' found, ppx_process o scratch src len onsets = OK (o', src', onsets ++ found).
  Proof.
    intros H L1 L2 Hl. destruct (px_state q o H) as [N|(-> & p & xs & ys & -> & R)].
    - destruct (picks_nothing o scratch src len onsets N L1 L2 Hl) as (o' & E & _). do 2 eexists. exists []. rewrite app_nil_r. exact E.
    - destruct (silent_dec n src) as [S|S].
      + destruct (picks_silent p xs ys scratch src len onsets R L1 L2 Hl S) as (o' & E & _). do 2 eexists. exists []. rewrite app_nil_r. exact E.
      + destruct (picks_normal p xs ys scratch src len onsets R L1 L2 Hl S) as (p' & src' & found & xs' & ys' & E & _). eauto.
  Qed.
End Picking.
