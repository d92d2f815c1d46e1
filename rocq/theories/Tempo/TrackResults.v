(** The older tempo tracker with its real parts. *)
From Coq Require Import List ZArith Reals Lia Lra Bool.
From Verif.Base Require Import Imp RealOps Arith Loops Xreal Images.
From Verif.Signal Require Import FramerModel FilterModel FilterSpec FiltFiltModel FramerSpec FramerProofs.
From Verif.Measures Require Import MeasModel MeasProofs.
From Verif.Onset Require Import PeakModel PeakSpec DfResults DfxModel DfxProofs DfxResults.
From Verif.Tempo Require Import BeatModel TrackModel TrackSpec TrackParts TrackProofs TrackReal.
Import ListNotations.
Open Scope Z_scope.

Local Notation Zx := (zn (Fin 0)).

(** *** Any arithmetic *)
(** A smoother that works on arrays of length [n] and fills them. *)
Definition fills {T S} (n : Z) (f : S -> list T -> list T -> res (S * list T)) : Prop :=
  forall s x y, zlen x = n -> zlen y = n -> exists s' y', f s x y = OK (s', y') /\ zlen y' = n.

Lemma any_arithmetic {T S} (E : env T S) win lag s1 s2 junk df :
  2 <= lag -> 4 * lag + 3 <= win -> (forall p, 1 <= p <= lag -> win <> 6 * p + 2) ->
  fills win (e_df E) -> fills lag (e_rcf E) ->
  (forall x y, zlen x = win -> zlen y = win -> exists z, e_correlate E x y win = OK z /\ zlen z = win) ->
  e_nonzero E (a_of (e_arith E) 0) = false -> zlen df <= INT_MAX ->
  exists t, tracker_new win lag s1 s2 junk = OK t /\
    ((exists t' beats tempi frames, track E t df = OK (t', beats, tempi) /\ blocks (zlen df) lag frames /\ blockwise lag frames beats /\
        zlen tempi = frames /\ (forall i, 0 <= i < frames -> tempo_value lag (zn 0%R tempi i))) \/
     track E t df = Diverge).
Proof.
  intros Hl Hw H6 F1 F2 Hc Hz Hn.
  destruct (new_fresh win lag Hl Hw (fun _ : S => True) (fun _ : S => True) s1 s2 junk I I) as (t & Et & Ft). exists t. split; auto.
  destruct (track_ok E win lag Hl Hw H6 (fun _ => True) (fun _ => True) (fun _ => True) (fun _ => True) (fun _ => True) (fun w => zlen w = lag) False) with (t := t) (df := df) as [H|(_ & H)]; auto.
  - intros s x y _ _ Lx Ly. destruct (F1 s x y Lx Ly) as (s' & y' & H1 & H2). eauto 6.
  - intros x y _ Lx Ly. destruct (Hc x y Lx Ly) as (z & H1 & H2). eauto.
  - intros acf w ts sc _ La Lw Ht Ls.
    destruct (filterbank_ok E (fun _ => True) (fun _ => True) lag acf w ts sc) as (x & Ex & Lx & X0 & _); auto; try lia.
    exists x. splits; auto; try tauto. { apply X0. lia. } intros s y _ Ly. destruct (F2 s x y Lx Ly) as (s' & y' & H1 & H2). eauto 6.
  - zl. lia.
  - intros per _. zl. lia.
Qed.

(** *** Reals with infinities *)
Lemma finite_map xs : finite_values (map Fin xs) = Some xs.
Proof. induction xs as [|x xs IH]; cbn; [reflexivity|]. now rewrite IH. Qed.

Lemma finite_all l : (forall i, 0 <= i < zlen l -> xfin (Zx l i)) -> exists xs, finite_values l = Some xs /\ l = map Fin xs.
Proof.
  induction l as [|x l IH]; intros H.
  - exists []. auto.
  - destruct IH as (xs & E1 & E2).
    + intros i Hi. specialize (H (i + 1)). rewrite zlen_cons in H. rewrite zn_cons in H by lia. 
      destruct (Z.eqb_spec (i + 1) 0) in H; [lia|]. replace (i + 1 - 1) with i in H by lia. destruct (Z.ltb_spec (i + 1) 0) in H; [lia|]. apply H. lia.
    + destruct (H 0) as (r & Hr). { rewrite zlen_cons. pose proof (zlen_nonneg l). lia. }
      change (zn (Fin 0) (x :: l) 0) with x in Hr. subst x. exists (r :: xs). cbn. rewrite E1. split; [reflexivity|]. now f_equal.
Qed.

Lemma zx_map xs i : Zx (map Fin xs) i = Fin (zn 0%R xs i).
Proof.
  unfold zn. destruct (i <? 0); [reflexivity|]. change (Fin 0) with (Fin 0%R). apply (map_nth Fin).
Qed.

Section Smooth.
  Variables (pre post alpha : Z) (a b : list R).
  Hypothesis Hlen : zlen a = zlen b.
  Hypothesis Hord : 2 <= zlen b.
  Hypothesis Hpre : 0 <= pre.
  Hypothesis Hpost : 0 <= post.
  Hypothesis Hal : 1 <= alpha.

  (** In use, or numb after a silent frame. *)
  Definition sm_ready (n : Z) (s : smoother) : Prop :=
    (exists o xs ys, fst s = lift o /\ ready n pre post alpha true 0%R a b o xs ys) \/ numb n pre post alpha true 0%R a b (fst s).

  Lemma smooth_ok n junk s x y : pre + post < n -> sm_ready n s -> (forall i, 0 <= i < n -> xfin (Zx x i)) -> zlen x = n -> zlen y = n ->
    exists s' y', smooth n junk s x y = OK (s', y') /\ sm_ready n s' /\ zlen y' = n /\ forall i, 0 <= i < n -> xfin (Zx y' i).
  Proof.
    intros Ln Hs Hx Lx Ly. destruct s as (o & k). unfold smooth.
    destruct (finite_all x) as (xs & -> & ->). { intros i Hi. apply Hx. lia. }
    rewrite zlen_map in Lx. cbn [fst snd].
    assert (Nb : forall x', numb n pre post alpha true 0%R a b x' ->
      exists s' y', OK ((x', Datatypes.S k), repeat (blank true) (Z.to_nat n) ++ skipn (Z.to_nat n) y) = OK (s', y') /\ sm_ready n s' /\ zlen y' = n /\ forall i, 0 <= i < n -> xfin (Zx y' i)).
    { intros x' Hx'. do 2 eexists; split; [reflexivity|]. rewrite (skipn_all2 y), app_nil_r by (unfold zlen in *; lia). splits; [right; exact Hx'|zl; lia|].
      intros i Hi. cbn [blank]. rewrite zn_repeat. eexists; reflexivity. }
    destruct Hs as [(o0 & xs0 & ys0 & Eo & R)|N].
    - cbn [fst] in Eo. subst o. destruct (silent_dec n xs) as [S|S].
      + destruct (silent_call n pre post alpha true 0%R a b Hlen Hord Hpre Hpost ltac:(lia) Hal o0 xs0 ys0 (ztab n (junk k)) xs y R ltac:(zl; lia) ltac:(lia) ltac:(lia) S) as (x' & -> & Hx'). ret. auto.
      + destruct (normal_call n pre post alpha true 0%R a b Hlen Hord Hpre Hpost ltac:(lia) Hal o0 xs0 ys0 (ztab n (junk k)) xs y R) as (o' & out & d & yy & zz & r & E1 & E2 & Sm & _ & _ & _ & _ & R').
        { unfold call_ok. splits; auto; zl; lia. }
        { lia. }
        rewrite E1. ret. assert (Lo : zlen out = n) by (destruct Sm as (_ & _ & Lo & _); rewrite Lo; zl; lia).
        do 2 eexists; split; [reflexivity|]. rewrite (skipn_all2 y), app_nil_r by (unfold zlen in *; lia). splits; [left; exists o', (rev yy), zz; auto|zl; lia|].
        intros i Hi. rewrite zx_map. eexists; reflexivity.
    - destruct (numb_call n pre post alpha true 0%R a b Hlen Hord Hpre Hpost ltac:(lia) Hal o (ztab n (junk k)) xs y N ltac:(zl; lia) ltac:(lia) ltac:(lia)) as (x' & -> & Hx'). ret. auto.
  Qed.
End Smooth.

Definition xpos (x : xr) : Prop := exists r, x = Fin r /\ (0 < r)%R.
Definition xnn (x : xr) : Prop := exists r, x = Fin r /\ (0 <= r)%R.
Definition all_pos (n : Z) (l : list xr) : Prop := zlen l = n /\ forall i, 0 <= i < n -> xpos (Zx l i).

Lemma correlate_ok win x y : zlen x = win -> zlen y = win -> (forall i, 0 <= i < win -> xfin (Zx x i)) ->
  exists z, correlate x y win = OK z /\ all_pos win z.
Proof.
  intros Lx Ly Hx. pose proof (zlen_nonneg x). unfold correlate. destruct (finite_all x) as (xs & -> & ->). { intros i Hi. apply Hx. lia. }
  zl. destruct (Z.ltb_spec (zlen y) win); [lia|].
  destruct (autocorrelation_value xs (repeat 0%R (Z.to_nat win)) win) as (z & -> & Lz & _ & Hz & _); [zl; lia|zl; lia|]. ret.
  rewrite (skipn_all2 y) by (unfold zlen in Ly; lia). rewrite ?app_nil_r. zl.
  eexists; split; [reflexivity|]. split; [zl; lia|]. intros i Hi. rewrite zx_map. eexists; split; [reflexivity|]. apply Hz; auto.
Qed.

Section Real.
  Variables (win lag pre post alpha : Z) (a b : list R) (octave : Z -> Z -> R) (junk1 junk2 : nat -> Z -> R).
  Hypothesis Hlag : 3 <= lag.
  Hypothesis Hwin : 4 * lag + 3 <= win.
  Hypothesis Hsix : forall p, 1 <= p <= lag -> win <> 6 * p + 2.
  Hypothesis Hlen : zlen a = zlen b.
  Hypothesis Hord : 2 <= zlen b.
  Hypothesis Hpre : 0 <= pre.
  Hypothesis Hpost : 0 <= post.
  Hypothesis Hn : pre + post < lag.
  Hypothesis Hal : 1 <= alpha.

  Let E := real_env win lag octave junk1 junk2.

  Lemma rayleigh_pos i : 0 <= i -> (0 < rayleigh i)%R.
  Proof.
    intros Hi. unfold rayleigh. apply Rmult_lt_0_compat; [|apply exp_pos].
    apply Rdiv_lt_0_compat; [apply (IZR_lt 0); lia|apply pow_lt; lra].
  Qed.
  Lemma gauss_pos p i : (0 < p)%R -> (0 < gauss p i)%R.
  Proof.
    intros Hp. unfold gauss. apply Rdiv_lt_0_compat; [apply exp_pos|]. apply Rmult_lt_0_compat; [|lra]. apply sqrt_lt_R0. pose proof PI_RGT_0. lra.
  Qed.

  Lemma all_pos_tab n f : 0 <= n -> (forall i, 0 <= i < n -> (0 < f i)%R) -> all_pos n (ztab n (fun i => Fin (f i))).
  Proof. intros Hn' H. split; [zl; lia|]. intros i Hi. rewrite zn_ztab by lia. eexists; split; [reflexivity|auto]. Qed.

  Lemma bank_real acf w ts sc : all_pos win acf -> all_pos lag w -> ts = 0 \/ ts = 3 \/ ts = 4 -> zlen sc = lag ->
    exists x, filterbank E lag acf w ts sc = OK x /\ zlen x = lag /\ Zx x 0 = Fin 0 /\ (forall i, 1 <= i < lag - 1 -> xpos (Zx x i)) /\
      forall i, 0 <= i < lag -> xfin (Zx x i).
  Proof.
    intros (La & Ha) (Lw & Hw) Ht Ls.
    assert (T0 : a_of (e_arith E) 0 = Fin 0) by reflexivity.
    assert (St : forall (Q Qs : xr -> Prop), (forall x, Q x <-> xnn x) -> (forall x, Qs x <-> xpos x) -> forall s i k c, 0 <= i < lag -> 0 <= k < zlen acf -> Q s ->
       c = a_of (e_arith E) 1 \/ (exists a0, 1 <= a0 /\ c = a_div (e_arith E) (a_of (e_arith E) 1) (a_of (e_arith E) (2 * a0 - 1))) ->
       Qs (a_add (e_arith E) s (a_mul (e_arith E) (a_mul (e_arith E) (zn (a_of (e_arith E) 0) acf k) c) (zn (a_of (e_arith E) 0) w i)))).
    { intros Q Qs EQ EQs s i k c Hi Hk Qx Hc. apply EQs. apply EQ in Qx. destruct Qx as (r & -> & Hr).
      rewrite T0. destruct (Ha k ltac:(lia)) as (u & -> & Hu). destruct (Hw i Hi) as (v & -> & Hv).
      assert (Cc : exists d, c = Fin d /\ (0 < d)%R).
      { destruct Hc as [-> |(a0 & Ha0 & ->)].
        - exists 1%R. split; [reflexivity|lra].
        - change (exists d, xdiv (Fin 1) (Fin (IZR (2 * a0 - 1))) = Fin d /\ (0 < d)%R). unfold xdiv. assert (0 < IZR (2 * a0 - 1))%R by (apply (IZR_lt 0); lia). destruct (Reqb_spec (IZR (2 * a0 - 1)) 0); [lra|].
          eexists; split; [reflexivity|]. apply Rdiv_lt_0_compat; lra. }
      destruct Cc as (d & -> & Hd). cbn. eexists; split; [reflexivity|].
      pose proof (Rmult_lt_0_compat _ _ (Rmult_lt_0_compat _ _ Hu Hd) Hv). lra. }
    destruct (filterbank_ok E xnn xpos lag acf w ts sc) as (x & Ex & Lx & X0 & Hx); auto; try lia.
    { exists 0%R. split; [reflexivity|lra]. }
    { intros x (r & -> & Hr). exists r. split; [auto|lra]. }
    { apply St; tauto. }
    (* the last output, too, is finite: it stays 0 *)
    assert (Xf : forall i, 0 <= i < lag -> xfin (Zx x i)).
    { intros i Hi. destruct (Z.eq_dec i 0) as [-> |]. { rewrite T0 in X0. rewrite X0 by lia. eexists; reflexivity. }
      destruct (Z_lt_le_dec i (lag - 1)) as [L|G]. { destruct (Hx i ltac:(lia)) as (r & Hr & _). rewrite T0 in Hr. rewrite Hr. eexists; reflexivity. }
      revert Ex. unfold filterbank. rewrite fill_const by auto. ret.
      match goal with |- for_up 1 _ ?f ?s = _ -> _ =>
        destruct (for_up_inv (fun _ y => zlen y = lag /\ Zx y (lag - 1) = Fin 0) 1 (lag - 1) f s) as (y & Ey & Ly & Hy) end.
      - lia.
      - split; [zl; lia|]. rewrite zn_ztab by lia. reflexivity.
      - intros j y Hj (Ly & Hy).
        match goal with |- exists s', for_up 1 ?h ?f ?s = _ /\ _ =>
          destruct (for_up_inv (fun _ y => zlen y = lag /\ Zx y (lag - 1) = Fin 0) 1 h f s) as (z & Ez & Lz & Hz); [destruct (ts =? 0); lia|auto| |exists z; auto] end.
        intros k z Hk (Lz & Hz).
        match goal with |- exists s', for_up ?l ?h ?f ?s = _ /\ _ =>
          destruct (for_up_inv (fun _ y => zlen y = lag /\ Zx y (lag - 1) = Fin 0) l h f s) as (v & Ev & Lv & Hv); [lia|auto| |exists v; auto] end.
        intros q v Hq (Lv & Hv). rewrite (aget_OK (Fin 0)) by lia. ret.
        assert (k <= 4) by (destruct (Z.eqb_spec ts 0); lia).
        rewrite (aget_OK (Fin 0)) by nia. ret. rewrite (aget_OK (Fin 0)) by lia. ret.
        rewrite aset_OK by lia. eexists; split; [reflexivity|]. split; [zl; lia|]. rewrite zn_upd by lia.
        destruct (Z.eqb_spec (lag - 1) j); [lia|auto].
      - intros Ex'. rewrite Ey in Ex'. injection Ex' as <-. replace i with (lag - 1) by lia. rewrite Hy. eexists; reflexivity. }
    exists x. splits; auto. rewrite <- T0. apply X0. lia.
  Qed.

  Definition finite_frame (x : list xr) : Prop := forall i, 0 <= i < zlen x -> xfin (Zx x i).

  Lemma real_ok t (df : list R) : fresh win lag (sm_ready pre post alpha a b win) (sm_ready pre post alpha a b lag) t -> zlen df <= INT_MAX ->
    exists t' beats tempi frames, track E t (map Fin df) = OK (t', beats, tempi) /\ blocks (zlen df) lag frames /\ blockwise lag frames beats /\
      zlen tempi = frames /\ (forall i, 0 <= i < frames -> tempo_value lag (zn 0%R tempi i)).
  Proof.
    intros Ft Hi.
    destruct (track_ok E win lag ltac:(lia) Hwin Hsix (sm_ready pre post alpha a b win) (sm_ready pre post alpha a b lag) finite_frame finite_frame (all_pos win) (all_pos lag) True) with (t := t) (df := map Fin df)
      as [(t' & beats & tempi & frames & H1 & H2 & H3)|(H & _)]; auto; try tauto.
    - intros s x y Hs Hx Lx Ly. unfold finite_frame in Hx. rewrite Lx in Hx.
      destruct (smooth_ok pre post alpha a b Hlen Hord Hpre Hpost Hal win junk1 s x y) as (s' & y' & H1 & H2 & H3 & H4); auto; try lia.
      exists s', y'. splits; auto. intros i Hi'. apply H4. lia.
    - intros x y Hx Lx Ly. unfold finite_frame in Hx. rewrite Lx in Hx.
      destruct (correlate_ok win x y Lx Ly Hx) as (z & H1 & H2). exists z. splits; auto. apply H2.
    - intros acf w ts sc Ha _ Hw Ht Ls. destruct (bank_real acf w ts sc Ha Hw Ht Ls) as (x & H1 & H2 & H3 & H4 & H5).
      exists x. splits; auto.
      + intros _. exists 1. split; [lia|]. destruct (H4 1 ltac:(lia)) as (r & Er & Hr). change (zn (a_of (e_arith E) 0)) with Zx. rewrite Er. cbn. destruct (Rltb_spec 0 r); [reflexivity|lra].
      + intros s y Hs Ly. destruct (smooth_ok pre post alpha a b Hlen Hord Hpre Hpost Hal lag junk2 s x y) as (s' & y' & K1 & K2 & K3 & K4); auto; try lia. exists s', y'. auto.
    - apply all_pos_tab; [lia|]. intros i Hi'. apply rayleigh_pos. lia.
    - intros per Hp. apply all_pos_tab; [lia|]. intros i Hi'. apply gauss_pos. lra.
    - cbn. destruct (Reqb_spec 0 0); [reflexivity|lra].
    - intros k x Hk _ (Lx & Vx) i Hi'. rewrite Lx in Hi'. change (Zx x i) with (zn (a_of (e_arith E) 0) x i). rewrite Vx by lia. change (zn (a_of (e_arith E) 0)) with Zx. rewrite zx_map. eexists; reflexivity.
    - zl. exact Hi.
    - exists t', beats, tempi, frames. zl. auto.
  Qed.

  Theorem real_track junk df : zlen df <= INT_MAX ->
    exists t t' beats tempi frames, real_tracker win lag a b pre post alpha junk = OK t /\ track E t (map Fin df) = OK (t', beats, tempi) /\
      blocks (zlen df) lag frames /\ blockwise lag frames beats /\ zlen tempi = frames /\ (forall i, 0 <= i < frames -> tempo_value lag (zn 0%R tempi i)).
  Proof.
    intros Hi. unfold real_tracker. rewrite !new_fin.
    assert (Hab : accepted a b) by (right; split; [destruct a; [cbn in Hlen; lia|discriminate]|exact Hlen]).
    destruct (new_ready win pre post alpha true 0%R a b Hab) with (junk := junk) as (o1 & -> & R1); auto; try lia. cbn [rmap bind].
    destruct (new_ready lag pre post alpha true 0%R a b Hab) with (junk := junk) as (o2 & -> & R2); auto; try lia. cbn [rmap bind].
    destruct (new_fresh win lag ltac:(lia) Hwin (sm_ready pre post alpha a b win) (sm_ready pre post alpha a b lag) (lift o1, 0%nat) (lift o2, 0%nat) (fun i => Fin (junk i))) as (t & Et & Ft).
    { left. exists o1, [], []. split; [reflexivity|exact R1]. }
    { left. exists o2, [], []. split; [reflexivity|exact R2]. }
    destruct (real_ok t df Ft Hi) as (t' & beats & tempi & frames & H). exists t, t', beats, tempi, frames. split; [exact Et|exact H].
  Qed.
End Real.
