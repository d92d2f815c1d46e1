(** calculateBeats over the reals returns an optimal chain. *)
From Coq Require Import List ZArith Reals Lia Lra Bool.
From Verif.Base Require Import Imp Sums RealOps Arith Loops.
From Verif.Tempo Require Import BeatModel BeatSpec BeatProofs.
Import ListNotations.
Open Scope Z_scope.

Local Notation A := Rarith.
Local Notation Rn := (zn 0%R).

(** Line 446 over the reals. *)
Definition wtR (tightness : R) (mu : R) (j : Z) : R :=
  exp (- / 2 * (tightness * ln ((IZR (round_away (2 * mu)) - IZR j) / mu)) ^ 2)%R.
(** The same as a function of the lag. *)
Definition lagw (tightness : R) (p : R) (d : Z) : R := wtR tightness p (dmax p - d).

Lemma lagw_pos t p d : (0 < lagw t p d)%R.
Proof. apply exp_pos. Qed.

(** For a period that is a whole number of frames. *)
Lemma lagw_int t k d : 1 <= k -> lagw t (IZR k) d = log_gauss t (IZR k) d.
Proof.
  intros Hk. unfold lagw, wtR, log_gauss, dmax.
  rewrite <- (mult_IZR 2 k). assert (E : round_away (IZR (2 * k)) = 2 * k).
  { unfold round_away. destruct (Rltb_spec (IZR (2 * k)) 0).
    - apply lt_IZR in H. lia.
    - apply Zfloor_unique. lra. }
  rewrite E, Zfloor_IZR. rewrite (minus_IZR (2 * k) d).
  replace (IZR (2 * k) - (IZR (2 * k) - IZR d))%R with (IZR d) by ring. reflexivity.
Qed.

Lemma max_real l : exists m k, get_max_val A l = OK m /\ get_max_ind A l = OK k /\ (0 <= m)%R /\
  (forall j, 0 <= j < zlen l -> (Rn l j <= m)%R) /\
  ((m = 0%R /\ k = 0) \/ ((0 < m)%R /\ 0 <= k < zlen l /\ Rn l k = m)).
Proof.
  pose proof (zlen_nonneg l). unfold get_max_val, get_max_ind.
  match goal with |- context [for_up 0 (zlen l) ?F (a_of A 0, 0)] =>
    destruct (for_up_inv (fun i s => (0 <= fst s)%R /\ (forall j, 0 <= j < i -> (Rn l j <= fst s)%R) /\
      ((fst s = 0%R /\ snd s = 0) \/ ((0 < fst s)%R /\ 0 <= snd s < zlen l /\ Rn l (snd s) = fst s)) /\
      for_up 0 i (fun i maxval => v <- aget l i ;; OK (if a_lt A maxval v then v else maxval)) (a_of A 0) = OK (fst s))
      0 (zlen l) F (a_of A 0, 0)) as ([m k] & E & H1 & H2 & H3 & H4); [lia| | |] end.
  - cbn [fst snd]. change (a_of A 0) with 0%R. splits; try lra; auto. intros; lia.
  - intros i [m k] Hi (H1 & H2 & H3 & H4). cbn [fst snd] in *. rewrite (aget_OK 0%R) by lia. cbn [bind].
    eexists; split; [reflexivity|]. rewrite for_up_last, H4 by lia. cbn [bind]. rewrite (aget_OK 0%R) by lia. cbn [bind].
    change (a_lt A) with Rltb. destruct (Rltb_spec m (Rn l i)); cbn [fst snd].
    + splits; auto; try lra.
      * intros j Hj. assert (j < i \/ j = i) as [?| ->] by lia; [specialize (H2 j ltac:(lia)); lra|lra].
      * right. splits; auto; try lra; lia.
    + splits; auto; try lra.
      intros j Hj. assert (j < i \/ j = i) as [?| ->] by lia; [apply H2; lia|lra].
  - rewrite E. cbn [bind fst snd] in *. exists m, k. splits; auto.
Qed.

(** What the main loop establishes for frame [i]. *)
Definition good (tight alpha : R) (df : list R) (per : list R) (cum : list R) (back : list Z) (i : Z) : Prop :=
  let p := Rn per i in
  exists M d0,
    Rn cum i = (alpha * M + (1 - alpha) * Rn df i)%R /\ (0 <= M)%R /\
    (forall d, dmin p <= d <= dmax p -> 0 <= i - d -> (lagw tight p d * Rn cum (i - d) <= M)%R) /\
    zn 0 back i = i - d0 /\ dmin p <= d0 <= dmax p /\
    ((M = 0%R /\ d0 = dmax p) \/ ((0 < M)%R /\ 0 <= i - d0 /\ M = (lagw tight p d0 * Rn cum (i - d0))%R)).

Lemma scores_real tight alpha df per :
  zlen df <= zlen per -> (forall i, 0 <= i < zlen df -> (1 <= Rn per i)%R) ->
  exists cum back, beat_scores A (wtR tight) alpha df per = OK (cum, back) /\ zlen cum = zlen df /\ zlen back = zlen df /\
    forall i, 0 <= i < zlen df -> good tight alpha df per cum back i.
Proof.
  intros Hl Hp. unfold beat_scores. pose proof (zlen_nonneg df).
  match goal with |- context [for_up 0 (zlen df) ?F ?S] =>
    destruct (for_up_inv (fun k s => zlen (fst s) = zlen df /\ zlen (snd s) = zlen df /\
       forall i, 0 <= i < k -> good tight alpha df per (fst s) (snd s) i) 0 (zlen df) F S) as ([cum back] & E & Lc & Lb & V); [lia| | |] end.
  - cbn [fst snd]. splits; zl; intros; lia.
  - intros i [cum back] Hi (Lc & Lb & V). cbn [fst snd] in *.
    destruct (beat_step_ok A (wtR tight) alpha df per i cum back) as (vv & xx & Ev & Ex & Hx & E); auto; try lia.
    { specialize (Hp i ltac:(lia)). lra. }
    destruct (max_real (cands A (wtR tight) cum i (Rn per i))) as (m & k & Em & Ek & M0 & MX & MI).
    rewrite Em in Ev. injection Ev as <-. rewrite Ek in Ex. injection Ex as <-.
    rewrite E. eexists; split; [reflexivity|]. cbn [fst snd]. splits; zl; auto.
    pose proof (Hp i ltac:(lia)) as P1. pose proof (drange1 _ P1) as DR.
    rewrite zlen_cands in MX by lra. rewrite zlen_cands in MI by lra.
    set (c1 := upd cum _ _). set (b1 := upd back _ _).
    assert (C1 : forall j, 0 <= j < i -> Rn c1 j = Rn cum j).
    { intros j Hj. unfold c1. rewrite zn_upd by lia. zcase; auto; lia. }
    intros q Hq. destruct (Z.eq_dec q i) as [->|NE].
    + unfold good. set (p := Rn per i) in *. cbv zeta. exists m, (dmax p - k).
      assert (CV : forall j, 0 <= j <= dmax p - dmin p -> 0 <= i - dmax p + j ->
                Rn (cands A (wtR tight) cum i p) j = (lagw tight p (dmax p - j) * Rn cum (i - dmax p + j))%R).
      { intros j Hj Hj0. unfold cands. rewrite zn_ztab by lia. zcase. unfold lagw.
        replace (dmax p - (dmax p - j)) with j by lia. reflexivity. }
      splits; auto.
      * unfold c1. rewrite zn_upd by lia. zcase. reflexivity.
      * intros d Hd Hid. rewrite C1 by lia. specialize (MX (dmax p - d) ltac:(lia)). rewrite CV in MX by lia.
        replace (dmax p - (dmax p - d)) with d in MX by lia. replace (i - dmax p + (dmax p - d)) with (i - d) in MX by lia. exact MX.
      * unfold b1. rewrite zn_upd by lia. zcase. lia.
      * lia.
      * lia.
      * destruct MI as [(-> & ->)|(Mp & Hk & Ek')]; [left; split; auto; lia|]. right.
        assert (0 <= i - dmax p + k).
        { destruct (Z.leb_spec 0 (i - dmax p + k)); auto. unfold cands in Ek'. rewrite zn_ztab in Ek' by lia.
          destruct (Z.leb_spec 0 (i - dmax p + k)); [lia|]. change (a_of A 0) with 0%R in Ek'. lra. }
        rewrite CV in Ek' by lia. splits; auto; [lia|].
        replace (i - (dmax p - k)) with (i - dmax p + k) by lia. rewrite C1 by lia. auto.
    + destruct (V q ltac:(lia)) as (M & d0 & G1 & G2 & G3 & G4 & G5 & G6).
      pose proof (drange1 _ (Hp q ltac:(lia))) as DQ.
      exists M, d0. splits; auto; try lia.
      * now rewrite C1 by lia.
      * intros d Hd Hid. rewrite C1 by lia. auto.
      * unfold b1. rewrite zn_upd by lia. zcase; lia.
      * destruct G6 as [G6|(G6 & G7 & G8)]; auto. right. splits; auto. now rewrite C1 by lia.
  - exists cum, back. splits; auto.
Qed.

Section Opt.
  Variables (tight alpha : R) (df per cum : list R) (back : list Z).
  Let n := zlen df.
  Hypothesis Hper : forall i, 0 <= i < n -> (1 <= Rn per i)%R.
  Hypothesis G : forall i, 0 <= i < n -> good tight alpha df per cum back i.
  Hypothesis A0 : (0 <= alpha)%R.
  Local Notation score := (chain_score alpha (lagw tight) (Rn df) (Rn per)).

  Lemma upper c : chain n (Rn per) c -> (score c <= Rn cum (hd 0%Z c))%R.
  Proof.
    intros [H1 H2]. induction c as [|i c IH]; [cbn in H1; tauto|].
    unfold within in H2. apply Forall_cons_iff in H2 as [Hi H2].
    destruct (G i Hi) as (M & d0 & G1 & G2 & G3 & _). cbn [hd]. rewrite G1. cbn [chain_score].
    destruct c as [|j c]; [nra|].
    destruct H1 as [Ad H1]. specialize (IH H1 H2). cbn [hd] in IH.
    apply Forall_cons_iff in H2 as [Hj H2].
    apply admissible_iff in Ad; [|now apply Hper].
    specialize (G3 (i - j) Ad ltac:(lia)). replace (i - (i - j)) with j in G3 by lia.
    pose proof (lagw_pos tight (Rn per i) (i - j)) as WP.
    set (w := lagw tight (Rn per i) (i - j)) in *. set (s := score (j :: c)) in *.
    assert (w * s <= M)%R by nra. nra.
  Qed.

  Hypothesis A1 : (alpha <= 1)%R.
  Hypothesis DF : forall i, 0 <= i < n -> (0 <= Rn df i)%R.

  Lemma cum_nonneg i : 0 <= i < n -> (0 <= Rn cum i)%R.
  Proof. intros Hi. destruct (G i Hi) as (M & d0 & -> & G2 & _). specialize (DF i Hi). nra. Qed.

  Lemma extend ib : forall h acc, chain n (Rn per) acc -> hd 0 acc = h -> score acc = Rn cum h ->
    within 0 n (h :: ib) -> (forall k, 0 <= k < zlen ib -> zn 0 (h :: ib) k = zn 0 back (zn 0 (h :: ib) (k + 1))) ->
    exists c, chain n (Rn per) c /\ c = rev ib ++ acc /\ score c = Rn cum (last (h :: ib) 0) /\ hd 0 c = last (h :: ib) 0.
  Proof.
    induction ib as [|g ib IH]; intros h acc Hc Hh Hs HW HL.
    - exists acc. cbn [rev app last]. auto.
    - unfold within in HW. apply Forall_cons_iff in HW as [Hh0 HW]. pose proof HW as HW'.
      apply Forall_cons_iff in HW' as [Hg _].
      pose proof (HL 0 ltac:(zl; pose proof (zlen_nonneg ib); lia)) as L0. change (zn 0 (h :: g :: ib) 0) with h in L0.
      change (zn 0 (h :: g :: ib) (0 + 1)) with g in L0.
      destruct (G g Hg) as (M & d0 & G1 & G2 & G3 & G4 & G5 & G6).
      assert (Ed : g - h = d0) by lia.
      destruct acc as [|h' acc]; [destruct Hc as [[] _]|]. cbn [hd] in Hh. subst h'.
      destruct Hc as [Hc1 Hc2].
      destruct (IH g (g :: h :: acc)) as (c & C1 & C2 & C3 & C4).
      + split; [split; auto; apply admissible_iff; [now apply Hper|lia]|]. unfold within in *. constructor; auto.
      + reflexivity.
      + change (score (g :: h :: acc)) with ((1 - alpha) * Rn df g + alpha * (lagw tight (Rn per g) (g - h) * score (h :: acc)))%R.
        rewrite Hs, G1, Ed. destruct G6 as [(-> & E6)|(_ & _ & ->)].
        * specialize (G3 d0 ltac:(lia) ltac:(lia)). replace (g - d0) with h in G3 by lia.
          pose proof (cum_nonneg h Hh0). pose proof (lagw_pos tight (Rn per g) d0).
          assert (lagw tight (Rn per g) d0 * Rn cum h = 0)%R by nra. rewrite H1. ring.
        * replace (g - d0) with h by lia. ring.
      + exact HW.
      + intros k Hk. specialize (HL (k + 1) ltac:(zl; lia)). rewrite (zn_cons 0 h) in HL. rewrite (zn_cons 0 h _ (k + 1 + 1)) in HL.
        revert HL. zcase; try lia. replace (k + 1 - 1) with k by lia. replace (k + 1 + 1 - 1) with (k + 1) by lia. auto.
      + exists c. cbn [rev]. rewrite <- app_assoc. cbn [app]. auto.
  Qed.

  Lemma trace_optimal ib s : ib <> [] -> last ib 0 = s -> within 0 n ib ->
    (zn 0 back (hd 0 ib) <= 0 \/ zn 0 back (hd 0 ib) = hd 0 ib) ->
    (forall k, 0 <= k < zlen ib - 1 -> zn 0 ib k = zn 0 back (zn 0 ib (k + 1)) /\ 0 < zn 0 ib k) ->
    exists c, chain n (Rn per) c /\ hd 0 c = s /\ score c = Rn cum s /\ (rev c = ib \/ rev c = 0 :: ib).
  Proof.
    intros NE LS W ST LK. destruct ib as [|h ib]; [congruence|]. cbn [hd] in ST.
    assert (Hh : 0 <= h < n) by (apply Forall_inv in W; auto).
    destruct (G h Hh) as (M & d0 & G1 & G2 & G3 & G4 & G5 & G6).
    pose proof (drange1 _ (Hper h Hh)) as DR.
    assert (BASE : exists acc, chain n (Rn per) acc /\ hd 0 acc = h /\ score acc = Rn cum h /\ (acc = [h] \/ acc = [h; 0])).
    { destruct G6 as [(-> & _)|(MP & Hd & EM)].
      - exists [h]. splits; auto. + split; [exact Logic.I|constructor; auto]. + cbn [chain_score]. rewrite G1. ring.
      - assert (h - d0 = 0) by lia. exists [h; 0].
        assert (H0 : 0 <= 0 < n) by lia. destruct (G 0 H0) as (M' & d' & G1' & _ & _ & _ & G5' & G6').
        pose proof (drange1 _ (Hper 0 H0)).
        assert (M' = 0%R) by (destruct G6' as [(-> & _)|(_ & X & _)]; auto; lia). subst M'.
        splits; auto.
        + split; [|constructor; [exact Hh|constructor; [exact H0|constructor]]]. split; [|exact Logic.I]. apply admissible_iff; [now apply Hper|lia].
        + cbn [chain_score]. rewrite G1, EM, H. replace (h - 0) with d0 by lia. rewrite G1'. ring. }
    destruct BASE as (acc & B1 & B2 & B3 & B4).
    destruct (extend ib h acc B1 B2 B3 W) as (c & C1 & C2 & C3 & C4).
    - intros k Hk. apply LK. zl. lia.
    - rewrite LS in *. exists c. splits; auto. subst c. rewrite rev_app_distr, rev_involutive.
      destruct B4 as [-> | ->]; [now left|now right].
  Qed.
End Opt.

(** The last beat maximises the score in the window. *)
Lemma start_real n p cum : 1 <= n -> (1 <= p <= IZR n)%R -> zlen cum = n -> (forall i, 0 <= i < n -> (0 <= Rn cum i)%R) ->
  exists s, beat_start A n p cum = OK s /\ 0 <= s < n /\ Zfloor (IZR n - p) <= s /\
    forall i, Zfloor (IZR n - p) <= i < n -> (Rn cum i <= Rn cum s)%R.
Proof.
  intros Hn Hp Lc C0. destruct (beat_start_ok A n p cum) as (s & E & Hs & ind & Ei & Es); auto; [lra|].
  exists s. splits; auto; try lia.
  - assert (from_of n p = Zfloor (IZR n - p)) as F by (apply trunc_pos; lra). rewrite F in Ei.
    set (f := Zfloor (IZR n - p)) in *.
    assert (0 <= f) by (apply Zfloor_ge; lra).
    assert (TS : 0 <= ind -> trunc (IZR (ind + n) - p) = ind + f).
    { intros Hi. apply IZR_le in Hi. rewrite plus_IZR. rewrite trunc_pos by lra. apply Zfloor_unique. rewrite plus_IZR.
      unfold f. destruct (Zfloor_bounds (IZR n - p)). lra. }
    destruct (get_max_ind_ok A (ztab (n - f) (fun k => zn (a_of A 0) cum (f + k)))) as (k & Ek & Hk).
    rewrite Ek in Ei. injection Ei as ->. rewrite TS in Es by lia. assert (f <= n - 1) by (apply Z.lt_succ_r, Zfloor_lt; rewrite <- minus_IZR || idtac; replace (Z.succ (n - 1)) with n by lia; lra). lia.
  - assert (from_of n p = Zfloor (IZR n - p)) as F by (apply trunc_pos; lra). rewrite F in Ei.
    set (f := Zfloor (IZR n - p)) in *. assert (0 <= f) by (apply Zfloor_ge; lra).
    assert (f <= n - 1) by (apply Z.lt_succ_r, Zfloor_lt; replace (Z.succ (n - 1)) with n by lia; lra).
    destruct (max_real (ztab (n - f) (fun k => zn (a_of A 0) cum (f + k)))) as (m & k & _ & Ek & M0 & MX & MI).
    rewrite Ek in Ei. injection Ei as ->. rewrite zlen_ztab in MX, MI.
    assert (Hk : 0 <= ind < n - f) by (destruct MI as [(_ & ->)|(_ & ? & _)]; lia).
    assert (TS : trunc (IZR (ind + n) - p) = ind + f).
    { assert (0 <= IZR ind)%R by (apply IZR_le; lia). rewrite plus_IZR. rewrite trunc_pos by lra. apply Zfloor_unique. rewrite plus_IZR.
      unfold f. destruct (Zfloor_bounds (IZR n - p)). lra. }
    rewrite TS in Es. assert (s = f + ind) by lia. subst s.
    intros i Hi. specialize (MX (i - f) ltac:(lia)). rewrite zn_ztab in MX by lia. replace (f + (i - f)) with i in MX by lia.
    change (a_of A 0) with 0%R in *. rewrite H1.
    destruct MI as [(-> & ->)|(MP & _ & EM)].
    + specialize (C0 (f + 0) ltac:(lia)). lra.
    + rewrite zn_ztab in EM by lia. lra.
Qed.

(** Calculated beats are an optimal chain (with whole-frame periods, as calculateBeatPeriod yields). *)
Lemma chain_score_ext alpha w w' df per c : (forall i, In i c -> forall d, w (per i) d = w' (per i) d) ->
  chain_score alpha w df per c = chain_score alpha w' df per c.
Proof.
  induction c as [|i c IH]; intros H; [reflexivity|]. cbn [chain_score]. f_equal. destruct c as [|j c]; auto.
  rewrite IH by (intros; apply H; now right). rewrite H by now left. reflexivity.
Qed.

Theorem beats_optimal tight alpha df ks beats :
  let n := zlen df in let per := map IZR ks in let last := zn 0 ks (zlen ks - 1) in
  let score := chain_score alpha (log_gauss tight) (Rn df) (Rn per) in
  1 <= n -> n <= zlen ks -> Forall (fun k => 1 <= k) ks -> last <= n ->
  (0 <= alpha <= 1)%R -> (forall i, 0 <= i < n -> (0 <= Rn df i)%R) ->
  exists new c, calculateBeats A (wtR tight) alpha df per beats = OK (beats ++ new) /\
    (rev c = new \/ rev c = 0 :: new) /\
    (forall k, 0 <= k < zlen new - 1 -> 0 < zn 0 new k) /\
    chain n (Rn per) c /\ n - last <= hd 0 c /\
    forall c', chain n (Rn per) c' -> n - last <= hd 0 c' -> (score c' <= score c)%R.
Proof.
  intros n per last score Hn Hl HK HL HA HD.
  assert (Lp : zlen per = zlen ks) by (unfold per; now rewrite zlen_map).
  assert (PK : forall i, 0 <= i < zlen ks -> Rn per i = IZR (zn 0 ks i) /\ 1 <= zn 0 ks i).
  { intros i Hi. unfold per. rewrite (zn_map IZR 0) by lia. split; auto. rewrite Forall_forall in HK. apply HK.
    unfold zn. destruct (Z.ltb_spec i 0); [lia|]. apply nth_In. unfold zlen in *. lia. }
  assert (P1 : forall i, 0 <= i < n -> (1 <= Rn per i)%R).
  { intros i Hi. destruct (PK i ltac:(lia)) as [-> H]. now apply IZR_le. }
  destruct (scores_real tight alpha df per) as (cum & back & E & Lc & Lb & G); auto; [lia|].
  destruct (PK (zlen ks - 1) ltac:(lia)) as [PL HL1]. fold last in PL, HL1.
  destruct (start_real n (IZR last) cum) as (s & Es & Hs & Hs2 & SM); auto; try (split; apply IZR_le; lia).
  { apply (cum_nonneg tight alpha df per cum back); auto; lra. }
  assert (FL : Zfloor (IZR n - IZR last) = n - last) by (rewrite <- minus_IZR; apply Zfloor_IZR).
  rewrite FL in *.
  destruct (back_ok n back s) as (ib & b & Eb & N & LS & Inc & Wi & ST & LK); auto.
  { intros i Hi. destruct (G i Hi) as (M & d0 & _ & _ & _ & -> & G5 & _). pose proof (drange1 _ (P1 i Hi)). lia. }
  destruct (trace_optimal tight alpha df per cum back P1 G (proj1 HA) (proj2 HA) HD ib s) as (c & C1 & C2 & C3 & C4); auto.
  assert (SC : forall c', chain n (Rn per) c' -> score c' = chain_score alpha (lagw tight) (Rn df) (Rn per) c').
  { intros c' [_ W]. unfold score. symmetry. apply chain_score_ext. intros i Hi d. unfold within in W. rewrite Forall_forall in W.
    destruct (PK i) as [-> H]; [specialize (W i Hi); lia|]. now apply lagw_int. }
  exists ib, c. splits; auto.
  - unfold calculateBeats. fold n. destruct (Z.eqb_spec n 0); [lia|]. destruct (Z.eqb_spec (zlen per) 0); [lia|]. cbn [orb].
    rewrite E. cbn [bind]. rewrite (aget_OK 0%R) by lia. cbn [bind]. rewrite Lp, PL, Es. cbn [bind]. rewrite Eb. reflexivity.
  - intros k Hk. now apply LK.
  - lia.
  - intros c' Hc' Hw. rewrite !SC by auto. rewrite C3.
    eapply Rle_trans; [apply (upper tight alpha df per cum back); auto; lra|]. apply SM.
    destruct Hc' as [O W]. destruct c' as [|x c']; [cbn in O; tauto|]. apply Forall_inv in W. cbn [hd] in *. lia.
Qed.

(** Frame 0 is left out even when the best chain starts there. *)
Theorem beats_omit_zero : exists df ks alpha new c',
  calculateBeats A (wtR 4) alpha df (map IZR ks) [] = OK new /\
  chain (zlen df) (Rn (map IZR ks)) (rev new) /\ chain (zlen df) (Rn (map IZR ks)) c' /\ hd 0 c' = last new 0 /\
  (chain_score alpha (log_gauss 4) (Rn df) (Rn (map IZR ks)) (rev new) <
   chain_score alpha (log_gauss 4) (Rn df) (Rn (map IZR ks)) c')%R.
Proof.
  set (df := [1%R; 0%R]). set (ks := [1; 1]). set (al := (1 / 2)%R).
  destruct (beats_optimal 4 al df ks []) as (new & c & E & C & P & (O & W) & Hh & Opt).
  - change (1 <= 2); lia.
  - change (2 <= 2); lia.
  - repeat constructor; lia.
  - change (1 <= 2); lia.
  - unfold al; lra.
  - intros i Hi. assert (i = 0 \/ i = 1) as [-> | ->] by (change (zlen df) with 2 in Hi; lia); [change (0 <= 1)%R|change (0 <= 0)%R]; lra.
  - change (zlen df) with 2 in *. change (zn 0 ks (zlen ks - 1)) with 1 in Hh.
    assert (CH : chain 2 (Rn (map IZR ks)) [1; 0]).
    { split; [split; [|exact Logic.I]|repeat constructor; lia]. replace (Rn (map IZR ks) 1) with 1%R by reflexivity. apply admissible_iff; [lra|]. unfold dmin, dmax.
      rewrite (Zfloor_unique (1 / 2 + / 2) 1) by lra. rewrite (Zfloor_unique (2 * 1) 2) by lra. lia. }
    assert (S10 : chain_score al (log_gauss 4) (Rn df) (Rn (map IZR ks)) [1; 0] = (1 / 4)%R).
    { unfold chain_score. replace (Rn (map IZR ks) 1) with 1%R by reflexivity. change (1 - 0) with 1.
      replace (Rn df 1) with 0%R by reflexivity. replace (Rn df 0) with 1%R by reflexivity.
      assert (LG : log_gauss 4 1 1 = 1%R).
      { unfold log_gauss. replace (1 / 1)%R with 1%R by lra. rewrite ln_1.
        replace (- / 2 * (4 * 0) ^ 2)%R with 0%R by ring. apply exp_0. }
      rewrite LG. unfold al. lra. }
    assert (S1 : chain_score al (log_gauss 4) (Rn df) (Rn (map IZR ks)) [1] = 0%R) by (unfold chain_score; replace (Rn df 1) with 0%R by reflexivity; ring).
    (* the returned chain is [1] *)
    assert (EN : new = [1]).
    { destruct c as [|x c]; [destruct O|]. cbn [hd] in Hh.
      assert (x = 1) by (apply Forall_inv in W; lia). subst x.
      assert (c = [] \/ c = [0]) as [-> | ->].
      { destruct c as [|y c]; auto. right. destruct O as [[_ A1] O2]. unfold within in W. apply Forall_cons_iff in W as [_ W]. 
        apply Forall_cons_iff in W as [Hy W]. assert (y = 0) by lia. subst y. destruct c as [|w c]; auto.
        destruct O2 as [[_ A2] _]. apply Forall_cons_iff in W as [Hw _]. lia. }
      - exfalso. specialize (Opt [1; 0] CH ltac:(change (2 - 1 <= 1); lia)). rewrite S10, S1 in Opt. lra.
      - cbn [rev app] in C. destruct C as [<-|C]; [|now injection C as <-].
        specialize (P 0 ltac:(zl; lia)). cbn in P. lia. }
    subst new. exists df, ks, al, [1], [1; 0]. cbn [app] in E. splits; auto.
    + split; [exact Logic.I|]. repeat constructor; cbn; lia.
    + cbn [rev app]. rewrite S1, S10. lra.
Qed.

(** A last beat period longer than the data makes the code read before the array. *)
Theorem beats_short_input {T} (B : arith T) wt alpha df per beats :
  1 <= zlen df <= zlen per -> (forall i, 0 <= i < zlen per -> (0 <= zn 0 per i)%R) ->
  (IZR (zlen df) + 1 <= zn 0 per (zlen per - 1))%R ->
  calculateBeats B wt alpha df per beats = UB.
Proof.
  intros Hl Hp Hlast. unfold calculateBeats.
  destruct (Z.eqb_spec (zlen df) 0); [lia|]. destruct (Z.eqb_spec (zlen per) 0); [lia|]. cbn [orb].
  destruct (scores_ok B wt alpha df per) as (cum & back & E & Lc & Lb & V); [lia|intros; apply Hp; lia|].
  rewrite E. cbn [bind]. rewrite (aget_OK 0%R) by lia. cbn [bind].
  unfold beat_start. set (p := Rn per (zlen per - 1)) in *.
  assert (trunc (IZR (zlen df) - p) <= -1).
  { unfold trunc. destruct (Rltb_spec (IZR (zlen df) - p) 0); [|lra].
    assert (1 <= Zfloor (- (IZR (zlen df) - p))) by (apply Zfloor_ge; lra). lia. }
  rewrite for_up_first by lia. unfold aget at 1. destruct (Z.ltb_spec (trunc (IZR (zlen df) - p)) 0); [reflexivity|lia].
Qed.
