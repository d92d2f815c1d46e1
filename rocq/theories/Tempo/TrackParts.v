(** The functions of the older tempo tracker one by one. *)
From Coq Require Import List ZArith Reals Lia Lra Bool.
From Verif.Base Require Import Imp RealOps Matrix Tables Arith Loops.
From Verif.Maths Require Import RealModel.
From Verif.Tempo Require Import BeatModel TrackModel TrackSpec.
Import ListNotations.
Open Scope Z_scope.

(** Rounding a period that lies above m + 1/8 and below m + 3/2. *)
Lemma round_period m x : 0 <= m -> (IZR m <= x < IZR m + 3 / 2)%R -> m <= round_away x <= m + 1.
Proof.
  intros Hm Hx. apply IZR_le in Hm. unfold round_away. destruct (Rltb_spec x 0); [lra|].
  destruct (Zfloor_bounds (x + / 2)) as [B1 B2].
  assert (K1 : (IZR m < IZR (Zfloor (x + / 2) + 1))%R) by (rewrite plus_IZR; lra).
  assert (K2 : (IZR (Zfloor (x + / 2)) < IZR (m + 2))%R) by (rewrite plus_IZR; lra).
  apply lt_IZR in K1. apply lt_IZR in K2. lia.
Qed.

Section Parts.
  Context {T S : Type} (E : env T S).
  Local Notation A := (e_arith E).
  Local Notation "0.0" := (a_of A 0).

  Lemma fill_const {X} (n : Z) (g : Z -> X) l : zlen l = n -> for_up 0 n (fun i f => aset f i (g i)) l = OK (ztab n g).
  Proof.
    intros H. rewrite (for_up_tab n _ g) by (try lia; auto; zl; pose proof (zlen_nonneg l); lia).
    rewrite skipn_all2 by (unfold zlen in H; lia). now rewrite app_nil_r.
  Qed.

  Lemma comb_ok lag w b : zlen w = lag -> comb_filter E w lag b = OK (ztab lag (if Reqb b 0 then e_rayleigh E else e_gauss E b)).
  Proof. intros H. unfold comb_filter. destruct (Reqb b 0); apply fill_const; auto. Qed.

  (** The filterbank stays within arrays; predicates that every addition establishes hold of the outputs. *)
  Lemma filterbank_ok (Q Qs : T -> Prop) lag acf w tsig sc : 0 <= lag -> zlen sc = lag -> zlen w = lag ->
    tsig = 0 \/ tsig = 3 \/ tsig = 4 -> 4 * lag - 1 <= zlen acf -> Q 0.0 -> (forall x, Qs x -> Q x) ->
    (forall s i k c, 0 <= i < lag -> 0 <= k < zlen acf -> Q s -> c = a_of A 1 \/ (exists a, 1 <= a /\ c = a_div A (a_of A 1) (a_of A (2 * a - 1))) ->
       Qs (a_add A s (a_mul A (a_mul A (zn 0.0 acf k) c) (zn 0.0 w i)))) ->
    exists x, filterbank E lag acf w tsig sc = OK x /\ zlen x = lag /\ (1 <= lag -> zn 0.0 x 0 = 0.0) /\
      forall i, 1 <= i < lag - 1 -> Qs (zn 0.0 x i).
  Proof.
    intros Hl Ls Lw Ht Ha Q0 QQ Hstep. unfold filterbank. rewrite (fill_const lag (fun _ => 0.0)) by auto. ret.
    set (ne := if tsig =? 0 then 4 else tsig). assert (Hne : 3 <= ne <= 4) by (unfold ne; destruct (Z.eqb_spec tsig 0); lia).
    destruct (Z_lt_le_dec lag 2) as [Sm|Bg].
    { rewrite for_up_empty by lia. eexists; split; [reflexivity|]. splits; [zl; lia| |intros; lia]. intros. now rewrite zn_ztab by lia. }
    match goal with |- exists x, for_up 1 _ ?f ?s = _ /\ _ =>
      destruct (for_up_inv (fun i x => zlen x = lag /\ (forall j, i <= j < lag -> zn 0.0 x j = 0.0) /\ zn 0.0 x 0 = 0.0 /\ forall j, 1 <= j < i -> Qs (zn 0.0 x j)) 1 (lag - 1) f s)
        as (x & Ex & Lx & _ & X0 & HQ) end.
    - lia.
    - splits; [zl; lia| | |intros; lia]; intros; now rewrite zn_ztab by lia.
    - intros i x Hi (Lx & Hz & X0 & HQ). clear sc Ls.
      match goal with |- exists s', for_up 1 _ ?f ?s = _ /\ _ =>
        destruct (for_up_inv (fun a y => zlen y = lag /\ (forall j, 0 <= j < lag -> j <> i -> zn 0.0 y j = zn 0.0 x j) /\
          (Q (zn 0.0 y i)) /\ (2 <= a -> Qs (zn 0.0 y i))) 1 (ne + 1) f s) as (y & Ey & Ly & Hy & _ & Hs) end.
      + lia.
      + splits; auto; [|lia]. rewrite Hz by lia. auto.
      + intros a y Ha' (Ly & Hy & Qy & _).
        match goal with |- exists s', for_up (1 - a) a ?f ?s = _ /\ _ =>
          destruct (for_up_inv (fun b z => zlen z = lag /\ (forall j, 0 <= j < lag -> j <> i -> zn 0.0 z j = zn 0.0 x j) /\
            (Q (zn 0.0 z i)) /\ (1 - a < b -> Qs (zn 0.0 z i))) (1 - a) a f s) as (z & Ez & Lz & Hz' & Qz & Hs) end.
        * lia.
        * splits; auto; lia.
        * intros b z Hb (Lz & Hz' & Qz & _).
          rewrite (aget_OK 0.0) by lia. ret. rewrite (aget_OK 0.0) by nia. ret. rewrite (aget_OK 0.0) by lia. ret.
          rewrite aset_OK by lia. eexists; split; [reflexivity|].
          assert (Qs (a_add A (zn 0.0 z i) (a_mul A (a_mul A (zn 0.0 acf (a * (i + 1) + b - 1))
                   (if tsig =? 0 then a_div A (a_of A 1) (a_of A (2 * a - 1)) else a_of A 1)) (zn 0.0 w i)))).
          { apply Hstep; auto; try lia; try nia. destruct (tsig =? 0); [right; exists a; split; [lia|reflexivity]|left; reflexivity]. }
          splits; [zl; lia| | |]; intros; rewrite zn_upd by lia; destruct (Z.eqb_spec i i); try lia; auto.
          destruct (Z.eqb_spec j i); [lia|auto].
        * exists z. splits; auto. intros. apply Hs. lia.
      + exists y. splits; auto.
        * intros j Hj. rewrite Hy by lia. apply Hz. lia.
        * rewrite Hy by lia. auto.
        * intros j Hj. destruct (Z.eq_dec j i) as [-> |Hn]; [apply Hs; lia|]. rewrite Hy by lia. apply HQ. lia.
    - exists x. splits; auto.
  Qed.

  Lemma highest_ok lag x : 1 <= lag -> zlen x = lag -> zn 0.0 x 0 = 0.0 ->
    exists m, highest E lag x = OK m /\ 0 <= m < lag /\ ((exists i, 1 <= i < lag /\ a_lt A 0.0 (zn 0.0 x i) = true) -> 1 <= m).
  Proof.
    intros Hl Lx X0. unfold highest.
    match goal with |- context [for_up 0 lag ?f ?s] =>
      destruct (for_up_inv (fun i '(mx, ix) => 0 <= ix < lag /\ (1 <= ix \/ (ix = 0 /\ mx = 0.0 /\ forall k, 1 <= k < i -> a_lt A 0.0 (zn 0.0 x k) = false))) 0 lag f s)
        as ((mx & ix) & -> & H1 & H2) end.
    - lia.
    - split; [lia|]. right. splits; auto. intros; lia.
    - intros i (mx & ix) Hi (H1 & H2). rewrite (aget_OK 0.0) by lia. ret.
      destruct (a_lt A mx (zn 0.0 x i)) eqn:L; eexists; (split; [reflexivity|]); split; try lia.
      + destruct (Z.eq_dec i 0) as [-> |Hn]; [|lia]. right. splits; auto. intros; lia.
      + destruct H2 as [H2|(-> & -> & H2)]; [lia|]. right. splits; auto. intros k Hk. destruct (Z.eq_dec k i) as [-> |]; [auto|apply H2; lia].
    - ret. exists ix. splits; auto; try lia. intros (i & Hi & L). destruct H2 as [H2|(_ & _ & H2)]; [lia|]. rewrite H2 in L by lia. discriminate.
  Qed.

  Lemma repeat_row {X} (x : X) m : 0 <= m -> repeat x (Z.to_nat m) = ztab m (fun _ => x).
  Proof.
    intros H. apply (zn_ext x); [zl; lia|]. intros k Hk. zl. rewrite zn_repeat. now rewrite zn_ztab by lia.
  Qed.
  Lemma repeat_square {X} (d : X) n : 0 <= n -> repeat (repeat d (Z.to_nat n)) (Z.to_nat n) = tab2 n n (fun _ _ => d).
  Proof. intros H. rewrite (repeat_row (repeat d (Z.to_nat n))) by lia. unfold tab2. apply ztab_ext. intros _ _. now apply repeat_row. Qed.

  Lemma best_pair_ok lag rcf sc : 2 <= lag -> zlen rcf = lag -> zlen sc = lag ->
    exists sc' m, best_pair E lag rcf sc = OK (sc', m) /\ zlen sc' = lag /\ 1 <= m < lag.
  Proof.
    intros Hl Lr Ls. unfold best_pair.
    rewrite (for_up_tab lag _ (zn 0.0 rcf)); [|lia|]. 2:{ intros i s Hi Hs _ _. rewrite (aget_OK 0.0) by lia. reflexivity. }
    rewrite skipn_all2 by (unfold zlen in Ls; lia). rewrite app_nil_r. ret.
    match goal with |- context [for_up 0 lag ?f 0.0] => destruct (for_up_inv (fun _ _ => True) 0 lag f 0.0) as (sum & -> & _); auto; try lia end.
    { intros i s Hi _. rewrite aget_tab by lia. ret. eauto. } ret.
    match goal with |- context [for_up 0 lag ?f ?s] =>
      destruct (for_up_inv (fun _ x => zlen x = lag) 0 lag f s) as (x & -> & Lx) end; [lia|zl; lia| |].
    { intros i s Hi Hs. rewrite (aget_OK 0.0) by lia. ret. rewrite aset_OK by lia. eexists; split; [reflexivity|]. zl; lia. } ret.
    rewrite repeat_square by lia.
    match goal with |- context [for_up 1 lag ?f (tab2 lag lag ?g)] =>
      destruct (for_up_inv (fun _ m => exists h, m = tab2 lag lag h) 1 lag f (tab2 lag lag g)) as (? & -> & (h & ->)); [lia|eauto| |] end.
    { intros i m Hi (h & ->).
      match goal with |- context [for_up 1 lag ?f (tab2 lag lag ?g)] =>
        destruct (for_up_inv (fun _ m => exists h, m = tab2 lag lag h) 1 lag f (tab2 lag lag g)) as (? & -> & (h' & ->)); [lia|eauto| |eauto] end.
      intros j m Hj (h' & ->). rewrite mput_tab by lia. ret. rewrite !(aget_OK 0.0) by lia. ret. rewrite ?(aget_OK 0.0) by lia. ret. rewrite mget_tab by lia. ret.
      rewrite mput_tab by lia. eauto. } ret.
    match goal with |- context [for_up 1 lag ?f 0.0] => destruct (for_up_inv (fun _ _ => True) 1 lag f 0.0) as (mx & -> & _); auto; try lia end.
    { intros i s Hi _. match goal with |- context [for_up 1 lag ?f s] => destruct (for_up_inv (fun _ _ => True) 1 lag f s) as (mx & -> & _); auto; try lia; eauto end.
      intros j s' Hj _. rewrite mget_tab by lia. ret. eauto. } ret.
    match goal with |- context [for_up 1 lag ?f (tab2 lag lag ?g)] =>
      destruct (for_up_inv (fun _ m => exists h, m = tab2 lag lag h) 1 lag f (tab2 lag lag g)) as (? & -> & (h2 & ->)); [lia|eauto| |] end.
    { intros i m Hi (h' & ->). rewrite mput_tab by lia. eauto. } ret.
    match goal with |- context [for_up 1 lag ?f (mx, 1, 1)] =>
      destruct (for_up_inv (fun _ '(_, pi, pj) => 1 <= pi < lag /\ 1 <= pj < lag) 1 lag f (mx, 1, 1)) as (((mn & pi) & pj) & -> & H1 & H2); [lia|lia| |] end.
    { intros i ((mn & pi) & pj) Hi (H1 & H2).
      match goal with |- context [for_up 1 lag ?f ?s] =>
        destruct (for_up_inv (fun _ '(_, pi, pj) => 1 <= pi < lag /\ 1 <= pj < lag) 1 lag f s) as (((mn' & pi') & pj') & -> & H3); [lia|lia| |eexists; split; [reflexivity|exact H3]] end.
      intros j ((mn' & pi') & pj') Hj (H3 & H4). rewrite mget_tab by lia. ret. destruct (a_lt A (h2 i j) mn'); eexists; (split; [reflexivity|]); cbv beta iota; lia. } ret.
    rewrite !(aget_OK 0.0) by lia. ret. rewrite ?(aget_OK 0.0) by lia. ret. do 2 eexists; split; [reflexivity|]. split; auto. destruct (a_lt A _ _); lia.
  Qed.

  Lemma peak_in_ok acf lo hi : 0 <= lo < hi -> hi <= zlen acf -> exists k, peak_in E acf lo hi = OK k /\ 0 <= k < hi - lo.
  Proof.
    intros Hl Hh. unfold peak_in.
    match goal with |- context [for_up lo hi ?f ?s] =>
      destruct (for_up_inv (fun i '(_, ix, count) => count = i - lo /\ 0 <= ix < hi - lo) lo hi f s) as (((mx & ix) & count) & -> & H1 & H2) end; try lia.
    { intros i ((mx & ix) & count) Hi (-> & H). rewrite (aget_OK 0.0) by lia. ret. destruct (a_lt A mx _); eexists; (split; [reflexivity|]); cbv beta iota; lia. }
    ret. eauto.
  Qed.

  Definition new_locked (m : Z) (locked : R) : R :=
    if m =? 0 then locked else let l := (5168 / IZR m)%R in if negb (Rltb l 30) && negb (Rltb 180 l) then l else locked.

  Lemma new_locked_ok lag m l : 0 <= m < lag -> tempo_value lag l -> tempo_value lag (new_locked m l).
  Proof.
    intros Hm Hl. unfold new_locked. destruct (Z.eqb_spec m 0); auto. cbv zeta.
    destruct (Rltb_spec (5168 / IZR m) 30); cbn [negb andb]; auto. destruct (Rltb_spec 180 (5168 / IZR m)); cbn [negb]; auto.
    right. exists m. splits; auto; lia || lra.
  Qed.

  (** tempoMM, whatever the smoother makes of the filterbank outputs. *)
  Lemma tempoMM_ok lag s2 sc rcf locked acf w tsig x s2' rcf' : 2 <= lag -> zlen sc = lag -> tsig = 0 \/ tsig = 3 \/ tsig = 4 ->
    4 * lag + 3 <= zlen acf -> filterbank E lag acf w tsig sc = OK x -> zlen x = lag -> zn 0.0 x 0 = 0.0 ->
    e_rcf E s2 x rcf = OK (s2', rcf') -> zlen rcf' = lag ->
    exists sc' m per, tempoMM E lag s2 sc rcf locked acf w tsig = OK (s2', sc', rcf', new_locked m locked, per) /\ zlen sc' = lag /\
      0 <= m < lag /\ (IZR m <= per < IZR m + 3 / 2)%R /\ (tsig = 0 -> 1 <= m) /\ ((exists i, 1 <= i < lag /\ a_lt A 0.0 (zn 0.0 x i) = true) -> 1 <= m).
  Proof.
    intros Hl Ls Ht Ha Ef Lx X0 Er Lr. unfold tempoMM. rewrite Ef. ret. rewrite Er. ret.
    assert (M : exists sc' m, (if negb (tsig =? 0) then m <- highest E lag x;; OK (x, m) else best_pair E lag rcf' x) = OK (sc', m) /\ zlen sc' = lag /\
      0 <= m < lag /\ (tsig = 0 -> 1 <= m) /\ ((exists i, 1 <= i < lag /\ a_lt A 0.0 (zn 0.0 x i) = true) -> 1 <= m)).
    { destruct (Z.eqb_spec tsig 0) as [-> |Hn]; cbn [negb].
      - destruct (best_pair_ok lag rcf' x) as (sc' & m & -> & L' & Hm); auto. exists sc', m. splits; auto; lia.
      - destruct (highest_ok lag x) as (m & -> & Hm & H1); auto; [lia|]. ret. exists x, m. splits; auto; lia. }
    destruct M as (sc' & m & -> & Ls' & Hm & M1 & M2). ret. cbv zeta.
    destruct (peak_in_ok acf (2 * m + 1 - 1) (2 * m + 1 + 2)) as (i1 & -> & H1); [lia|lia|]. ret.
    destruct (peak_in_ok acf (3 * m + 2 - 2) (3 * m + 2 + 3)) as (i2 & -> & H2); [lia|lia|]. ret.
    assert (C1 : (0 <= IZR i1 <= 2)%R) by (split; [apply IZR_le; lia|apply (IZR_le _ 2); lia]).
    assert (C2 : (0 <= IZR i2 <= 4)%R) by (split; [apply IZR_le; lia|apply (IZR_le _ 4); lia]).
    set (per_case := if (if tsig =? 0 then 4 else tsig) =? 4 then _ else _).
    assert (Pc : exists per, per_case = OK per /\ (IZR m <= per < IZR m + 3 / 2)%R).
    { unfold per_case. destruct ((if tsig =? 0 then 4 else tsig) =? 4).
      - destruct (peak_in_ok acf (4 * m + 3 - 3) (4 * m + 3 + 4)) as (i3 & -> & H3); [lia|lia|]. ret.
        assert (C3 : (0 <= IZR i3 <= 6)%R) by (split; [apply IZR_le; lia|apply (IZR_le _ 6); lia]).
        unfold mean_, sum_. cbn -[IZR Z.mul Z.add Z.sub Rdiv]. eexists; split; [reflexivity|].
        repeat rewrite ?plus_IZR, ?minus_IZR, ?mult_IZR. lra.
      - unfold mean_, sum_. cbn -[IZR Z.mul Z.add Z.sub Rdiv]. eexists; split; [reflexivity|].
        repeat rewrite ?plus_IZR, ?minus_IZR, ?mult_IZR. lra. }
    destruct Pc as (per & -> & Hp). ret. exists sc', m, per. splits; auto; lia || lra.
  Qed.

  Lemma sum_acf_ok acf lo hi : 0 <= lo <= hi -> hi <= zlen acf -> exists v, sum_acf E acf lo hi = OK v.
  Proof.
    intros H1 H2. unfold sum_acf. match goal with |- context [for_up lo hi ?f ?s] => destruct (for_up_inv (fun _ _ => True) lo hi f s) as (v & -> & _); auto; try lia; eauto end.
    intros i s Hi _. rewrite (aget_OK 0.0) by lia. ret. eauto.
  Qed.

  Lemma find_meter_ok acf len per : zlen acf = len -> 1 <= round_away per -> 4 * round_away per + 3 <= len -> len <> 6 * round_away per + 2 ->
    exists ts, find_meter E acf len per = OK ts /\ (ts = 3 \/ ts = 4).
  Proof.
    intros La Hp H4 H6. unfold find_meter. set (p := round_away per) in *.
    match goal with |- context [if len <? 6 * p + 2 then ?a else ?b] => assert (C : exists e, (if len <? 6 * p + 2 then a else b) = OK e) end.
    { destruct (Z.ltb_spec len (6 * p + 2)).
      - match goal with |- context [for_up (3 * p - 2) (3 * p + 2 + 1) ?f ?s] =>
          destruct (for_up_inv (fun i '(_, t, dbf) => t = i - (3 * p - 2) /\ zlen dbf = len) (3 * p - 2) (3 * p + 2 + 1) f s) as (((e & t) & dbf) & -> & _) end.
        + lia.
        + split; [lia|]. zl. lia.
        + intros i ((e & t) & dbf) Hi (-> & Ld). rewrite (aget_OK 0.0) by lia. ret. rewrite aset_OK by lia. ret. eexists; split; [reflexivity|]. split; [lia|zl; lia].
        + ret. destruct (sum_acf_ok acf (4 * p - 2) (4 * p + 2 + 1)) as (v & ->); [lia|lia|]. ret. eauto.
      - destruct (sum_acf_ok acf (3 * p - 2) (3 * p + 2 + 1)) as (? & ->); [lia|lia|]. ret.
        destruct (sum_acf_ok acf (4 * p - 2) (4 * p + 2 + 1)) as (? & ->); [lia|lia|]. ret.
        destruct (sum_acf_ok acf (6 * p - 2) (6 * p + 2 + 1)) as (? & ->); [lia|lia|]. ret.
        destruct (sum_acf_ok acf (2 * p - 2) (2 * p + 2 + 1)) as (? & ->); [lia|lia|]. ret. eauto. }
    destruct C as ((e3 & e4) & ->). ret. eexists; split; [reflexivity|]. destruct (a_lt A e4 e3); auto.
  Qed.

  Lemma phase_extractor_ok f per fsp last : 0 <= round_away per <= zlen f -> last = 0 \/ last < fsp ->
    exists f', phase_extractor E f per fsp last = OK f' /\ zlen f' = zlen f.
  Proof.
    intros Hp Hl. unfold phase_extractor. set (p := round_away per) in *. destruct (Z.ltb_spec (p * 2 + 2) 0); [lia|].
    set (po := if negb (last =? 0) then last + p - fsp else 0).
    destruct (Z.eqb_spec (if negb (last =? 0) && (po <? 0) then 0 else last) 0) as [Z0|N0]; cbn [negb].
    - match goal with |- context [for_up 0 p ?g ?s] => destruct (for_up_inv (fun _ x => zlen x = zlen f) 0 p g s) as (x & -> & Lx); auto; try lia; eauto end.
      intros i s Hi Hs. rewrite aset_OK by lia. eexists; split; [reflexivity|]. zl; lia.
    - assert (Hpo : last <> 0 /\ 0 <= po /\ po = last + p - fsp).
      { destruct (Z.eqb_spec last 0); cbn [negb andb] in *; [lia|]. destruct (Z.ltb_spec po 0); [lia|]. unfold po. lia. }
      match goal with |- context [for_up 0 (p * 2) ?g (repeat ?d ?n)] =>
        destruct (for_up_inv (fun _ x => zlen x = p * 2 + 2) 0 (p * 2) g (repeat d n)) as (x & -> & Lx); [lia|zl; lia| |] end.
      { intros i s Hi Hs. rewrite aset_OK by lia. eexists; split; [reflexivity|]. zl; lia. } ret.
      match goal with |- context [if p * 2 =? 0 then ?a else ?b] => assert (C : exists e, (if p * 2 =? 0 then a else b) = OK e) end.
      { destruct (Z.eqb_spec (p * 2) 0); [eauto|]. unfold frame_min_max. rewrite (aget_OK 0.0) by lia. ret.
        match goal with |- context [for_up 0 (p * 2) ?g ?s] => destruct (for_up_inv (fun _ _ => True) 0 (p * 2) g s) as (v & -> & _); auto; try lia; eauto end.
        intros i (mn & mx) Hi _. rewrite (aget_OK 0.0) by lia. ret. eauto. }
      destruct C as ((mn & mx) & ->). ret.
      match goal with |- context [for_up 0 (p * 2) ?g x] =>
        destruct (for_up_inv (fun _ x => zlen x = p * 2 + 2) 0 (p * 2) g x) as (z & -> & Lz); auto; [lia| |] end.
      { intros i s Hi Hs. rewrite (aget_OK 0.0) by lia. ret. rewrite aset_OK by lia. eexists; split; [reflexivity|]. zl; lia. } ret.
      match goal with |- context [for_up ?lo ?hi ?g (0, f)] =>
        destruct (for_up_inv (fun i '(ix, y) => ix = i - lo /\ zlen y = zlen f) lo hi g (0, f)) as ((ix & y) & -> & _ & Ly); [lia|split; [lia|reflexivity]| |] end.
      { intros i (ix & y) Hi (-> & Ly). rewrite (aget_OK 0.0) by lia. ret. rewrite aset_OK by lia. ret. eexists; split; [reflexivity|]. split; [lia|zl; lia]. }
      ret. eauto.
  Qed.

  Lemma phaseMM_ok df w win per : zlen df = win -> 0 <= round_away per <= zlen w ->
    exists al, phaseMM E df w win per = OK al /\ 0 <= al /\ (al < round_away per \/ al = 0).
  Proof.
    intros Ld Hp. unfold phaseMM. set (p := round_away per) in *. destruct (Z.ltb_spec p 0); [lia|].
    pose proof (zlen_nonneg df) as Hw.
    rewrite (fill_const win) by (zl; lia). ret.
    match goal with |- context [for_up 0 p ?g (repeat ?d ?n)] =>
      destruct (for_up_inv (fun _ x => zlen x = p) 0 p g (repeat d n)) as (al & -> & La); [lia|zl; lia| |] end.
    { intros o al Ho La.
      match goal with |- context [while ?fu ?c ?b ?s0] =>
        pose proof (while_inv (fun '(i, _) => 0 <= i) (fun '(i, _) => Z.to_nat (win - i)) c b) as HW;
        match type of HW with ?X -> _ => assert (HW1 : X); [|destruct (HW HW1 fu s0) as ((i & tmp) & -> & _)] end end.
      - intros (i & tmp) Hi C. apply Z.ltb_lt in C. rewrite (aget_OK 0.0) by lia. ret. rewrite aget_tab by lia. ret. eexists; split; [reflexivity|]. cbv beta iota. lia.
      - lia.
      - lia.
      - ret. rewrite (aget_OK 0.0) by lia. ret. rewrite aset_OK by lia. eexists; split; [reflexivity|]. zl; lia. }
    ret.
    match goal with |- context [for_up 0 p ?g ?s] =>
      destruct (for_up_inv (fun _ '(_, ix) => 0 <= ix /\ (ix < p \/ ix = 0)) 0 p g s) as ((mx & ix) & -> & Hx); [lia|lia| |] end.
    { intros i (mx & ix) Hi Hx. rewrite (aget_OK 0.0) by lia. ret. destruct (a_lt A mx _); eexists; (split; [reflexivity|]); cbv beta iota; lia. }
    ret. eexists; split; [reflexivity|]. cbv beta iota. lia.
  Qed.

  (** A while loop that steps by [p] until [fep]. *)
  Lemma predict_loop fuel fep p beats : 1 <= p -> forall beat l, beat < fep -> fep - beat <= Z.of_nat fuel ->
    beats = l ++ [beat] ->
    exists n, 0 <= n /\ beat + n * p < fep <= beat + (n + 1) * p /\
      while fuel (fun '(beat, _) => beat + p <? fep) (fun '(beat, beats) => OK (beat + p, beats ++ [beat + p])) (beat, beats) =
        OK (beat + n * p, l ++ ztab (n + 1) (fun j => beat + j * p)).
  Proof.
    intros Hp. revert beats. induction fuel as [|fuel IH]; intros beats beat l Hb Hf ->; cbn [while].
    - lia.
    - destruct (Z.ltb_spec (beat + p) fep) as [Lt|Ge].
      + cbn [bind]. destruct (IH ((l ++ [beat]) ++ [beat + p]) (beat + p) (l ++ [beat])) as (n & Hn & B & ->); auto; try lia.
        exists (n + 1). splits; [lia|lia|lia|]. replace (beat + p + n * p) with (beat + (n + 1) * p) by ring. f_equal. f_equal.
        rewrite (ztab_cons (n + 1 + 1)) by lia. replace (n + 1 + 1 - 1) with (n + 1) by lia. rewrite <- app_assoc. cbn [app]. f_equal.
        replace (beat + 0 * p) with beat by ring. f_equal. apply ztab_ext. intros i _. ring.
      + exists 0. splits; [lia|lia|lia|]. replace (beat + 0 * p) with beat by ring. change (ztab (0 + 1) (fun j => beat + j * p)) with [beat + 0 * p].
        replace (beat + 0 * p) with beat by ring. reflexivity.
  Qed.

  Lemma beat_predict_ok k lag al per beats : 0 <= al < round_away per -> round_away per <= lag ->
    exists last run, beat_predict (k * lag) al per lag beats = OK (last, beats ++ run) /\ even_beats lag k run /\ last < (k + 1) * lag.
  Proof.
    intros Ha Hp. unfold beat_predict. set (p := round_away per) in *.
    destruct (predict_loop (Z.to_nat lag) (k * lag + lag) p (beats ++ [k * lag + al]) ltac:(lia) (k * lag + al) beats) as (n & Hn & B & ->); auto; try lia.
    do 2 eexists; split; [reflexivity|]. split; [|lia]. exists p, (k * lag + al), (n + 1). splits; try lia. reflexivity.
  Qed.

  Lemma beat_predict_zero k lag per beats : 1 <= lag -> round_away per = 0 -> beat_predict (k * lag) 0 per lag beats = Diverge.
  Proof.
    intros Hl Hp. unfold beat_predict. rewrite Hp. rewrite Z.add_0_r. generalize (beats ++ [k * lag]) as l. clear beats.
    induction (Z.to_nat lag) as [|n IH]; intros l; cbn [while].
    - rewrite Z.add_0_r. destruct (Z.ltb_spec (k * lag) (k * lag + lag)); [reflexivity|lia].
    - rewrite Z.add_0_r. destruct (Z.ltb_spec (k * lag) (k * lag + lag)); [|lia]. cbn [bind]. apply IH.
  Qed.
End Parts.
