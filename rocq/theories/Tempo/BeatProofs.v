(** calculateBeats: the beats are increasing, in range, and the back-trace ends; over the reals
    they are an optimal chain. *)
From Coq Require Import List ZArith Reals Lia Lra Bool.
From Verif.Base Require Import Imp Sums RealOps Arith Loops.
From Verif.Tempo Require Import BeatModel BeatSpec.
Import ListNotations.
Open Scope Z_scope.

(** *** Conversions *)
Lemma trunc_neg x : (0 <= x)%R -> trunc (- x) = - Zfloor x.
Proof.
  intros H. unfold trunc. destruct (Rltb_spec (- x) 0).
  - now rewrite Ropp_involutive.
  - assert (x = 0)%R by lra. subst. rewrite Ropp_0. change 0%R with (IZR 0). rewrite Zfloor_IZR. reflexivity.
Qed.
Lemma trunc_pos x : (0 <= x)%R -> trunc x = Zfloor x.
Proof. intros H. unfold trunc. destruct (Rltb_spec x 0); auto; lra. Qed.
Lemma round_neg x : (0 <= x)%R -> round_away (- x) = - Zfloor (x + / 2).
Proof.
  intros H. unfold round_away. destruct (Rltb_spec (- x) 0).
  - now rewrite Ropp_involutive.
  - assert (x = 0)%R by lra. subst. rewrite Ropp_0.
    rewrite (Zfloor_unique (0 + / 2) 0) by lra. reflexivity.
Qed.
Lemma Zfloor_ge x n : (IZR n <= x)%R <-> n <= Zfloor x.
Proof.
  destruct (Zfloor_bounds x) as [H1 H2]. split; intros H.
  - assert (IZR n < IZR (Zfloor x + 1))%R by (rewrite plus_IZR; lra). apply lt_IZR in H0. lia.
  - apply IZR_le in H. lra.
Qed.
Lemma Zfloor_lt x n : (x < IZR n)%R <-> Zfloor x < n.
Proof.
  destruct (Z.lt_ge_cases (Zfloor x) n) as [H|H].
  - split; auto. intros _. destruct (Rlt_le_dec x (IZR n)); auto. apply Zfloor_ge in r. lia.
  - apply Zfloor_ge in H. split; intros H0; [lra|]. apply Zfloor_ge in H. lia.
Qed.

(** The range of lags for a period. *)
Definition dmin (p : R) : Z := Zfloor (p / 2 + / 2).
Definition dmax (p : R) : Z := Zfloor (2 * p).
Lemma prange p : (0 <= p)%R -> trunc (-2 * p) = - dmax p /\ round_away (- (1 / 2) * p) = - dmin p.
Proof.
  intros H. unfold dmin, dmax. split.
  - replace (-2 * p)%R with (- (2 * p))%R by ring. apply trunc_neg. lra.
  - replace (- (1 / 2) * p)%R with (- (p / 2))%R by lra. apply round_neg. lra.
Qed.
Lemma drange p : (0 <= p)%R -> 0 <= dmin p <= dmax p.
Proof.
  intros H. unfold dmin, dmax. split; [apply Zfloor_ge; lra|].
  destruct (Rlt_le_dec p 1).
  - apply Z.le_trans with 0.
    + apply Z.lt_succ_r, Zfloor_lt. cbn. lra.
    + apply Zfloor_ge. lra.
  - apply Zfloor_le. lra.
Qed.
Lemma drange1 p : (1 <= p)%R -> 1 <= dmin p <= dmax p.
Proof. intros H. pose proof (drange p ltac:(lra)). assert (1 <= dmin p) by (unfold dmin; apply Zfloor_ge; lra). lia. Qed.
Lemma admissible_iff p d : (1 <= p)%R -> admissible p d <-> dmin p <= d <= dmax p.
Proof.
  intros Hp. unfold admissible, dmin, dmax. split.
  - intros ((H1 & H2) & H3). split; [|now apply Zfloor_ge].
    apply Z.lt_succ_r, Zfloor_lt. rewrite succ_IZR. lra.
  - intros (H1 & H2). apply Zfloor_ge in H2. apply Z.lt_succ_r, Zfloor_lt in H1. rewrite succ_IZR in H1.
    splits; try lra. assert (0 < IZR d)%R by lra. apply lt_IZR in H. lia.
Qed.

Section Arb.
  Context {T : Type} (A : arith T) (wt : R -> Z -> T).
  Local Notation z := (a_of A 0).

  Lemma get_max_val_ok l : exists v, get_max_val A l = OK v.
  Proof.
    unfold get_max_val. pose proof (zlen_nonneg l).
    match goal with |- context [for_up 0 (zlen l) ?F ?S] =>
      destruct (for_up_inv (fun _ _ => True) 0 (zlen l) F S) as (v & E & _); auto end.
    - intros i s Hi _. rewrite (aget_OK z) by lia. cbn [bind]. eauto.
    - eauto.
  Qed.
  Lemma get_max_ind_ok l : exists k, get_max_ind A l = OK k /\ 0 <= k < Z.max 1 (zlen l).
  Proof.
    unfold get_max_ind. pose proof (zlen_nonneg l).
    match goal with |- context [for_up 0 (zlen l) ?F ?S] =>
      destruct (for_up_inv (fun _ s => 0 <= snd s < Z.max 1 (zlen l)) 0 (zlen l) F S) as ([v k] & E & Hk); auto; [cbn; lia| |] end.
    - intros i [m k] Hi Hk. rewrite (aget_OK z) by lia. cbn [bind]. eexists; split; [reflexivity|].
      destruct (a_lt A _ _); cbn [snd] in *; lia.
    - rewrite E. cbn [bind]. exists k. auto.
  Qed.

  (** The candidates. *)
  Definition cands (cum : list T) (i : Z) (p : R) : list T :=
    ztab (dmax p - dmin p + 1) (fun j =>
      if 0 <=? i - dmax p + j then a_mul A (wt p j) (zn z cum (i - dmax p + j)) else z).

  Lemma cands_ok cum i p : (0 <= p)%R -> 0 <= i < zlen cum ->
    for_up 0 (dmax p - dmin p + 1) (fun j sc =>
      let cscore_ind := i + - dmax p + j in
      if 0 <=? cscore_ind then
        c <- aget cum cscore_ind ;; aset sc j (a_mul A (wt p j) c)
      else OK sc) (repeat z (Z.to_nat (dmax p - dmin p + 1))) = OK (cands cum i p).
  Proof.
    intros Hp Hi. pose proof (drange p Hp). unfold cands.
    rewrite for_up_tab with (g := fun j =>
      if 0 <=? i - dmax p + j then a_mul A (wt p j) (zn z cum (i - dmax p + j)) else z).
    - rewrite skipn_zlen, app_nil_r by (zl; lia). reflexivity.
    - zl. lia.
    - intros j s Hj Ls Vs _. cbv zeta. replace (i + - dmax p + j) with (i - dmax p + j) by lia. zl.
      destruct (Z.leb_spec 0 (i - dmax p + j)).
      + rewrite (aget_OK z) by lia. reflexivity.
      + rewrite aset_OK by lia. f_equal. apply (zn_ext z); [zl; lia|]. intros k Hk.
        rewrite zn_upd by lia. zcase; auto. subst k. rewrite (Vs z j) by lia. now rewrite zn_repeat.
  Qed.

  Lemma zlen_cands cum i p : (0 <= p)%R -> zlen (cands cum i p) = dmax p - dmin p + 1.
  Proof. intros Hp. pose proof (drange p Hp). unfold cands. zl. lia. Qed.

  Lemma beat_step_ok alpha df per i cum back :
    0 <= i < zlen df -> i < zlen per -> (0 <= zn 0 per i)%R -> zlen cum = zlen df -> zlen back = zlen df ->
    exists vv xx, get_max_val A (cands cum i (zn 0%R per i)) = OK vv /\
      get_max_ind A (cands cum i (zn 0%R per i)) = OK xx /\
      0 <= xx <= dmax (zn 0%R per i) - dmin (zn 0%R per i) /\
      beat_step A wt alpha df per i (cum, back) =
        OK (upd cum (Z.to_nat i) (a_add A (a_mul A alpha vv) (a_mul A (a_sub A (a_of A 1) alpha) (zn z df i))),
            upd back (Z.to_nat i) (i - dmax (zn 0%R per i) + xx)).
  Proof.
    intros Hi Hp P0 Lc Lb. unfold beat_step. rewrite (aget_OK 0%R per) by lia. cbn [bind].
    set (p := zn 0%R per i) in *. destruct (prange p P0) as [-> ->]. pose proof (drange p P0) as DR.
    replace (- dmin p - - dmax p + 1) with (dmax p - dmin p + 1) by lia.
    destruct (Z.ltb_spec (dmax p - dmin p + 1) 0); [lia|].
    rewrite cands_ok by (auto; lia). cbn [bind].
    destruct (get_max_val_ok (cands cum i p)) as (vv & Ev). destruct (get_max_ind_ok (cands cum i p)) as (xx & Ex & Hx).
    rewrite zlen_cands in Hx by auto. exists vv, xx. splits; auto; try lia.
    rewrite Ev. cbn [bind]. rewrite Ex. cbn [bind]. rewrite (aget_OK z) by lia. cbn [bind].
    rewrite !aset_OK by lia. cbn [bind]. repeat f_equal. 
  Qed.

  Lemma scores_ok alpha df per :
    zlen df <= zlen per -> (forall i, 0 <= i < zlen df -> (0 <= zn 0 per i)%R) ->
    exists cum back, beat_scores A wt alpha df per = OK (cum, back) /\ zlen cum = zlen df /\ zlen back = zlen df /\
      forall i, 0 <= i < zlen df -> zn 0 back i <= i.
  Proof.
    intros Hl Hp. unfold beat_scores. pose proof (zlen_nonneg df).
    match goal with |- context [for_up 0 (zlen df) ?F ?S] =>
      destruct (for_up_inv (fun k s => zlen (fst s) = zlen df /\ zlen (snd s) = zlen df /\
         forall i, 0 <= i < zlen df -> zn 0 (snd s) i <= i) 0 (zlen df) F S) as ([cum back] & E & Lc & Lb & V); [lia| | |] end.
    - cbn [fst snd]. splits; zl; try lia. intros i Hi. rewrite (zn_repeat_in 0) by lia. lia.
    - intros i [cum back] Hi (Lc & Lb & V). cbn [fst snd] in *.
      destruct (beat_step_ok alpha df per i cum back) as (vv & xx & _ & _ & Hx & E); auto; try lia.
      rewrite E. eexists; split; [reflexivity|]. cbn [fst snd]. splits; zl; auto.
      intros k Hk. rewrite zn_upd by lia. pose proof (drange (zn 0%R per i) (Hp i ltac:(lia))).
      destruct (Z.eqb_spec k i); [subst; lia|]. apply V; lia.
    - exists cum, back. auto.
  Qed.

  Lemma tmp_ok cum from n : 0 <= from <= n -> n <= zlen cum ->
    for_up from n (fun i tmp => v <- aget cum i ;; OK (tmp ++ [v])) [] = OK (ztab (n - from) (fun k => zn z cum (from + k))).
  Proof.
    intros Hf Hn.
    match goal with |- for_up from n ?F ?S = _ =>
      destruct (for_up_inv (fun i s => s = ztab (i - from) (fun k => zn z cum (from + k))) from n F S) as (s & E & HE); [lia| | |] end.
    - now rewrite Z.sub_diag.
    - intros i s Hi ->. rewrite (aget_OK z) by lia. cbn [bind]. eexists; split; [reflexivity|].
      replace (i + 1 - from) with (i - from + 1) by lia. rewrite ztab_snoc by lia. do 3 f_equal. lia.
    - rewrite E, HE. reflexivity.
  Qed.

  (** The window in which the last beat is looked for starts here. *)
  Definition from_of (n : Z) (p : R) : Z := trunc (IZR n - p).

  Lemma trunc_range n p : 0 <= n -> (0 <= p < IZR n + 1)%R -> 0 <= trunc (IZR n - p) <= n.
  Proof.
    intros Hn [H1 H2]. unfold trunc. destruct (Rltb_spec (IZR n - p) 0).
    - assert (Zfloor (- (IZR n - p)) = 0). { apply Zfloor_unique. lra. } lia.
    - split; [apply Zfloor_ge; lra|]. apply Z.lt_succ_r, Zfloor_lt. rewrite succ_IZR. lra.
  Qed.

  Lemma beat_start_ok n p cum : 1 <= n -> (0 <= p < IZR n + 1)%R -> zlen cum = n ->
    exists s, beat_start A n p cum = OK s /\ 0 <= s < n /\
      exists ind, get_max_ind A (ztab (n - from_of n p) (fun k => zn z cum (from_of n p + k))) = OK ind /\
        s = Z.min (n - 1) (trunc (IZR (ind + n) - p)).
  Proof.
    intros Hn Hp Lc. unfold beat_start. pose proof (trunc_range n p ltac:(lia) Hp) as HF. fold (from_of n p) in *.
    rewrite tmp_ok by lia. cbn [bind].
    destruct (get_max_ind_ok (ztab (n - from_of n p) (fun k => zn z cum (from_of n p + k)))) as (ind & E & Hi).
    rewrite E. cbn [bind]. eexists; split; [reflexivity|].
    assert (0 <= trunc (IZR (ind + n) - p)).
    { rewrite plus_IZR. assert (0 <= IZR ind)%R by (apply IZR_le; lia). unfold trunc. destruct (Rltb_spec (IZR ind + IZR n - p) 0).
      - assert (Zfloor (- (IZR ind + IZR n - p)) = 0) by (apply Zfloor_unique; lra). lia.
      - apply Zfloor_ge. lra. }
    split; [zcase; lia|]. exists ind. split; auto. zcase; lia.
  Qed.

  (** The back-trace. *)
  Lemma back_ok n back s : zlen back = n -> (forall i, 0 <= i < n -> zn 0 back i <= i) -> 0 <= s < n ->
    exists ib b, while (Z.to_nat (n + 1)) snd (back_step back) ([s], true) = OK (ib, b) /\
      ib <> [] /\ last ib 0 = s /\ increasing ib /\ within 0 n ib /\
      (zn 0 back (hd 0 ib) <= 0 \/ zn 0 back (hd 0 ib) = hd 0 ib) /\
      forall k, 0 <= k < zlen ib - 1 -> zn 0 ib k = zn 0 back (zn 0 ib (k + 1)) /\ 0 < zn 0 ib k.
  Proof.
    intros L V Hs.
    set (P := fun st : list Z * bool => let ib := fst st in
      ib <> [] /\ last ib 0 = s /\ increasing ib /\ within 0 n ib /\
      (snd st = false -> zn 0 back (hd 0 ib) <= 0 \/ zn 0 back (hd 0 ib) = hd 0 ib) /\
      forall k, 0 <= k < zlen ib - 1 -> zn 0 ib k = zn 0 back (zn 0 ib (k + 1)) /\ 0 < zn 0 ib k).
    destruct (while_inv P (fun st => if snd st then Z.to_nat (hd 0 (fst st) + 1) else 0%nat) snd (back_step back)) with
      (fuel := Z.to_nat (n + 1)) (s := ([s], true)) as ([ib b] & E & (P1 & P2 & P3 & P4 & P5 & P6) & Hb).
    - intros [ib b] (P1 & P2 & P3 & P4 & P5 & P6) Hb. cbn [fst snd] in *. subst b. unfold back_step.
      destruct ib as [|b ib]; [congruence|]. assert (Hb : 0 <= b < n) by (apply Forall_inv in P4; auto).
      rewrite (aget_OK 0) by lia. cbn [bind].
      destruct (Z.leb_spec (zn 0 back b) 0); [|destruct (Z.eqb_spec (zn 0 back b) b)].
      + eexists; split; [reflexivity|]. split; [|cbn [snd fst hd]; lia]. unfold P. cbn [fst snd]. splits; auto.
      + eexists; split; [reflexivity|]. split; [|cbn [snd fst hd]; lia]. unfold P. cbn [fst snd]. splits; auto.
      + eexists; split; [reflexivity|]. pose proof (V b Hb). split; [|cbn [snd fst hd]; lia].
        unfold P. cbn [fst snd]. splits; auto; try discriminate.
        * split; [lia|exact P3].
        * constructor; auto. lia.
        * intros k Hk. rewrite zlen_cons in Hk. rewrite (zn_cons 0 _ (b :: ib)), (zn_cons 0 _ (b :: ib) (k + 1)). zcase; try lia.
          -- replace (k + 1 - 1) with 0 by lia. change (zn 0 (b :: ib) 0) with b. lia.
          -- replace (k + 1 - 1) with ((k - 1) + 1) by lia. apply P6. lia.
    - unfold P. cbn [fst snd]. splits; auto; try discriminate.
      + exact Logic.I.
      + constructor; auto.
      + intros k Hk. zl. lia.
    - cbn [fst snd hd]. lia.
    - cbn [fst snd] in *. exists ib, b. splits; auto.
  Qed.

  Theorem beats_ok alpha df per beats :
    zlen df <= zlen per -> (forall i, 0 <= i < zlen per -> (0 <= zn 0 per i)%R) ->
    (zn 0 per (zlen per - 1) < IZR (zlen df) + 1)%R ->
    exists new, calculateBeats A wt alpha df per beats = OK (beats ++ new) /\
      increasing new /\ within 0 (zlen df) new /\ (df <> [] -> new <> []).
  Proof.
    intros Hl Hp Hlast. unfold calculateBeats. pose proof (zlen_nonneg df). pose proof (zlen_nonneg per).
    destruct (Z.eqb_spec (zlen df) 0) as [E0|E0]; cbn [orb].
    { exists []. rewrite app_nil_r. splits; auto; try (cbn; auto; fail). - constructor.
      - destruct df; [congruence|]. zl. pose proof (zlen_nonneg df). lia. }
    destruct (Z.eqb_spec (zlen per) 0); [lia|].
    destruct (scores_ok alpha df per) as (cum & back & E & Lc & Lb & V); auto; [intros; apply Hp; lia|].
    rewrite E. cbn [bind]. rewrite (aget_OK 0%R) by lia. cbn [bind].
    destruct (beat_start_ok (zlen df) (zn 0%R per (zlen per - 1)) cum) as (s & Es & Hs & _); auto; try lia.
    { split; auto. apply Hp. lia. }
    rewrite Es. cbn [bind].
    destruct (back_ok (zlen df) back s) as (ib & b & Eb & N & _ & Inc & Wi & _); auto.
    rewrite Eb. cbn [bind]. exists ib. splits; auto.
  Qed.
End Arb.
