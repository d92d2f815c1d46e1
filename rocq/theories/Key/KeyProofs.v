(** Proofs about GetKeyMode. *)
From Coq Require Import List ZArith Reals Lia Lra Bool Permutation.
From Verif.Base Require Import Imp Sums RealOps Arith Loops.
From Verif.Key Require Import KeyModel KeySpec.
Import ListNotations.
Open Scope Z_scope.

(** *** Lists *)
Lemma zn_last_n {B} (d : B) n l i : 0 <= n -> 0 <= i ->
  zn d (last_n n l) i = zn d l (zlen l - Z.min n (zlen l) + i).
Proof. intros Hn Hi. unfold last_n. rewrite zn_skipn by lia. f_equal. unfold zlen. lia. Qed.
Lemma zlen_last_n {B} n (l : list B) : 0 <= n -> zlen (last_n n l) = Z.min n (zlen l).
Proof. intros Hn. unfold last_n. zl. unfold zlen. lia. Qed.

Lemma zinsert_In x l y : In y (zinsert x l) <-> y = x \/ In y l.
Proof. induction l as [|z l IH]; cbn [zinsert]; [cbn; intuition|]. destruct (z <? x); cbn; intuition. Qed.
Lemma zsort_In l y : In y (zsort l) <-> In y l.
Proof. induction l as [|x l IH]; [reflexivity|]. change (zsort (x :: l)) with (zinsert x (zsort l)). rewrite zinsert_In, IH. cbn. intuition. Qed.
Lemma zinsert_perm x l : Permutation (zinsert x l) (x :: l).
Proof.
  induction l as [|y l IH]; cbn [zinsert]; [auto|]. destruct (y <? x); auto.
  rewrite IH. apply perm_swap.
Qed.
Lemma zsort_perm l : Permutation (zsort l) l.
Proof.
  induction l as [|x l IH]; [auto|]. change (zsort (x :: l)) with (zinsert x (zsort l)).
  rewrite zinsert_perm. now constructor.
Qed.
Fixpoint zsorted (l : list Z) : Prop :=
  match l with [] => True | x :: t => (forall y, In y t -> x <= y) /\ zsorted t end.
Lemma zinsert_sorted x l : zsorted l -> zsorted (zinsert x l).
Proof.
  induction l as [|y l IH]; cbn [zinsert]; [cbn; intuition|]. intros [H1 H2]. destruct (Z.ltb_spec y x).
  - split; auto. intros z Hz. apply zinsert_In in Hz as [->|Hz]; [lia|auto].
  - split; [|split; auto]. intros z [<-|Hz]; [lia|]. specialize (H1 z Hz). lia.
Qed.
Lemma zsort_sorted l : zsorted (zsort l).
Proof. induction l as [|x l IH]; cbn; auto. now apply zinsert_sorted. Qed.

Lemma Permutation_filter_zlen {B} (p : B -> bool) l l' :
  Permutation l l' -> zlen (filter p l) = zlen (filter p l').
Proof.
  induction 1; cbn; auto; try lia; repeat (destruct (p _); zl; try lia); cbn; zl; lia.
Qed.

Lemma zsorted_ranks l k : zsorted l -> 0 <= k < zlen l -> ranks k l (zn 0 l k).
Proof.
  unfold ranks. revert k. induction l as [|x l IH]; intros k Hs Hk; [zl; lia|]. destruct Hs as [H1 H2].
  rewrite zn_cons. zl. destruct (Z.eqb_spec k 0) as [->|].
  - split; [now left|]. cbn [filter]. rewrite Z.ltb_irrefl, Z.leb_refl. zl.
    pose proof (zlen_nonneg (filter (fun y => y <=? x) l)).
    assert (E : filter (fun y => y <? x) l = []).
    { clear -H1. induction l as [|y l IH]; auto. cbn. rewrite IH by (intros; apply H1; cbn; auto).
      destruct (Z.ltb_spec y x); auto. specialize (H1 y (or_introl eq_refl)). lia. }
    rewrite E. zl. lia.
  - destruct (Z.ltb_spec k 0); [lia|]. specialize (IH (k - 1) H2 ltac:(lia)).
    set (v := zn 0 l (k - 1)) in *. destruct IH as (HI & H3 & H4). split; [now right|].
    specialize (H1 v HI). cbn [filter]. destruct (Z.ltb_spec x v), (Z.leb_spec x v); zl; lia.
Qed.

Lemma ranks_perm k l l' m : Permutation l l' -> ranks k l m -> ranks k l' m.
Proof.
  intros P (H1 & H2). split; [eapply Permutation_in; eauto|].
  now rewrite <- !(Permutation_filter_zlen _ _ _ P).
Qed.

Lemma zlen_zsort l : zlen (zsort l) = zlen l.
Proof. unfold zlen. now rewrite (Permutation_length (zsort_perm l)). Qed.

Lemma zsort_ranks l k : 0 <= k < zlen l -> ranks k l (zn 0 (zsort l) k).
Proof.
  intros H. apply (ranks_perm _ (zsort l)); [apply zsort_perm|].
  apply zsorted_ranks; [apply zsort_sorted|]. now rewrite zlen_zsort.
Qed.

(** *** The median filter: its buffer holds the last keys, oldest first, after leading zeros. *)
Definition med_inv (msize : Z) (keys : list Z) (buf : list Z) (fill : Z) : Prop :=
  fill = Z.min (zlen keys) msize /\ zlen buf = msize /\
  forall i, 0 <= i < fill -> zn 0 buf (msize - 1 - i) = zn 0 keys (zlen keys - 1 - i).

Lemma med_inv_new msize : 0 <= msize -> med_inv msize [] (repeat 0 (Z.to_nat msize)) 0.
Proof. intros H. unfold med_inv. zl. splits; intros; lia. Qed.

Lemma median_step_ok msize keys buf fill key :
  1 <= msize -> med_inv msize keys buf fill ->
  exists m buf' fill', median_step msize buf fill key = OK (m, buf', fill') /\
    med_inv msize (keys ++ [key]) buf' fill' /\ lower_median (last_n msize (keys ++ [key])) m.
Proof.
  intros Hm (F & L & V). pose proof (zlen_nonneg keys). unfold median_step.
  set (fill' := if msize <=? fill then msize else fill + 1).
  assert (F' : fill' = Z.min (zlen (keys ++ [key])) msize) by (unfold fill'; zl; zcase; lia).
  clearbody fill'.
  match goal with |- context [for_up 1 msize ?F buf] =>
    destruct (for_up_inv (fun i b => zlen b = msize /\ forall j, 0 <= j < msize ->
        zn 0 b j = zn 0 buf (if j <? i - 1 then j + 1 else j)) 1 msize F buf) as (b1 & E1 & L1 & V1); [lia| | |] end.
  { split; auto. intros j Hj. zcase; auto; lia. }
  { intros i s Hi (Ls & Vs). rewrite (aget_OK 0) by lia. cbn [bind]. rewrite aset_OK by lia.
    eexists; split; [reflexivity|]. split; [zl; lia|]. intros j Hj. rewrite zn_upd by lia.
    rewrite !Vs by lia. zcase; try lia; f_equal; lia. }
  rewrite E1. cbn [bind]. rewrite aset_OK by lia. cbn [bind].
  set (b2 := upd b1 (Z.to_nat (msize - 1)) key). assert (L2 : zlen b2 = msize) by (unfold b2; zl; lia).
  assert (V2 : forall j, 0 <= j < msize -> zn 0 b2 j = if j =? msize - 1 then key else zn 0 buf (j + 1)).
  { intros j Hj. unfold b2. rewrite zn_upd by lia. zcase; auto. rewrite V1 by lia. zcase; f_equal; lia. }
  clearbody b2. clear E1 V1 L1.
  rewrite (for_up_set _ _ (fun k => zn 0 b2 (msize - 1 - k))); [|zl; lia|intros; apply aget_OK; lia].
  cbn [bind]. rewrite (skipn_zlen (repeat _ _)), app_nil_r by (zl; lia).
  set (srt := ztab msize _). assert (MI : med_inv msize (keys ++ [key]) b2 fill').
  { unfold med_inv. splits; auto. intros i Hi. zl. rewrite V2 by lia. rewrite zn_app.
    zcase; try lia.
    - replace (msize - 1 - i + 1) with (msize - 1 - (i - 1)) by lia. rewrite V by lia. f_equal. lia.
    - match goal with |- _ = zn 0 [key] ?e => replace e with 0 by lia end. reflexivity. }
  assert (LF : firstn (Z.to_nat fill') srt = rev (last_n msize (keys ++ [key]))).
  { destruct MI as (_ & _ & MV). unfold srt. zl. apply (zn_ext 0).
    - zl. rewrite zlen_last_n by lia. zl. lia.
    - intros i Hi. zl. rewrite zn_firstn by lia. zcase. rewrite zn_ztab by lia. rewrite MV by lia.
      rewrite zn_rev by (rewrite zlen_last_n by lia; zl; lia). rewrite zlen_last_n by lia.
      zl. rewrite zn_last_n by (zl; lia). zl. f_equal. lia. }
  assert (LN : zlen (last_n msize (keys ++ [key])) = fill') by (rewrite zlen_last_n by lia; zl; lia).
  assert (F1 : 1 <= fill') by (zl; lia).
  assert (LR : zlen (zsort (firstn (Z.to_nat fill') srt)) = fill').
  { rewrite zlen_zsort, LF. zl. lia. }
  assert (MP : 1 <= (fill' + 1) / 2 /\ (fill' + 1) / 2 - 1 = (fill' - 1) / 2 /\ (fill' - 1) / 2 < fill').
  { assert ((fill' + 1) / 2 = (fill' - 1) / 2 + 1).
    { replace (fill' + 1) with ((fill' - 1) + 1 * 2) by lia. rewrite Z.div_add by lia. lia. }
    assert (0 <= (fill' - 1) / 2) by (apply Z.div_pos; lia).
    assert ((fill' - 1) / 2 < fill') by (apply Z.div_lt_upper_bound; lia). lia. }
  destruct MP as (M1 & M2 & M3). destruct (Z.leb_spec ((fill' + 1) / 2) 0); [lia|].
  rewrite (aget_OK 0) by (zl; lia). cbn [bind].
  eexists _, _, _. split; [reflexivity|]. split; [exact MI|].
  rewrite zn_app, LR. zcase; try lia. rewrite M2. unfold lower_median. rewrite LN.
  apply (ranks_perm _ (rev (last_n msize (keys ++ [key])))); [symmetry; apply Permutation_rev|].
  rewrite <- LF. apply zsort_ranks. rewrite <- zlen_zsort, LR. lia.
Qed.

Section Arb.
  Context {T : Type} (A : arith T) (d : T).
  Local Notation "0.0" := (a_of A 0).

  Lemma gmean_ok src : zlen src = 36 ->
    gmean A src 36 = OK (a_div A (fsum 0.0 (a_add A) 36 (zn d src)) (a_of A 36)).
  Proof.
    intros L. unfold gmean. cbn [Z.eqb]. rewrite (for_up_fsum 0.0 (a_add A) 36 _ (zn d src)); [reflexivity|lia|].
    intros i acc Hi. rewrite (aget_OK d) by lia. reflexivity.
  Qed.

  Definition cent (f : Z -> T) (i : Z) : T :=
    a_sub A (f i) (a_div A (fsum 0.0 (a_add A) 36 f) (a_of A 36)).

  Lemma centre_ok src : zlen src = 36 -> centre A src = OK (ztab 36 (cent (zn d src))).
  Proof.
    intros L. unfold centre. unfold kBinsPerOctave. rewrite gmean_ok by auto. ret.
    rewrite for_up_tab with (g := cent (zn d src)).
    - rewrite skipn_zlen, app_nil_r; [reflexivity|]. reflexivity.
    - rewrite zlen_repeat. lia.
    - intros i s Hi _ _ _. rewrite (aget_OK d) by lia. reflexivity.
  Qed.

  Definition kcorr (f g : Z -> T) (b : Z) : T :=
    let h i := g ((i + 2 - b) mod 36) in
    let num := fsum 0.0 (a_add A) 36 (fun i => a_mul A (f i) (h i)) in
    let s1 := fsum 0.0 (a_add A) 36 (fun i => a_mul A (f i) (f i)) in
    let s2 := fsum 0.0 (a_add A) 36 (fun i => a_mul A (h i) (h i)) in
    let den := a_sqrt A (a_mul A s1 s2) in
    if a_lt A 0.0 den then a_div A num den else 0.0.

  Lemma kcorr_ext f f' g g' b : (forall i, 0 <= i < 36 -> f i = f' i) -> (forall i, 0 <= i < 36 -> g i = g' i) ->
    kcorr f g b = kcorr f' g' b.
  Proof.
    intros Hf Hg. unfold kcorr.
    assert (M : forall i, 0 <= (i + 2 - b) mod 36 < 36) by (intros; apply Z.mod_pos_bound; lia).
    rewrite (fsum_ext _ _ 36 (fun i => a_mul A (f i) (f i)) (fun i => a_mul A (f' i) (f' i)))
      by (intros; now rewrite Hf).
    rewrite (fsum_ext _ _ 36 (fun i => a_mul A (f i) (g ((i + 2 - b) mod 36))) (fun i => a_mul A (f' i) (g' ((i + 2 - b) mod 36))))
      by (intros; now rewrite Hf, Hg).
    rewrite (fsum_ext _ _ 36 (fun i => a_mul A (g ((i + 2 - b) mod 36)) (g ((i + 2 - b) mod 36))) (fun i => a_mul A (g' ((i + 2 - b) mod 36)) (g' ((i + 2 - b) mod 36))))
      by (intros; now rewrite Hg).
    reflexivity.
  Qed.

  Lemma krumCorr_ok x p b : zlen x = 36 -> zlen p = 36 -> 0 <= b < 36 ->
    krumCorr A x p (b - 2) 36 = OK (kcorr (zn d x) (zn d p) b).
  Proof.
    intros Lx Lp Hb. unfold krumCorr, kcorr. set (h i := zn d p ((i + 2 - b) mod 36)).
    match goal with |- context [for_up 0 36 ?F ?S] =>
      destruct (for_up_inv (fun i s => s = (fsum 0.0 (a_add A) i (fun i => a_mul A (zn d x i) (h i)),
         fsum 0.0 (a_add A) i (fun i => a_mul A (zn d x i) (zn d x i)),
         fsum 0.0 (a_add A) i (fun i => a_mul A (h i) (h i)))) 0 36 F S) as (s & E & ->); [lia|now rewrite !fsum_0 by lia| |] end.
    - intros i s Hi ->. rewrite Z.rem_mod_nonneg by lia.
      replace (i - (b - 2) + 36) with (i + 2 - b + 1 * 36) by lia. rewrite Z.mod_add by lia.
      pose proof (Z.mod_pos_bound (i + 2 - b) 36 ltac:(lia)).
      rewrite (aget_OK d x), (aget_OK d p) by lia. ret. eexists; split; [reflexivity|].
      now rewrite !fsum_S by lia.
    - rewrite E. reflexivity.
  Qed.

  Definition prof (p : list Z) (i : Z) : T := lit A (zn 0 p i).

  Lemma correlate_ok m : zlen m = 36 ->
    correlate A m = OK (ztab 36 (kcorr (cent (zn d m)) (cent (prof MajProfile))),
                        ztab 36 (kcorr (cent (zn d m)) (cent (prof MinProfile)))).
  Proof.
    intros L. unfold correlate. unfold kBinsPerOctave.
    rewrite (centre_ok (map (lit A) MajProfile)) by reflexivity. ret.
    rewrite (centre_ok (map (lit A) MinProfile)) by reflexivity. ret.
    rewrite (centre_ok m) by auto. ret.
    assert (P : forall p i, zlen p = 36 -> 0 <= i < 36 ->
       zn d (ztab 36 (cent (zn d (map (lit A) p)))) i = cent (prof p) i).
    { intros p i Lp Hi. rewrite zn_ztab by lia. unfold cent, prof. rewrite (zn_map (lit A) 0) by lia.
      f_equal. f_equal. apply fsum_ext. intros k Hk. rewrite (zn_map (lit A) 0) by lia. reflexivity. }
    assert (K : forall p i, zlen p = 36 -> 0 <= i < 36 ->
        krumCorr A (ztab 36 (cent (zn d m))) (ztab 36 (cent (zn d (map (lit A) p)))) (i - 2) 36
        = OK (kcorr (cent (zn d m)) (cent (prof p)) i)).
    { intros p i Lp Hi. rewrite krumCorr_ok by (zl; lia). f_equal.
      apply kcorr_ext; intros k Hk; [now apply zn_ztab|now apply P]. }
    apply for_up_set2; try (rewrite zlen_repeat; lia); [lia| |]; intros i Hi; now apply K.
  Qed.

  Lemma ggetMax_ok l n : 1 <= n <= zlen l ->
    exists i, ggetMax A l n = OK (i, zn d l i) /\ 0 <= i < n.
  Proof.
    intros H. unfold ggetMax. rewrite (aget_OK d) by lia. ret.
    match goal with |- context [for_up 0 n ?F ?S] =>
      destruct (for_up_inv (fun _ s => exists i, s = (i, zn d l i) /\ 0 <= i < n) 0 n F S) as (s & E & i & -> & Hi);
        [lia|exists 0; split; auto; lia| |] end.
    - intros i s Hi (j & -> & Hj). rewrite (aget_OK d) by lia. ret.
      eexists; split; [reflexivity|]. destruct (a_lt A _ _); eauto.
    - rewrite E. eauto.
  Qed.

  Lemma pick_ok maj min : zlen maj = 36 -> zlen min = 36 -> exists k, pick A maj min = OK k /\ 1 <= k <= 24.
  Proof.
    intros L1 L2. unfold pick. unfold kBinsPerOctave.
    destruct (ggetMax_ok maj 36) as (i & Ei & Hi); [lia|]. rewrite Ei. ret.
    destruct (ggetMax_ok min 36) as (j & Ej & Hj); [lia|]. rewrite Ej. ret.
    eexists; split; [reflexivity|].
    set (b := if a_lt A _ _ then _ else _). assert (0 <= b < 72) by (unfold b; destruct (a_lt A _ _); lia).
    rewrite Z.quot_div_nonneg by lia. pose proof (Z.div_mod b 3 ltac:(lia)). pose proof (Z.mod_pos_bound b 3 ltac:(lia)). lia.
  Qed.

  (** The chroma ring buffer holds the last frames. *)
  Definition ring_inv (csize : Z) (frames : list (list T)) (s : state) : Prop :=
    let n := zlen frames in
    zlen (chromaBuffer s) = 36 * csize /\ bufferIndex s = n mod csize /\ chromaFilling s = Z.min n csize /\
    forall j k, 0 <= j < Z.min n csize -> 0 <= k < 36 ->
      zn d (chromaBuffer s) (k + j * 36) = zn d (zn [] frames (n - csize + (j - n) mod csize)) k.

  Lemma ring_inv_new csize msize : 1 <= csize -> ring_inv csize [] (key_new A csize msize).
  Proof. intros H. unfold ring_inv. cbn [key_new chromaBuffer bufferIndex chromaFilling]. zl. unfold kBinsPerOctave. splits; try (now rewrite Zmod_0_l); intros; lia. Qed.

  Definition slot_mean (csize : Z) (frames : list (list T)) (k : Z) : T :=
    let n := zlen frames in
    a_div A (fsum 0.0 (a_add A) (Z.min n csize)
       (fun j => zn d (zn [] frames (n - csize + (j - n) mod csize)) k)) (a_of A (Z.min n csize)).

  Lemma smooth_ok csize frames s frame :
    1 <= csize -> ring_inv csize frames s -> zlen frame = 36 ->
    exists buf idx fill, smooth A csize s frame = OK (buf, idx, fill, ztab 36 (slot_mean csize (frames ++ [frame]))) /\
      forall mb mf c1 c2, ring_inv csize (frames ++ [frame]) (mkState buf idx fill mb mf c1 c2).
  Proof.
    intros Hc (L & I & F & V) Lf. pose proof (zlen_nonneg frames) as Hn. unfold smooth. unfold kBinsPerOctave.
    set (n := zlen frames) in *. pose proof (Z.mod_pos_bound n csize ltac:(lia)) as Hm.
    match goal with |- context [for_up 0 36 ?F (chromaBuffer s)] =>
      destruct (for_up_inv (fun i b => zlen b = 36 * csize /\ forall j, 0 <= j -> zn d b j =
         if (bufferIndex s * 36 <=? j) && (j <? bufferIndex s * 36 + i) then zn d frame (j - bufferIndex s * 36)
         else zn d (chromaBuffer s) j) 0 36 F (chromaBuffer s)) as (buf & E & L1 & V1); [lia| | |] end.
    { split; auto. intros j Hj. zcase; cbn [andb]; auto; lia. }
    { intros i b Hi (Lb & Vb). rewrite (aget_OK d) by lia. ret. rewrite aset_OK by nia.
      eexists; split; [reflexivity|]. split; [zl; lia|]. intros j Hj. rewrite zn_upd by nia. rewrite Vb by lia.
      zcase; cbn [andb]; auto; try lia. f_equal. lia. }
    rewrite E. ret.
    set (idx := if csize - 1 <=? bufferIndex s then 0 else bufferIndex s + 1).
    set (fill := if csize <=? chromaFilling s then csize else chromaFilling s + 1).
    assert (Ef : fill = Z.min (n + 1) csize) by (unfold fill; rewrite F; zcase; lia).
    assert (Ei : idx = (n + 1) mod csize).
    { unfold idx. rewrite I. rewrite <- Zplus_mod_idemp_l. zcase.
      - replace (n mod csize + 1) with (0 + 1 * csize) by lia. rewrite Z.mod_add by lia. now rewrite Z.mod_0_l by lia.
      - symmetry; apply Z.mod_small; lia. }
    clearbody idx fill.
    assert (LL : zlen (frames ++ [frame]) = n + 1) by (zl; fold n; lia).
    assert (RI : forall mb mf c1 c2, ring_inv csize (frames ++ [frame]) (mkState buf idx fill mb mf c1 c2)).
    { intros. unfold ring_inv. cbn [chromaBuffer bufferIndex chromaFilling]. rewrite !LL. splits; auto.
      intros j k Hj Hk. rewrite V1 by nia. rewrite zn_app. fold n. destruct (Z.eq_dec j (n mod csize)) as [->|NE].
      - assert (X : (n mod csize - (n + 1)) mod csize = csize - 1).
        { rewrite Zminus_mod_idemp_l. replace (n - (n + 1)) with (csize - 1 + (-1) * csize) by lia.
          rewrite Z.mod_add by lia. apply Z.mod_small. lia. }
        rewrite X. replace (n + 1 - csize + (csize - 1)) with n by lia. rewrite I. zcase; cbn [andb]; try lia.
        rewrite Z.sub_diag. cbn. f_equal. lia.
      - assert (j < n) by (destruct (Z.le_gt_cases csize n); [lia|]; rewrite Z.mod_small in NE by lia; lia).
        assert (X : (j - (n + 1)) mod csize = (j - n) mod csize - 1).
        { pose proof (Z.mod_pos_bound (j - n) csize ltac:(lia)).
          assert ((j - n) mod csize <> 0).
          { intros Z0. apply NE. assert (Hd : (j - n) = csize * ((j - n) / csize)) by (pose proof (Z.div_mod (j - n) csize ltac:(lia)); lia).
            apply Z.mod_unique with (- ((j - n) / csize)); lia. }
          replace (j - (n + 1)) with ((j - n) - 1) by lia. rewrite <- Zminus_mod_idemp_l. apply Z.mod_small. lia. }
        rewrite X. replace (n + 1 - csize + ((j - n) mod csize - 1)) with (n - csize + (j - n) mod csize) by lia.
        assert (n - csize + (j - n) mod csize < n) by (pose proof (Z.mod_pos_bound (j - n) csize ltac:(lia)); lia).
        destruct (Z.ltb_spec (n - csize + (j - n) mod csize) n); [|lia].
        rewrite <- V by lia. rewrite I. zcase; cbn [andb]; auto; nia. }
    exists buf, idx, fill. split; [|exact RI].
    destruct (RI [] 0 [] []) as (_ & _ & _ & V2). cbn [chromaBuffer] in V2.
    rewrite for_up_tab with (g := slot_mean csize (frames ++ [frame])).
    - ret. rewrite skipn_zlen, app_nil_r by (rewrite zlen_repeat; lia). reflexivity.
    - rewrite zlen_repeat. lia.
    - intros k b Hk _ _ _. rewrite (for_up_fsum 0.0 (a_add A) fill _ (fun j => zn d buf (k + j * 36))).
      + ret. unfold slot_mean. rewrite !LL. rewrite Ef. f_equal. f_equal. apply fsum_ext.
        intros j Hj. rewrite !LL in V2. now rewrite V2 by lia.
      + lia.
      + intros j acc Hj. rewrite (aget_OK d) by nia. reflexivity.
  Qed.

  (** The invariant of a GetKeyMode object after some frames, with the history of unsmoothed keys. *)
  Definition raw_of (csize : Z) (frames : list (list T)) (k : Z) : Prop :=
    pick A (ztab 36 (kcorr (cent (slot_mean csize frames)) (cent (prof MajProfile))))
           (ztab 36 (kcorr (cent (slot_mean csize frames)) (cent (prof MinProfile)))) = OK k.

  Lemma cent_ext f g i : (forall j, 0 <= j < 36 -> f j = g j) -> 0 <= i < 36 -> cent f i = cent g i.
  Proof. intros H Hi. unfold cent. rewrite (fsum_ext _ _ 36 f g H), H by lia. reflexivity. Qed.

  Lemma process_ok csize msize frames raws s frame :
    1 <= csize -> 1 <= msize -> zlen frame = 36 ->
    ring_inv csize frames s -> med_inv msize raws (medianBuffer s) (medianFilling s) ->
    exists m s' raw, process A csize msize s frame = OK (m, s') /\
      ring_inv csize (frames ++ [frame]) s' /\
      med_inv msize (raws ++ [raw]) (medianBuffer s') (medianFilling s') /\
      raw_of csize (frames ++ [frame]) raw /\ 1 <= raw <= 24 /\
      lower_median (last_n msize (raws ++ [raw])) m /\
      majCorr s' = map Some (ztab 36 (kcorr (cent (slot_mean csize (frames ++ [frame]))) (cent (prof MajProfile)))) /\
      minCorr s' = map Some (ztab 36 (kcorr (cent (slot_mean csize (frames ++ [frame]))) (cent (prof MinProfile)))).
  Proof.
    intros Hc Hm Lf RI MI. unfold process.
    destruct (smooth_ok csize frames s frame Hc RI Lf) as (buf & idx & fill & E & RI').
    rewrite E. ret. set (fr := frames ++ [frame]) in *.
    rewrite correlate_ok by (zl; lia). ret.
    assert (G : forall p, ztab 36 (kcorr (cent (zn d (ztab 36 (slot_mean csize fr)))) (cent (prof p)))
              = ztab 36 (kcorr (cent (slot_mean csize fr)) (cent (prof p)))).
    { intros p. apply ztab_ext. intros b Hb. apply kcorr_ext; auto. intros i Hi.
      apply cent_ext; auto. intros j Hj. now rewrite zn_ztab by lia. }
    rewrite !G.
    match goal with |- context [pick A ?x ?y] => destruct (pick_ok x y) as (k & Ek & Hk); [zl; lia|zl; lia|] end.
    rewrite Ek. ret.
    destruct (median_step_ok msize raws (medianBuffer s) (medianFilling s) k Hm MI) as (m & mb & mf & Em & MI' & Med).
    rewrite Em. ret. eexists _, _, k. split; [reflexivity|]. cbn [medianBuffer medianFilling majCorr minCorr].
    splits; auto; try lia.
  Qed.

  Local Opaque raw_of kcorr cent slot_mean.

  (** Unsmoothed keys of all frames, oldest first. *)
  Definition raw_keys (csize : Z) (frames : list (list T)) (raws : list Z) : Prop :=
    zlen raws = zlen frames /\
    forall i, 0 <= i < zlen frames ->
      1 <= zn 0 raws i <= 24 /\ raw_of csize (firstn (Z.to_nat (i + 1)) frames) (zn 0 raws i).

  Lemma run_ok csize msize more : forall frames raws s,
    1 <= csize -> 1 <= msize -> Forall (fun f => zlen f = 36) more ->
    ring_inv csize frames s -> med_inv msize raws (medianBuffer s) (medianFilling s) -> raw_keys csize frames raws ->
    exists keys s' raws', run A csize msize s more = OK (keys, s') /\
      ring_inv csize (frames ++ more) s' /\ med_inv msize (raws ++ raws') (medianBuffer s') (medianFilling s') /\
      raw_keys csize (frames ++ more) (raws ++ raws') /\
      zlen keys = zlen more /\
      (forall i, 0 <= i < zlen more ->
         lower_median (last_n msize (firstn (Z.to_nat (zlen frames + i + 1)) (raws ++ raws'))) (zn 0 keys i)) /\
      (more <> [] -> 
        majCorr s' = map Some (ztab 36 (kcorr (cent (slot_mean csize (frames ++ more))) (cent (prof MajProfile)))) /\
        minCorr s' = map Some (ztab 36 (kcorr (cent (slot_mean csize (frames ++ more))) (cent (prof MinProfile))))).
  Proof.
    induction more as [|f more IH]; intros frames raws s Hc Hm HF RI MI RK.
    - exists [], s, []. rewrite !app_nil_r. splits; auto; [intros; zl; lia|congruence].
    - apply Forall_cons_iff in HF as [Lf HF]. cbn [run].
      destruct (process_ok csize msize frames raws s f Hc Hm Lf RI MI) as (m & s1 & raw & E & RI1 & MI1 & RO & HR & Med & C1 & C2).
      rewrite E. ret. destruct RK as [RL RK].
      assert (RK1 : raw_keys csize (frames ++ [f]) (raws ++ [raw])).
      { split; [zl; lia|]. intros i Hi. zl. rewrite zn_app. destruct (Z.ltb_spec i (zlen raws)).
        - destruct (RK i ltac:(lia)) as [X1 X2]. split; [exact X1|].
          rewrite firstn_app. replace (Z.to_nat (i + 1) - length frames)%nat with 0%nat by (unfold zlen in *; lia).
          change (firstn 0 [f]) with (@nil (list T)). rewrite app_nil_r. exact X2.
        - replace (i - zlen raws) with 0 by lia. change (zn 0 [raw] 0) with raw. split; [exact HR|].
          rewrite firstn_all2; [exact RO|]. rewrite app_length. cbn. unfold zlen in *. lia. }
      destruct (IH (frames ++ [f]) (raws ++ [raw]) s1 Hc Hm HF RI1 MI1 RK1) as (keys & s' & raws' & E' & RI' & MI' & RK' & LK & Med' & CC).
      rewrite E'. ret. exists (m :: keys), s', (raw :: raws').
      assert (A1 : forall B (l : list B) x r, (l ++ [x]) ++ r = l ++ x :: r) by (intros; now rewrite <- app_assoc).
      rewrite !A1 in *. splits; auto; [zl; lia| |].
      + intros i Hi. rewrite zn_cons. zl. zcase; try lia.
        * subst i. rewrite <- (A1 Z raws raw raws').
          assert (FA : firstn (Z.to_nat (zlen frames + 0 + 1)) ((raws ++ [raw]) ++ raws') = raws ++ [raw]).
          { replace (Z.to_nat (zlen frames + 0 + 1)) with (length (raws ++ [raw]) + 0)%nat by (rewrite app_length; cbn; unfold zlen in *; lia).
            rewrite firstn_app_2. cbn [firstn]. apply app_nil_r. }
          rewrite FA. exact Med.
        * specialize (Med' (i - 1) ltac:(lia)).
          match type of Med' with context [firstn (Z.to_nat ?e) _] => replace e with (zlen frames + i + 1) in Med' by lia end. exact Med'.
      + intros _. destruct more as [|g more]; [|apply CC; congruence].
        cbn [run] in E'. injection E' as <- <-. auto.
  Qed.

  Lemma ranks_range k l m lo hi : (forall x, In x l -> lo <= x <= hi) -> ranks k l m -> lo <= m <= hi.
  Proof. intros H (H1 & _). auto. Qed.

  Lemma skipn_In {B} n (l : list B) x : In x (skipn n l) -> In x l.
  Proof. intros H. rewrite <- (firstn_skipn n l). apply in_or_app. auto. Qed.
  Lemma firstn_In {B} n (l : list B) x : In x (firstn n l) -> In x l.
  Proof. intros H. rewrite <- (firstn_skipn n l). apply in_or_app. auto. Qed.
  Lemma In_zn x (l : list Z) : In x l -> exists i, 0 <= i < zlen l /\ x = zn 0 l i.
  Proof.
    intros H. apply In_nth with (d := 0) in H as (n & Hn & <-). exists (Z.of_nat n). unfold zlen, zn.
    split; [lia|]. destruct (Z.ltb_spec (Z.of_nat n) 0); [lia|]. now rewrite Nat2Z.id.
  Qed.

  Theorem run_new csize msize frames :
    1 <= csize -> 1 <= msize -> Forall (fun f => zlen f = 36) frames ->
    exists keys s raws, run A csize msize (key_new A csize msize) frames = OK (keys, s) /\
      zlen keys = zlen frames /\ raw_keys csize frames raws /\
      (forall i, 0 <= i < zlen frames ->
         lower_median (last_n msize (firstn (Z.to_nat (i + 1)) raws)) (zn 0 keys i) /\
         1 <= zn 0 keys i <= 24) /\
      (frames <> [] -> 
        majCorr s = map Some (ztab 36 (kcorr (cent (slot_mean csize frames)) (cent (prof MajProfile)))) /\
        minCorr s = map Some (ztab 36 (kcorr (cent (slot_mean csize frames)) (cent (prof MinProfile))))).
  Proof.
    intros Hc Hm HF.
    destruct (run_ok csize msize frames [] [] (key_new A csize msize) Hc Hm HF) as (keys & s & raws & E & _ & _ & RK & L & Med & C).
    - now apply ring_inv_new.
    - apply med_inv_new. lia.
    - split; auto. intros; zl; lia.
    - cbn [app] in *. exists keys, s, raws. splits; auto. intros i Hi. split; [now apply Med|].
      eapply ranks_range; [|apply Med; lia]. intros x Hx. cbn [app] in *. apply skipn_In, firstn_In in Hx.
      apply In_zn in Hx as (j & Hj & ->). destruct RK as [RL RK]. apply RK. lia.
  Qed.
End Arb.
