(** segment(). *)
From Coq Require Import List ZArith Reals Lia Lra Bool.
From Verif.Base Require Import Imp Sums Arith RealOps Loops Matrix.
From Verif.Maths Require Import IntModel.
From Verif.Hmm Require Import HmmBaum.
From Verif.Seg Require Import SegModel SegSpec SegProofs SegResults SegFeatures.
Import ListNotations.
Open Scope Z_scope.

Section Whole.
  Variables (junk : R) (junkZ : Z) (rnd1 rnd2 : Z -> R) (sfmin : R).
  Variable pca : list (list R) -> Z -> Z -> Z -> res (list (list R)).
  Hypothesis R1 : forall i, (0 <= rnd1 i <= 1)%R.
  Hypothesis R2 : forall i, (0 <= rnd2 i)%R.
  Notation seg := (segment junk junkZ rnd1 rnd2 sfmin pca).

  (** The features have the size their type says. *)
  Definition features_ok (o : segmenter) : Prop :=
    let sz := zlen (t_features o) in
    match t_type o with
    | Unknown => 1 <= zlen (zn [] (t_features o) 0) /\ forall i, 0 <= i < sz -> zlen (zn [] (t_features o) 0) <= zlen (zn [] (t_features o) i)
    | Mfcc => 0 <= t_ncoeff o /\ 1 <= zlen (zn [] (t_features o) 0) <= t_ncoeff o + 1 /\
        (forall i, 0 <= i < sz -> t_ncoeff o <= zlen (zn [] (t_features o) i))
    | Chroma => 1 <= t_bins o /\ 0 <= t_ncoeff o /\ (forall i, 0 <= i < sz -> t_ncoeff o <= zlen (zn [] (t_features o) i))
    | ConstQ => 20 <= t_ncoeff o /\ (forall i, 0 <= i < sz -> t_ncoeff o <= zlen (zn [] (t_features o) i)) /\
        (forall f, shape sz (t_ncoeff o + 1) f -> exists f', pca f sz (t_ncoeff o) 20 = OK f' /\ shape sz (t_ncoeff o + 1) f')
    end.
  Definition settings_ok (o : segmenter) : Prop :=
    let sz := zlen (t_features o) in
    1 <= t_states o /\ 1 <= t_clusters o /\ 0 <= t_hist o /\ 2 * Z.quot (t_hist o) 2 + 1 <= sz /\ t_hist o <= sz /\
    2 <= sz /\ 0 < get_hopsize o /\ sz * get_hopsize o <= INT_MAX.

  Lemma copy_feature_ok n size row : 0 <= n <= size -> n <= zlen row ->
    exists r, copy_feature junk n size row = OK r /\ zlen r = size /\ forall j, 0 <= j < n -> zn 0%R r j = zn 0%R row j.
  Proof.
    intros Hn Lr. unfold copy_feature.
    rewrite (for_up_tab n _ (zn 0%R row)).
    - eexists; split; [reflexivity|]. split; [zl; lia|]. intros j Hj. rewrite zn_app. zl. destruct (Z.ltb_spec j (Z.max 0 n)); [|lia]. now rewrite zn_ztab by lia.
    - zl; lia.
    - intros j s Hj _ _ _. rewrite (aget_OK 0%R) by lia. reflexivity.
  Qed.
  Lemma copy_features_ok (e : Z -> res (list R)) sz w : 0 <= sz -> (forall i, 0 <= i < sz -> exists r, e i = OK r /\ zlen r = w) ->
    exists arr, for_up 0 sz (fun i arr => r <- e i ;; aset arr i r) (repeat [] (Z.to_nat sz)) = OK arr /\ shape sz w arr.
  Proof.
    intros Hs He.
    match goal with |- exists arr, for_up 0 sz ?F ?S = _ /\ _ =>
      destruct (for_up_inv (fun i arr => zlen arr = sz /\ forall r, 0 <= r < i -> zlen (zn [] arr r) = w) 0 sz F S) as (arr & E & L & V) end.
    - lia.
    - split; [zl; lia|]. intros; lia.
    - intros i arr Hi [L V]. destruct (He i Hi) as (r & Er & Lr). rewrite Er. cbn [bind]. rewrite aset_OK by lia.
      eexists; split; [reflexivity|]. split; [zl; lia|]. intros q Hq. rewrite zn_upd by lia. destruct (Z.eqb_spec q i); auto. apply V; lia.
    - exists arr. split; [exact E|]. split; auto.
  Qed.

  Theorem segment_ok o : settings_ok o -> features_ok o ->
    exists segs c, seg o = OK (segmented o (Segmentation (t_clusters o) (t_rate o) segs)) /\
      clustering (zlen (t_features o)) (t_states o) (t_hist o) (t_clusters o) (t_limit o) c /\
      is_segmentation (get_hopsize o) c 0 (zlen (t_features o)) segs.
  Proof.
    intros (Hs & Hk & Hh & Hfit & Hsz & H2 & Hhop & Hov) F. unfold segment. set (sz := zlen (t_features o)) in *.
    destruct (Z.ltb_spec sz (t_hist o)); [lia|].
    assert (Fin : forall c, clustering sz (t_states o) (t_hist o) (t_clusters o) (t_limit o) c ->
      exists segs c0, (g <- make_segmentation (t_clusters o) (t_rate o) (get_hopsize o) (ztab sz c) sz ;; OK (finished o g)) =
        OK (segmented o (Segmentation (t_clusters o) (t_rate o) segs)) /\
        clustering sz (t_states o) (t_hist o) (t_clusters o) (t_limit o) c0 /\ is_segmentation (get_hopsize o) c0 0 sz segs).
    { intros c C. destruct (make_segmentation_ok (t_clusters o) (t_rate o) (get_hopsize o) (ztab sz c) sz) as (segs & E & (T & A & La & M)); auto.
      { zl; lia. }
      exists segs, c. rewrite E. split; [reflexivity|]. split; [exact C|]. split; [exact T|]. split; [exact A|]. split; [|exact M].
      intros i Hi. destruct (La i Hi) as (s & I & R & Ty). exists s. rewrite zn_ztab in Ty by lia. auto. }
    assert (Lq : zlen (repeat junkZ (Z.to_nat sz)) = sz) by (zl; lia).
    assert (First : aget (t_features o) 0 = OK (zn [] (t_features o) 0)) by (apply aget_OK; unfold sz in *; lia).
    unfold features_ok in F. fold sz in F. destruct (t_type o) eqn:Ty.
    - set (w := zlen (zn [] (t_features o) 0)) in *. pose proof (zlen_nonneg (zn [] (t_features o) 0)) as Pw. fold w in Pw.
      destruct (copy_features_ok (fun i => row <- aget (t_features o) i ;; first <- aget (t_features o) 0 ;; copy_feature junk (zlen first) (zlen first) row) sz w) as (arr & E & S); [lia| |].
      { intros i Hi. rewrite (aget_OK []) by (unfold sz in *; lia). cbn [bind]. rewrite First. cbn [bind]. fold w.
        destruct (copy_feature_ok w w (zn [] (t_features o) i)) as (r & Er & Lr & _); [lia|apply F; lia|]. exists r. auto. }
      rewrite (for_up_ext _ _ _ (fun i arr => r <- (row <- aget (t_features o) i ;; first <- aget (t_features o) 0 ;; copy_feature junk (zlen first) (zlen first) row) ;; aset arr i r))
        by (intros; now rewrite bind_assoc). rewrite E. cbn [bind]. rewrite First. cbn [bind]. fold w.
      destruct (cluster_segment_ok junk junkZ rnd1 rnd2 sfmin R1 R2 (repeat junkZ (Z.to_nat sz)) arr sz w w (t_states o) (t_hist o) (t_clusters o) (t_limit o)) as (c & Ec & C); auto; try lia.
      rewrite Ec. cbn [bind]. now apply Fin.
    - destruct F as (Hn & Hr & Pca). set (w := t_ncoeff o) in *.
      destruct (copy_features_ok (fun i => row <- aget (t_features o) i ;; copy_feature junk w (w + 1) row) sz (w + 1)) as (arr & E & S); [lia| |].
      { intros i Hi. rewrite (aget_OK []) by (unfold sz in *; lia). cbn [bind].
        destruct (copy_feature_ok w (w + 1) (zn [] (t_features o) i)) as (r & Er & Lr & _); [lia|apply Hr; lia|]. exists r. auto. }
      rewrite (for_up_ext _ _ _ (fun i arr => r <- (row <- aget (t_features o) i ;; copy_feature junk w (w + 1) row) ;; aset arr i r))
        by (intros; now rewrite bind_assoc). rewrite E. cbn [bind]. unfold constq_segment.
      destruct (mpeg7_constq_ok arr sz w) as (top & _ & Em); [lia|lia|exact S|]. rewrite Em. cbn [bind].
      match goal with |- context [pca ?f sz w 20] => destruct (Pca f) as (f' & Ef & S'); [apply shape_tab2; lia|]; rewrite Ef end. cbn [bind].
      rewrite (for_rows sz (w + 1) _ (fun i j => if j =? 20 then ent 0%R f' i w else ent 0%R f' i j)); auto; try lia.
      2:{ intros i s Hi Ls Rs _ Os. rewrite (aget_OK []) by lia. cbn [bind]. assert (Lr : zlen (zn [] s i) = w + 1) by (apply Rs; lia).
          rewrite (aget_OK 0%R) by lia. cbn [bind]. rewrite aset_OK by lia. cbn [bind]. f_equal. apply (zn_ext 0%R); [zl; lia|]. intros j Hj.
          revert Hj. zl. intros Hj. rewrite zn_upd by lia. rewrite zn_ztab by lia. rewrite Os by lia. reflexivity. }
      cbn [bind].
      destruct (cluster_segment_ok junk junkZ rnd1 rnd2 sfmin R1 R2 (repeat junkZ (Z.to_nat sz)) (tab2 sz (w + 1) (fun i j => if j =? 20 then ent 0%R f' i w else ent 0%R f' i j))
        sz (w + 1) 21 (t_states o) (t_hist o) (t_clusters o) (t_limit o)) as (c & Ec & C); auto; try lia. { apply shape_tab2; lia. }
      rewrite Ec. cbn [bind]. now apply Fin.
    - destruct F as (Hb & Hn & Hr). set (w := t_ncoeff o) in *.
      destruct (copy_features_ok (fun i => row <- aget (t_features o) i ;; copy_feature junk w (w + 1) row) sz (w + 1)) as (arr & E & S); [lia| |].
      { intros i Hi. rewrite (aget_OK []) by (unfold sz in *; lia). cbn [bind].
        destruct (copy_feature_ok w (w + 1) (zn [] (t_features o) i)) as (r & Er & Lr & _); [lia|apply Hr; lia|]. exists r. auto. }
      rewrite (for_up_ext _ _ _ (fun i arr => r <- (row <- aget (t_features o) i ;; copy_feature junk w (w + 1) row) ;; aset arr i r))
        by (intros; now rewrite bind_assoc). rewrite E. cbn [bind]. unfold constq_segment.
      rewrite (cq2chroma_ok arr sz (w + 1)); auto; try lia; [|apply shape_repeat; lia]. cbn [bind].
      match goal with |- context [cluster_segment _ _ _ _ _ _ ?f _ _ _ _ _ _] =>
        destruct (cluster_segment_ok junk junkZ rnd1 rnd2 sfmin R1 R2 (repeat junkZ (Z.to_nat sz)) f sz (t_bins o) (t_bins o) (t_states o) (t_hist o) (t_clusters o) (t_limit o)) as (c & Ec & C); auto; try lia;
        [apply shape_tab2; lia|] end.
      rewrite Ec. cbn [bind]. now apply Fin.
    - destruct F as (Hn & H1 & Hr). set (w := t_ncoeff o) in *.
      destruct (copy_features_ok (fun i => row <- aget (t_features o) i ;; copy_feature junk w (w + 1) row) sz (w + 1)) as (arr & E & S); [lia| |].
      { intros i Hi. rewrite (aget_OK []) by (unfold sz in *; lia). cbn [bind].
        destruct (copy_feature_ok w (w + 1) (zn [] (t_features o) i)) as (r & Er & Lr & _); [lia|apply Hr; lia|]. exists r. auto. }
      rewrite (for_up_ext _ _ _ (fun i arr => r <- (row <- aget (t_features o) i ;; copy_feature junk w (w + 1) row) ;; aset arr i r))
        by (intros; now rewrite bind_assoc). rewrite E. cbn [bind]. rewrite First. cbn [bind].
      destruct (cluster_segment_ok junk junkZ rnd1 rnd2 sfmin R1 R2 (repeat junkZ (Z.to_nat sz)) arr sz (w + 1) (zlen (zn [] (t_features o) 0)) (t_states o) (t_hist o) (t_clusters o) (t_limit o)) as (c & Ec & C); auto; try (clear - H1 Hn; lia); try lia.
      rewrite Ec. cbn [bind]. now apply Fin.
  Qed.

  (** Too few frames: nothing happens. *)
  Theorem segment_short o : zlen (t_features o) < t_hist o -> seg o = OK o.
  Proof. intros H. unfold segment. destruct (Z.ltb_spec (zlen (t_features o)) (t_hist o)); [reflexivity|lia]. Qed.
End Whole.

(** A segmentation with types from 1 to k. *)
Lemma segments_types hop c k len l : 0 < hop -> is_segmentation hop c 0 len l -> (forall i, 0 <= i < len -> 1 <= c i <= k) ->
  Forall (fun s => 1 <= s_type s <= k) l.
Proof.
  intros Hh (T & A & La & M) R. apply Forall_forall. intros s I.
  assert (Low : forall l a b s, tiles a b l -> In s l -> a <= s_start s /\ s_start s < s_end s /\ s_end s <= b).
  { clear. induction l as [|u l IH]; intros a b s T I; [destruct I|]. destruct T as (A & B & C).
    assert (G : forall l e b, tiles e b l -> e <= b).
    { clear. induction l as [|v l IH]; intros e b T; cbn in T; [lia|]. destruct T as (A & B & C). apply IH in C. lia. }
    pose proof (G _ _ _ C). destruct I as [->|I]; [lia|]. specialize (IH _ _ _ C I). lia. }
  assert (Uniq : forall l a b s u p, tiles a b l -> In s l -> In u l -> s_start s <= p < s_end s -> s_start u <= p < s_end u -> s = u).
  { clear - Low. induction l as [|v l IH]; intros a b s u p T Is Iu Ps Pu; [destruct Is|]. destruct T as (A & B & C).
    destruct Is as [->|Is], Iu as [->|Iu]; auto.
    - destruct (Low _ _ _ _ C Iu). lia.
    - destruct (Low _ _ _ _ C Is). lia.
    - eapply IH; eauto. }
  destruct (Low _ _ _ _ T I) as (L1 & L2 & L3). rewrite Forall_forall in M. destruct (M s I) as [i Ei].
  assert (Hi : 0 <= i < len) by nia.
  destruct (La i Hi) as (u & Iu & Pu & Tu). assert (s = u) as -> by (eapply Uniq; eauto; lia). rewrite Tu. now apply R.
Qed.

(** Times of more than 31 bits. *)
Lemma make_segmentation_overflow nc rate hop q len : 1 <= len <= zlen q -> 0 < hop -> INT_MAX < len * hop ->
  make_segmentation nc rate hop q len = UB.
Proof.
  intros Hlen Hh Hov. unfold make_segmentation. rewrite (aget_OK 0) by lia. cbn [bind].
  assert (G : forall n i (s : list segment_t * Z * Z), 1 <= i -> i + Z.of_nat n <= zlen q ->
    let r := for_n n i 1 (fun i '(segs, start, ty) => a <- aget q i ;; b <- aget q (i - 1) ;;
      if negb (a =? b) then e <- int_ (i * hop) ;; OK (segs ++ [Seg start e ty], e, a) else OK (segs, start, ty)) s in
    r = UB \/ exists s', r = OK s').
  { induction n as [|n IH]; intros i s Hi Hn; [right; exists s; reflexivity|]. cbn [for_n]. destruct s as [[segs start] ty].
    rewrite !(aget_OK 0) by lia. cbn [bind]. destruct (negb _).
    - unfold int_. destruct (_ && _); cbn [bind]; [|now left]. apply IH; lia.
    - cbn [bind]. apply IH; lia. }
  unfold for_up. destruct (G (Z.to_nat (len - 1)) 1 ([], 0, zn 0 q 0) ltac:(lia) ltac:(lia)) as [E|[[[segs start] ty] E]]; rewrite E; cbn [bind]; auto.
  unfold int_. destruct (Z.leb_spec (len * hop) INT_MAX); [lia|]. now rewrite andb_false_r.
Qed.
