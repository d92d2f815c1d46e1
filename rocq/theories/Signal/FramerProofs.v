From Coq Require Import List ZArith Lia Bool.
From Verif.Base Require Import Imp.
From Verif.Signal Require Import FramerModel FramerSpec.
Import ListNotations.
Open Scope Z_scope.

Section Proofs.
  Context {T : Type} (zero : T).
  Notation Zn := (zn zero).

  Lemma copy_loop (src : list T) ix0 n d :
    0 <= n <= zlen d -> 0 <= ix0 -> ix0 + n <= zlen src ->
    exists d', for_up 0 n (fun i '(ix, dst) =>
          v <- aget src ix ;; dst <- aset dst i v ;; OK (ix + 1, dst)) (ix0, d) = OK (ix0 + n, d') /\
      zlen d' = zlen d /\
      forall k, 0 <= k < zlen d -> Zn d' k = if k <? n then Zn src (ix0 + k) else Zn d k.
  Proof.
    intros Hn Hi Hs.
    match goal with |- context [for_up 0 n ?F ?S] =>
      destruct (for_up_inv (fun i s => fst s = ix0 + i /\ zlen (snd s) = zlen d /\
        forall k, 0 <= k < zlen d -> Zn (snd s) k = if k <? i then Zn src (ix0 + k) else Zn d k)
        0 n F S) as ([ix d'] & E & H1 & H2 & H3); [lia| | |] end.
    - cbn [fst snd]. splits; try lia. intros k Hk. destruct (Z.ltb_spec k 0); auto; lia.
    - intros i [ix dd] Hi' (H1 & H2 & H3). cbn [fst snd] in *. subst ix.
      rewrite (aget_OK zero) by lia. cbn [bind]. rewrite aset_OK by lia. cbn [bind].
      eexists; split; [reflexivity|]. cbn [fst snd]. splits; [lia|zl; lia|].
      intros k Hk. rewrite zn_upd by lia. rewrite H3 by lia.
      zcase; auto. do 2 f_equal; lia.
    - cbn [fst snd] in *. subst ix. exists d'. auto.
  Qed.

  Lemma zero_loop rem n (d : list T) : 0 <= rem -> 0 <= n -> rem + n <= zlen d ->
    exists d', for_up 0 n (fun i dst => aset dst (rem + i) zero) d = OK d' /\
      zlen d' = zlen d /\
      forall k, 0 <= k < zlen d -> Zn d' k = if (rem <=? k) && (k <? rem + n) then zero else Zn d k.
  Proof.
    intros Hr Hn Hd.
    match goal with |- context [for_up 0 n ?F ?S] =>
      destruct (for_up_inv (fun i s => zlen s = zlen d /\
        forall k, 0 <= k < zlen d -> Zn s k = if (rem <=? k) && (k <? rem + i) then zero else Zn d k)
        0 n F S) as (d' & E & H2 & H3); [lia| | |] end.
    - split; auto. intros k Hk. destruct (Z.leb_spec rem k), (Z.ltb_spec k (rem + 0)); auto; lia.
    - intros i dd Hi' (H2 & H3). rewrite aset_OK by lia. eexists; split; [reflexivity|].
      split; [zl; lia|]. intros k Hk. rewrite zn_upd by lia. rewrite H3 by lia.
      destruct (Z.eqb_spec k (rem + i)), (Z.leb_spec rem k), (Z.ltb_spec k (rem + i)),
        (Z.ltb_spec k (rem + (i + 1))); cbn; auto; lia.
    - exists d'. auto.
  Qed.

  (** State between calls. *)
  Definition at_index (f : framer T) (src : list T) (len hop ix : Z) : Prop :=
    fr_src f = src /\ fr_sampleLen f = zlen src /\ fr_frameLength f = len /\ fr_stepSize f = hop /\
    fr_srcIndex f = ix.

  Lemma getFrame_spec f src len hop ix d :
    at_index f src len hop ix -> 0 <= len <= zlen d -> 0 <= ix <= zlen src ->
    exists f' d', framer_getFrame zero f d = OK (f', d') /\
      at_index f' src len hop (ix + hop) /\ fr_maxFrames f' = fr_maxFrames f /\
      holds_frame zero src ix len d d'.
  Proof.
    intros (Hs & Hl & Hf & Hh & Hi) Hd Hx. unfold framer_getFrame.
    rewrite Hs, Hl, Hf, Hh, Hi. destruct (Z.ltb_spec (ix + len) (zlen src)).
    - destruct (copy_loop src ix len d) as (d' & E & L & V); try lia.
      rewrite E. cbn [bind]. eexists _, d'. split; [reflexivity|].
      split; [unfold at_index; cbn; splits; auto; lia|]. split; [reflexivity|]. split; [lia|].
      intros i Hi'. now rewrite V by lia.
    - destruct (copy_loop src ix (zlen src - ix) d) as (d1 & E1 & L1 & V1); try lia.
      rewrite E1. cbn [bind].
      destruct (zero_loop (zlen src - ix) (len - (zlen src - ix)) d1) as (d2 & E2 & L2 & V2); try lia.
      rewrite E2. cbn [bind]. eexists _, d2. split; [reflexivity|].
      split; [unfold at_index; cbn; splits; auto; lia|]. split; [reflexivity|]. split; [lia|].
      intros i Hi'. rewrite V2, V1 by lia.
      destruct (Z.leb_spec (zlen src - ix) i), (Z.ltb_spec i (zlen src - ix + (len - (zlen src - ix)))),
        (Z.ltb_spec i (zlen src - ix)), (Z.ltb_spec i len); cbn; try lia; auto.
      symmetry. apply zn_out. lia.
  Qed.

  Lemma frames_spec src len hop ds : 0 <= len -> 0 <= hop -> big_enough len ds ->
    forall f first, at_index f src len hop first -> 0 <= first ->
    (ds = [] \/ first + (zlen ds - 1) * hop <= zlen src) ->
    exists f' os, framer_frames zero f ds = OK (f', os) /\ frames_from zero src first hop len ds os /\
      at_index f' src len hop (first + zlen ds * hop) /\ fr_maxFrames f' = fr_maxFrames f.
  Proof.
    intros Hl Hh HB. induction HB as [|d ds Hd _ IH]; intros f first HI Hf HE.
    - exists f, []. splits; auto.
      + split; auto. intros k Hk. zl. lia.
      + zl. rewrite Z.add_0_r. exact HI.
    - destruct HE as [HE|HE]; [discriminate|]. pose proof (zlen_nonneg ds). zl.
      assert (0 <= zlen ds * hop) by nia.
      destruct (getFrame_spec f src len hop first d HI) as (f1 & o & E1 & I1 & M1 & H1); [lia|lia|].
      cbn [framer_frames]. rewrite E1. cbn [bind].
      destruct (IH f1 (first + hop) I1) as (f2 & os & E2 & F2 & I2 & M2); [lia| |].
      { destruct ds as [|d2 ds]; [now left|right]. zl. lia. }
      rewrite E2. cbn [bind]. exists f2, (o :: os). splits; auto.
      + destruct F2 as [L F2]. split; [zl; lia|]. intros k Hk. zl. rewrite !zn_cons.
        destruct (Z.eqb_spec k 0) as [->|].
        * now replace (first + 0 * hop) with first by lia.
        * destruct (Z.ltb_spec k 0); [lia|].
          replace (first + k * hop) with (first + hop + (k - 1) * hop) by lia. apply F2. lia.
      + zl. replace (first + (zlen ds + 1) * hop) with (first + hop + zlen ds * hop) by lia. exact I2.
      + congruence.
  Qed.

  Lemma configure_source f0 len hop src : 0 <= len -> 1 <= hop ->
    exists f, (f <- framer_configure len hop f0 ;; framer_setSource src f) = OK f /\
      at_index f src len hop 0 /\
      exists c, is_ceil (zlen src) hop c /\ framer_getMax f = Z.min c INT_MAX.
  Proof.
    intros Hl Hh. unfold framer_configure.
    destruct (Z.ltb_spec len 0), (Z.ltb_spec hop 0); cbn [orb]; try lia. cbn [bind].
    unfold framer_setSource. cbn [fr_stepSize framer_reset].
    destruct (Z.eqb_spec hop 0); [lia|]. eexists; split; [reflexivity|].
    split; [unfold at_index; splits; reflexivity|].
    pose proof (zlen_nonneg src). rewrite Z.quot_div_nonneg by lia.
    pose proof (Z.div_mod (zlen src) hop ltac:(lia)). pose proof (Z.mod_pos_bound (zlen src) hop ltac:(lia)).
    set (q := zlen src / hop) in *.
    exists (if q * hop <? zlen src then q + 1 else q). unfold framer_getMax. cbn [fr_maxFrames].
    unfold is_ceil. destruct (Z.ltb_spec (q * hop) (zlen src)).
    - split; [nia|]. destruct (Z.ltb_spec INT_MAX (q + 1)); lia.
    - split; [nia|]. destruct (Z.ltb_spec INT_MAX q); lia.
  Qed.

  Theorem framer_covers f0 len hop src ds : 0 <= len -> 1 <= hop -> big_enough len ds ->
    exists f c, (f <- framer_configure len hop f0 ;; framer_setSource src f) = OK f /\
      is_ceil (zlen src) hop c /\ framer_getMax f = Z.min c INT_MAX /\
      (zlen ds <= framer_getMax f ->
       exists f' os, framer_frames zero f ds = OK (f', os) /\ frames_from zero src 0 hop len ds os).
  Proof.
    intros Hl Hh HB. destruct (configure_source f0 len hop src Hl Hh) as (f & E & HI & c & HC & HM).
    exists f, c. splits; auto. intros HN.
    destruct (frames_spec src len hop ds Hl ltac:(lia) HB f 0 HI) as (f' & os & E' & F & _); [lia| |].
    - right. destruct HC. pose proof (zlen_nonneg ds). nia.
    - eauto.
  Qed.

  (** Changing the source continues at the old index. *)
  Theorem framer_resource f src0 src len hop ix ds :
    at_index f src0 len hop ix -> 0 <= len -> 1 <= hop -> 0 <= ix -> big_enough len ds ->
    ix + (zlen ds - 1) * hop <= zlen src ->
    exists f' os, (f <- framer_setSource src f ;; framer_frames zero f ds) = OK (f', os) /\
      frames_from zero src ix hop len ds os.
  Proof.
    intros (Hs & Hl' & Hf & Hp & Hi) Hl Hh Hx HB HN. unfold framer_setSource. rewrite Hp.
    destruct (Z.eqb_spec hop 0); [lia|]. cbn [bind].
    match goal with |- context [framer_frames zero ?f ds] =>
      destruct (frames_spec src len hop ds Hl ltac:(lia) HB f ix) as (f' & os & E' & F & _) end; auto.
    - unfold at_index; cbn; splits; auto.
    - exists f', os. split; auto.
  Qed.

  Theorem framer_reset_reuse f src0 src len hop ix ds :
    at_index f src0 len hop ix -> 0 <= len -> 1 <= hop -> big_enough len ds ->
    (zlen ds - 1) * hop < zlen src ->
    exists f' os, (f <- framer_setSource src f ;; framer_frames zero (framer_reset f) ds) = OK (f', os) /\
      frames_from zero src 0 hop len ds os.
  Proof.
    intros (Hs & Hl' & Hf & Hp & Hi) Hl Hh HB HN. unfold framer_setSource. rewrite Hp.
    destruct (Z.eqb_spec hop 0); [lia|]. cbn [bind].
    match goal with |- context [framer_frames zero ?f ds] =>
      destruct (frames_spec src len hop ds Hl ltac:(lia) HB f 0) as (f' & os & E' & F & _) end; auto.
    - unfold at_index; cbn; splits; auto.
    - lia.
    - right. lia.
    - exists f', os. split; auto.
  Qed.
End Proofs.
