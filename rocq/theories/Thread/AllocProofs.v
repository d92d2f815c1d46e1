(** Proofs about BlockAllocator. *)
From Coq Require Import List ZArith Lia Bool Permutation.
From Verif.Base Require Import Imp.
From Verif.Thread Require Import AllocModel AllocSpec.
Import ListNotations.
Open Scope Z_scope.

Definition offs (r : Z) (live : list ptr) : list Z := map snd (filter (fun p => fst p =? r) live).

Lemma offs_In r o live : In o (offs r live) <-> In (r, o) live.
Proof.
  unfold offs. rewrite in_map_iff. split.
  - intros ([r' o'] & Ho & Hin). apply filter_In in Hin. cbn in *. destruct Hin as [Hin E].
    apply Z.eqb_eq in E. subst. exact Hin.
  - intros H. exists (r, o). split; [reflexivity|]. apply filter_In. cbn. rewrite Z.eqb_refl. auto.
Qed.

Lemma offs_cons r p live :
  offs r (p :: live) = if fst p =? r then snd p :: offs r live else offs r live.
Proof. unfold offs. cbn. destruct (fst p =? r); reflexivity. Qed.

Lemma offs_app r l1 l2 : offs r (l1 ++ l2) = offs r l1 ++ offs r l2.
Proof. unfold offs. rewrite filter_app, map_app. reflexivity. Qed.

Fixpoint zsum (l : list Z) : Z := match l with [] => 0 | x :: t => x + zsum t end.

Lemma zsum_app l1 l2 : zsum (l1 ++ l2) = zsum l1 + zsum l2.
Proof. induction l1; cbn; lia. Qed.

Lemma zsum_upd d l i v :
  0 <= i < zlen l -> zsum (upd l (Z.to_nat i) v) = zsum l - zn d l i + v.
Proof.
  intros H. unfold zn. destruct (Z.ltb_spec i 0); [lia|].
  assert (Hn : (Z.to_nat i < length l)%nat) by (unfold zlen in H; lia).
  revert Hn. generalize (Z.to_nat i) as n. clear. induction l as [|x l IH]; intros [|n] Hn; cbn in *;
    try lia. rewrite IH by lia. lia.
Qed.

Lemma map_upd {A B} (f : A -> B) l n v : map f (upd l n v) = upd (map f l) n (f v).
Proof. revert n. induction l; intros [|n]; cbn; f_equal; auto. Qed.

Lemma zn_upd' {A} (d : A) l i v j :
  0 <= i < zlen l -> zn d (upd l (Z.to_nat i) v) j = if j =? i then v else zn d l j.
Proof.
  intros Hi. destruct (Z_lt_le_dec j 0); [|apply zn_upd; lia].
  rewrite !zn_out by lia. destruct (Z.eqb_spec j i); [lia|reflexivity].
Qed.

Lemma aget_upd {A} (l : list A) i v j :
  0 <= i < zlen l -> aget (upd l (Z.to_nat i) v) j = if j =? i then OK v else aget l j.
Proof.
  intros Hi. destruct (Z_lt_le_dec j 0).
  { rewrite !aget_UB by lia. destruct (Z.eqb_spec j i); [lia|reflexivity]. }
  destruct (Z_lt_le_dec j (zlen l)).
  - rewrite (aget_OK v) by (rewrite zlen_upd; lia). rewrite zn_upd by lia.
    destruct (Z.eqb_spec j i); [reflexivity|]. rewrite (aget_OK v) by lia. reflexivity.
  - rewrite !aget_UB by (rewrite ?zlen_upd; lia). destruct (Z.eqb_spec j i); [lia|reflexivity].
Qed.

Lemma aget_range {A} (l : list A) i v : aget l i = OK v -> 0 <= i < zlen l.
Proof. intros H. apply (aget_inv v) in H. tauto. Qed.

Lemma load_OK (h : heap) r o j w v :
  aget h r = OK (Some w) -> 0 <= o + j < zlen w -> zn None w (o + j) = Some v ->
  load h (r, o) j = OK v.
Proof.
  intros H Hr Hv. unfold load, h_words. cbn [fst snd]. rewrite H. cbn.
  rewrite (aget_OK None) by lia. cbn. rewrite Hv. reflexivity.
Qed.

Lemma store_OK (h : heap) r o j w v :
  aget h r = OK (Some w) -> 0 <= o + j < zlen w ->
  store h (r, o) j v = OK (upd h (Z.to_nat r) (Some (upd w (Z.to_nat (o + j)) (Some v)))).
Proof.
  intros H Hr. unfold store, h_words. cbn [fst snd]. rewrite H. cbn.
  rewrite aset_OK by lia. cbn. apply aset_OK. eapply aget_range; eauto.
Qed.

Lemma load_upd (h : heap) r w x v q j :
  aget h r = OK (Some w) -> 0 <= x < zlen w -> fst q <> r \/ snd q + j <> x ->
  load (upd h (Z.to_nat r) (Some (upd w (Z.to_nat x) v))) q j = load h q j.
Proof.
  intros H Hx Hne. unfold load, h_words. rewrite aget_upd by (eapply aget_range; eauto).
  destruct (Z.eqb_spec (fst q) r) as [Hr|]; [|reflexivity]. rewrite Hr, H. cbn.
  rewrite aget_upd by lia. destruct (Z.eqb_spec (snd q + j) x); [lia|reflexivity].
Qed.

Lemma load_region (h h' : heap) q j : aget h' (fst q) = aget h (fst q) -> load h' q j = load h q j.
Proof. intros H. unfold load, h_words. rewrite H. reflexivity. Qed.

Section Proofs.
  Context (epb cap0 sz : Z).
  Hypothesis Hepb : 1 <= epb.
  Hypothesis Hsz : 1 <= sz.
  Notation E := (esz sz).
  Notation U := (unit_ sz).

  Lemma E_pos : 1 <= E.
  Proof. unfold esz. apply Z.div_le_lower_bound; lia. Qed.

  Lemma E_sz : sz <= 8 * E.
  Proof. unfold esz. pose proof (Z.div_mod (sz + (8 - 1)) 8 ltac:(lia)).
    pose proof (Z.mod_pos_bound (sz + (8 - 1)) 8 ltac:(lia)). lia. Qed.

  Lemma word_lt j : 8 * j < sz -> j < E.
  Proof. pose proof E_sz. lia. Qed.

  Lemma U_E : U = E + 1.
  Proof. reflexivity. Qed.

  Lemma unit_inj k j k' j' : 0 <= j < U -> 0 <= j' < U -> k * U + j = k' * U + j' -> k = k' /\ j = j'.
  Proof. intros H H' He. destruct (Z.div_mod_unique U k k' j j'); try lia. Qed.

  (** *** One block *)
  Fixpoint chain (w : list (option Z)) (f : Z) (fl : list Z) : Prop :=
    match fl with
    | [] => f = -1
    | o :: t => f = o /\ exists n, zn None w o = Some n /\ chain w n t
    end.

  Lemma chain_ext w w' f fl :
    (forall o, In o fl -> zn None w' o = zn None w o) -> chain w f fl -> chain w' f fl.
  Proof.
    revert f. induction fl as [|o t IH]; intros f H; cbn; [auto|].
    intros (Hf & n & Hn & Hc). split; [exact Hf|]. exists n. rewrite H by (left; reflexivity).
    split; [exact Hn|]. apply IH; [|exact Hc]. intros o' Ho'. apply H. right. exact Ho'.
  Qed.

  Record words_ok (i e : Z) (fl : list Z) (w : list (option Z)) (f : Z) (os : list Z) : Prop := {
    wo_len : zlen w = epb * U;
    wo_e : 0 <= e <= epb;
    wo_chain : chain w f fl;
    wo_perm : Permutation (fl ++ os) (ztab e (fun k => k * U));
    wo_tag : forall k, 0 <= k < e -> zn None w (k * U + E) = Some i }.

  Lemma ztab_In {A} (x : A) n f : In x (ztab n f) <-> exists k, 0 <= k < n /\ x = f k.
  Proof.
    unfold ztab. rewrite in_map_iff. split.
    - intros (k & <- & Hk). apply in_seq in Hk. exists (Z.of_nat k). split; [lia|reflexivity].
    - intros (k & Hk & ->). exists (Z.to_nat k). rewrite Z2Nat.id by lia. split; [reflexivity|].
      apply in_seq. lia.
  Qed.

  Lemma ztab_NoDup n (f : Z -> Z) : (forall j k, f j = f k -> j = k) -> NoDup (ztab n f).
  Proof.
    intros H. unfold ztab. apply FinFun.Injective_map_NoDup; [|apply seq_NoDup].
    intros a b Hab. apply H in Hab. lia.
  Qed.

  Lemma wo_nodup i e fl w f os : words_ok i e fl w f os -> NoDup (fl ++ os).
  Proof.
    intros H. eapply Permutation_NoDup; [symmetry; apply H.(wo_perm _ _ _ _ _ _)|].
    apply ztab_NoDup. intros j k Hjk. pose proof E_pos. rewrite U_E in Hjk. nia.
  Qed.

  Lemma wo_mem i e fl w f os o : words_ok i e fl w f os -> In o (fl ++ os) ->
    exists k, 0 <= k < e /\ o = k * U.
  Proof.
    intros H Hin. apply ztab_In. eapply Permutation_in; [apply H.(wo_perm _ _ _ _ _ _)|exact Hin].
  Qed.

  Lemma unit_range k e j w : 0 <= k < e -> e <= epb -> 0 <= j < U -> zlen w = epb * U ->
    0 <= k * U + j < zlen (w : list (option Z)).
  Proof. pose proof E_pos. rewrite U_E in *. nia. Qed.

  Lemma wo_fresh i e w os :
    words_ok i e [] w (-1) os -> e < epb ->
    words_ok i (e + 1) [] (upd w (Z.to_nat (e * U + E)) (Some i)) (-1) (e * U :: os).
  Proof.
    intros [Hl He Hc Hp Ht] Hlt. split.
    - rewrite zlen_upd. exact Hl.
    - lia.
    - cbn. reflexivity.
    - cbn. rewrite ztab_snoc by lia. rewrite <- Permutation_cons_append. apply perm_skip. exact Hp.
    - intros k Hk. pose proof E_pos.
      assert (Hr : 0 <= e * U + E < zlen w) by (apply unit_range with (e := e + 1); [lia|lia|rewrite U_E; lia|exact Hl]).
      rewrite zn_upd' by lia. destruct (Z.eqb_spec (k * U + E) (e * U + E)) as [He'|Hne]; [reflexivity|].
      apply Ht. assert (k <> e) by (intros ->; lia). lia.
  Qed.

  Lemma wo_reuse i e fl w f os :
    words_ok i e fl w f os -> f <> -1 ->
    exists fl' f', fl = f :: fl' /\ zn None w f = Some f' /\ words_ok i e fl' w f' (f :: os).
  Proof.
    intros [Hl He Hc Hp Ht] Hf. destruct fl as [|o t]; [cbn in Hc; lia|].
    destruct Hc as (-> & n & Hn & Hc). exists t, n. splits; auto. split; auto.
    rewrite <- Hp. rewrite <- Permutation_middle. reflexivity.
  Qed.

  Lemma wo_free i e fl w f l1 o l2 :
    words_ok i e fl w f (l1 ++ o :: l2) ->
    words_ok i e (o :: fl) (upd w (Z.to_nat o) (Some f)) o (l1 ++ l2).
  Proof.
    intros H. pose proof (wo_nodup _ _ _ _ _ _ H) as Hnd.
    assert (Hmem : forall o', In o' (fl ++ l1 ++ o :: l2) -> exists k, 0 <= k < e /\ o' = k * U)
      by (intros; eapply wo_mem; eauto).
    destruct H as [Hl He Hc Hp Ht]. pose proof E_pos as HE.
    destruct (Hmem o) as (ko & Hko & Eo). { apply in_or_app. right. apply in_or_app. right. left. auto. }
    assert (Hr : 0 <= o < zlen w).
    { pose proof (unit_range ko e 0 w Hko ltac:(lia) ltac:(rewrite U_E; lia) Hl). lia. }
    split.
    - rewrite zlen_upd. exact Hl.
    - exact He.
    - cbn. split; [reflexivity|]. exists f. rewrite zn_upd' by lia. rewrite Z.eqb_refl.
      split; [reflexivity|]. apply chain_ext with (w := w); [|exact Hc].
      intros o' Ho'. rewrite zn_upd' by lia. destruct (Z.eqb_spec o' o) as [->|]; [|reflexivity].
      exfalso. rewrite app_assoc in Hnd. apply NoDup_remove_2 in Hnd. apply Hnd.
      apply in_or_app. left. apply in_or_app. left. exact Ho'.
    - rewrite <- Hp. cbn. rewrite (app_assoc fl l1 (o :: l2)), <- Permutation_middle.
      rewrite <- app_assoc. reflexivity.
    - intros k Hk. rewrite zn_upd' by lia. destruct (Z.eqb_spec (k * U + E) o) as [He'|]; [|auto].
      exfalso. destruct (unit_inj k E ko 0); rewrite ?U_E in *; lia.
  Qed.

  Lemma wo_write i e fl w f os o j v :
    words_ok i e fl w f os -> In o os -> 0 <= j < E ->
    words_ok i e fl (upd w (Z.to_nat (o + j)) v) f os.
  Proof.
    intros H Hin Hj. pose proof (wo_nodup _ _ _ _ _ _ H) as Hnd.
    assert (Hmem : forall o', In o' (fl ++ os) -> exists k, 0 <= k < e /\ o' = k * U)
      by (intros; eapply wo_mem; eauto).
    destruct H as [Hl He Hc Hp Ht]. pose proof E_pos as HE.
    destruct (Hmem o) as (ko & Hko & Eo). { apply in_or_app. right. auto. }
    assert (Hr : 0 <= o + j < zlen w).
    { subst o. apply unit_range with (e := e); [lia|lia|rewrite U_E; lia|exact Hl]. }
    split; auto.
    - rewrite zlen_upd. exact Hl.
    - apply chain_ext with (w := w); [|exact Hc]. intros o' Ho'. rewrite zn_upd' by lia.
      destruct (Z.eqb_spec o' (o + j)) as [Heq|]; [|reflexivity]. exfalso.
      destruct (Hmem o') as (k' & Hk' & Eo'). { apply in_or_app. left. auto. }
      destruct (unit_inj k' 0 ko j); rewrite ?U_E in *; try lia. subst k'.
      assert (Ho2 : In o fl) by (replace o with o' by lia; exact Ho').
      clear - Hnd Ho2 Hin. induction fl as [|x fl IH]; [contradiction|]. cbn in Hnd. inversion Hnd; subst.
      destruct Ho2 as [->|Ho2]; [|auto]. apply H1. apply in_or_app. right. exact Hin.
    - intros k Hk. rewrite zn_upd' by lia. destruct (Z.eqb_spec (k * U + E) (o + j)) as [He'|]; [|auto].
      exfalso. subst o. destruct (unit_inj k E ko j); rewrite ?U_E in *; lia.
  Qed.

  (** *** The whole allocator *)
  Definition block_ok (h : heap) (live : list ptr) (i : Z) (b : block) : Prop :=
    0 <= b_alloc b <= epb /\
    match b_mem b with
    | None => b_free b = -1 /\ b_alloc b = 0
    | Some r => exists w e fl, aget h r = OK (Some w) /\
        words_ok i e fl w (b_free b) (offs r live) /\ b_end b = e * U /\
        b_alloc b = zlen (offs r live) /\ 0 < b_alloc b
    end.

  Lemma block_ok_frame h h' live live' i b :
    (forall r, b_mem b = Some r -> aget h' r = aget h r /\ offs r live' = offs r live) ->
    block_ok h live i b -> block_ok h' live' i b.
  Proof.
    intros H [Ha Hb]. split; [exact Ha|]. destruct (b_mem b) as [r|]; [|exact Hb].
    destruct (H r eq_refl) as [Hg Ho]. rewrite Hg, Ho. exact Hb.
  Qed.

  Notation blk a i := (zn block_new (a_blocks a) i).

  Record inv (a : alloc) (live : list ptr) : Prop := {
    i_cap : a_cap a = cap0;
    i_n : zlen (a_blocks a) <= cap0;
    i_ok : forall i, 0 <= i < zlen (a_blocks a) -> block_ok (a_heap a) live i (blk a i);
    i_inj : forall i j r, 0 <= i < zlen (a_blocks a) -> 0 <= j < zlen (a_blocks a) ->
              b_mem (blk a i) = Some r -> b_mem (blk a j) = Some r -> i = j;
    i_live : forall p, In p live -> exists i, 0 <= i < zlen (a_blocks a) /\
              b_mem (blk a i) = Some (fst p);
    i_own : forall r w, aget (a_heap a) r = OK (Some w) -> exists i, 0 <= i < zlen (a_blocks a) /\
              b_mem (blk a i) = Some r;
    i_nd : NoDup (a_list a);
    i_list : forall i, In i (a_list a) <-> 0 <= i < zlen (a_blocks a) /\ b_alloc (blk a i) < epb;
    i_sum : zsum (map b_alloc (a_blocks a)) = zlen live }.

  Lemma inv_new : 0 <= cap0 -> inv (alloc_new cap0) [].
  Proof.
    intros Hc. split; cbn; try reflexivity; unfold zlen; cbn; try lia; try contradiction.
    - intros r w H. apply (aget_inv None) in H. unfold zlen in H; cbn in H; lia.
    - constructor.
  Qed.

  Lemma inv_upd a live i b' h' live' l' :
    inv a live -> 0 <= i < zlen (a_blocks a) -> block_ok h' live' i b' ->
    (forall r, b_mem (blk a i) <> Some r -> b_mem b' <> Some r ->
       aget h' r = aget (a_heap a) r /\ offs r live' = offs r live) ->
    (forall r, b_mem b' = Some r -> b_mem (blk a i) <> Some r ->
       forall k, 0 <= k < zlen (a_blocks a) -> b_mem (blk a k) <> Some r) ->
    (forall r w, b_mem (blk a i) = Some r -> aget h' r = OK (Some w) -> b_mem b' = Some r) ->
    (forall p, In p live' -> b_mem (blk a i) = Some (fst p) \/ b_mem b' = Some (fst p) ->
       b_mem b' = Some (fst p)) ->
    (forall p, In p live' -> In p live \/ b_mem b' = Some (fst p)) ->
    b_alloc b' - b_alloc (blk a i) = zlen live' - zlen live ->
    NoDup l' ->
    (forall k, In k l' <-> (k <> i /\ In k (a_list a)) \/ (k = i /\ b_alloc b' < epb)) ->
    inv {| a_heap := h'; a_blocks := upd (a_blocks a) (Z.to_nat i) b'; a_cap := a_cap a; a_list := l' |}
        live'.
  Proof.
    intros I Hi Hok Hfr Hfresh Hdel Hlv1 Hlv2 Hsum Hnd Hl. destruct I as [Ic In_ Iok Iinj Ilv Iown Ind Il Is].
    split; cbn [a_heap a_blocks a_cap a_list]; auto; rewrite ?zlen_upd; auto.
    - intros k Hk. rewrite zn_upd' by lia. destruct (Z.eqb_spec k i) as [->|Hne]; [exact Hok|].
      apply block_ok_frame with (h := a_heap a) (live := live); [|auto].
      intros r Hr. apply Hfr.
      + intros Hr'. apply Hne. eapply Iinj; eauto.
      + intros Hr'. destruct (b_mem (blk a i)) as [r0|] eqn:Er0.
        * destruct (Z.eq_dec r0 r) as [->|Hr0]; [apply Hne; eapply Iinj; eauto|].
          apply (Hfresh r Hr' ltac:(congruence) k Hk Hr).
        * apply (Hfresh r Hr' ltac:(congruence) k Hk Hr).
    - intros k j r Hk Hj. rewrite !zn_upd' by lia.
      destruct (Z.eqb_spec k i) as [->|Hk']; destruct (Z.eqb_spec j i) as [->|Hj']; auto; intros Hkr Hjr.
      + exfalso. destruct (b_mem (blk a i)) as [r0|] eqn:Er0.
        * destruct (Z.eq_dec r0 r) as [->|Hr0]; [apply Hj'; eapply Iinj; eauto|].
          apply (Hfresh r Hkr ltac:(congruence) j Hj Hjr).
        * apply (Hfresh r Hkr ltac:(congruence) j Hj Hjr).
      + exfalso. destruct (b_mem (blk a i)) as [r0|] eqn:Er0.
        * destruct (Z.eq_dec r0 r) as [->|Hr0]; [apply Hk'; eapply Iinj; eauto|].
          apply (Hfresh r Hjr ltac:(congruence) k Hk Hkr).
        * apply (Hfresh r Hjr ltac:(congruence) k Hk Hkr).
      + eapply Iinj; eauto.
    - intros p Hp. destruct (Hlv2 p Hp) as [Hin|Hb].
      + destruct (Ilv p Hin) as (k & Hk & Hkm). destruct (Z.eq_dec k i) as [->|Hne].
        * exists i. split; [lia|]. rewrite zn_upd' by lia. rewrite Z.eqb_refl. apply Hlv1; auto.
        * exists k. split; [lia|]. rewrite zn_upd' by lia. destruct (Z.eqb_spec k i); [lia|]. exact Hkm.
      + exists i. split; [lia|]. rewrite zn_upd' by lia. rewrite Z.eqb_refl. exact Hb.
    - intros r w Hr.
      destruct (b_mem b') as [r'|] eqn:Er'.
      + destruct (Z.eq_dec r' r) as [->|Hr'].
        * exists i. split; [lia|]. rewrite zn_upd' by lia. rewrite Z.eqb_refl. exact Er'.
        * assert (Hni : b_mem (blk a i) <> Some r).
          { intros Hi'. specialize (Hdel r w Hi' Hr). congruence. }
          destruct (Hfr r Hni ltac:(congruence)) as [Hg _]. rewrite Hg in Hr.
          destruct (Iown r w Hr) as (k & Hk & Hkm). exists k. split; [lia|]. rewrite zn_upd' by lia.
          destruct (Z.eqb_spec k i) as [->|]; [congruence|exact Hkm].
      + assert (Hni : b_mem (blk a i) <> Some r).
        { intros Hi'. specialize (Hdel r w Hi' Hr). congruence. }
        destruct (Hfr r Hni ltac:(congruence)) as [Hg _]. rewrite Hg in Hr.
        destruct (Iown r w Hr) as (k & Hk & Hkm). exists k. split; [lia|]. rewrite zn_upd' by lia.
        destruct (Z.eqb_spec k i) as [->|]; [congruence|exact Hkm].
    - intros k. rewrite Hl, Il. rewrite zn_upd' by lia. destruct (Z.eqb_spec k i) as [->|]; intuition lia.
    - rewrite map_upd, (zsum_upd 0) by (rewrite zlen_map; lia).
      rewrite (zn_map b_alloc block_new 0) by lia. lia.
  Qed.

  (** Adding an empty block below the capacity. *)
  Lemma inv_push a live :
    inv a live -> zlen (a_blocks a) < cap0 -> a_list a = [] ->
    inv {| a_heap := a_heap a; a_blocks := a_blocks a ++ [block_new]; a_cap := a_cap a;
           a_list := [zlen (a_blocks a)] |} live.
  Proof.
    intros I Hn Hl. destruct I as [Ic In_ Iok Iinj Ilv Iown Ind Il Is]. pose proof (zlen_nonneg (a_blocks a)).
    assert (Hz : forall i, 0 <= i < zlen (a_blocks a) + 1 ->
      zn block_new (a_blocks a ++ [block_new]) i = blk a i).
    { intros i Hi. rewrite zn_app by lia. destruct (Z.ltb_spec i (zlen (a_blocks a))); [reflexivity|].
      replace (i - zlen (a_blocks a)) with 0 by lia. rewrite (zn_out block_new (a_blocks a)) by lia. reflexivity. }
    assert (Hlast : blk a (zlen (a_blocks a)) = block_new) by (apply zn_out; lia).
    split; cbn [a_heap a_blocks a_cap a_list]; auto; rewrite ?zlen_app, ?zlen_1; try lia.
    - intros i Hi. rewrite Hz by lia. destruct (Z.eq_dec i (zlen (a_blocks a))) as [->|].
      + rewrite Hlast. split; cbn; [lia|auto].
      + apply Iok. lia.
    - intros i j r Hi Hj. rewrite !Hz by lia. intros Hir Hjr.
      destruct (Z.eq_dec i (zlen (a_blocks a))) as [->|]; [rewrite Hlast in Hir; discriminate|].
      destruct (Z.eq_dec j (zlen (a_blocks a))) as [->|]; [rewrite Hlast in Hjr; discriminate|].
      apply (Iinj i j r); auto; lia.
    - intros p Hp. destruct (Ilv p Hp) as (i & Hi & Hm). exists i. split; [lia|]. rewrite Hz by lia. exact Hm.
    - intros r w Hr. destruct (Iown r w Hr) as (i & Hi & Hm). exists i. split; [lia|]. rewrite Hz by lia. exact Hm.
    - constructor; [auto|constructor].
    - intros i. cbn. split.
      + intros [<-|[]]. rewrite Hz by lia. rewrite Hlast. cbn. lia.
      + intros [Hi Ha]. rewrite Hz in Ha by lia. destruct (Z.eq_dec i (zlen (a_blocks a))); [auto|].
        exfalso. assert (In i (a_list a)) by (apply Il; lia). rewrite Hl in H0. contradiction.
    - rewrite map_app, zsum_app. cbn. lia.
  Qed.

  (** If every block is full, the elements held are [epb] per block. *)
  Lemma full_sum a live : inv a live -> a_list a = [] -> zlen live = epb * zlen (a_blocks a).
  Proof.
    intros I Hl. destruct I as [Ic In_ Iok Iinj Ilv Iown Ind Il Is].
    assert (Ha : forall i, 0 <= i < zlen (a_blocks a) -> b_alloc (blk a i) = epb).
    { intros i Hi. destruct (Iok i Hi) as [Hb _]. destruct (Z.eq_dec (b_alloc (blk a i)) epb); [auto|].
      exfalso. assert (In i (a_list a)) by (apply Il; lia). rewrite Hl in H. contradiction. }
    rewrite <- Is. clear - Ha. revert Ha. induction (a_blocks a) as [|b bs IH] using rev_ind; intros Ha.
    { cbn. unfold zlen. cbn. lia. }
    pose proof (zlen_nonneg bs).
    rewrite map_app, zsum_app, zlen_app, zlen_1. cbn. rewrite IH.
    - specialize (Ha (zlen bs)). rewrite zlen_app, zlen_1, zn_app in Ha by lia.
      rewrite Z.ltb_irrefl, Z.sub_diag in Ha. cbn in Ha. lia.
    - intros i Hi. specialize (Ha i). rewrite zlen_app, zlen_1, zn_app in Ha by lia.
      destruct (Z.ltb_spec i (zlen bs)); [apply Ha|]; lia.
  Qed.

  Lemma perm_zlen {A} (l l' : list A) : Permutation l l' -> zlen l = zlen l'.
  Proof. intros H. unfold zlen. rewrite (Permutation_length H). reflexivity. Qed.

  Lemma wo_count i e fl w f os : words_ok i e fl w f os -> zlen fl + zlen os = e.
  Proof.
    intros H. pose proof (perm_zlen _ _ H.(wo_perm _ _ _ _ _ _)) as Hp. rewrite zlen_app, zlen_ztab in Hp.
    pose proof (wo_e _ _ _ _ _ _ H). lia.
  Qed.

  Lemma wo_nofree i e fl w os : words_ok i e fl w (-1) os -> fl = [].
  Proof.
    intros H. destruct fl as [|o t]; [reflexivity|]. exfalso.
    destruct (wo_mem _ _ _ _ _ _ o H ltac:(left; reflexivity)) as (k & Hk & Ho).
    pose proof (wo_chain _ _ _ _ _ _ H) as Hc. cbn in Hc. destruct Hc as [Hc _].
    pose proof E_pos. rewrite U_E in Ho. nia.
  Qed.

  (** The block of a held element. *)
  Lemma live_block a live p : inv a live -> In p live ->
    exists i w e fl k, 0 <= i < zlen (a_blocks a) /\ b_mem (blk a i) = Some (fst p) /\
      aget (a_heap a) (fst p) = OK (Some w) /\
      words_ok i e fl w (b_free (blk a i)) (offs (fst p) live) /\ b_end (blk a i) = e * U /\
      b_alloc (blk a i) = zlen (offs (fst p) live) /\ 0 < b_alloc (blk a i) <= epb /\
      0 <= k < e /\ snd p = k * U /\ e <= epb /\ zlen w = epb * U.
  Proof.
    intros I Hp. destruct (i_live _ _ I p Hp) as (i & Hi & Hm).
    destruct (i_ok _ _ I i Hi) as [Ha Hb]. rewrite Hm in Hb.
    destruct Hb as (w & e & fl & Hg & Hw & He & Hal & Hpos).
    destruct (wo_mem _ _ _ _ _ _ (snd p) Hw) as (k & Hk & Ho).
    { apply in_or_app. right. apply offs_In. destruct p. exact Hp. }
    exists i, w, e, fl, k. pose proof (wo_e _ _ _ _ _ _ Hw). pose proof (wo_len _ _ _ _ _ _ Hw). splits; auto; lia.
  Qed.

  Lemma allocate_core a live index rest :
    inv a live -> a_list a = index :: rest ->
    exists h b p, block_allocate epb sz (a_heap a) (blk a index) index = OK (h, b, p) /\
      inv {| a_heap := h; a_blocks := upd (a_blocks a) (Z.to_nat index) b; a_cap := a_cap a;
             a_list := if is_full epb b then rest else a_list a |} (p :: live) /\
      ~ In p live /\
      (forall q j, In q live -> 0 <= j < E -> load h q j = load (a_heap a) q j).
  Proof.
    intros I Hl. pose proof E_pos as HE. pose proof (zlen_nonneg live).
    assert (Hidx : 0 <= index < zlen (a_blocks a) /\ b_alloc (blk a index) < epb).
    { apply (i_list _ _ I). rewrite Hl. left. reflexivity. }
    destruct Hidx as [Hi Hnf]. pose proof (i_ok _ _ I index Hi) as [Ha Hb].
    pose proof (i_nd _ _ I) as Hnd. rewrite Hl in Hnd. apply NoDup_cons_iff in Hnd. destruct Hnd as [Hnin Hnd].
    assert (Hlist : forall b', b_alloc b' <= epb ->
      NoDup (if is_full epb b' then rest else a_list a) /\
      forall k, In k (if is_full epb b' then rest else a_list a) <->
        (k <> index /\ In k (a_list a)) \/ (k = index /\ b_alloc b' < epb)).
    { intros b' Hb'. unfold is_full. rewrite Hl. destruct (Z.eqb_spec (b_alloc b') epb).
      - split; [exact Hnd|]. intros k. cbn. split.
        + intros Hk. left. split; [intros ->; contradiction|]. right. exact Hk.
        + intros [[Hk [Hk'|Hk']]|[Hk Hk']]; [lia|exact Hk'|lia].
      - split; [constructor; auto|]. intros k. cbn. split.
        + intros [Hk|Hk]; [right; split; lia|]. left. split; [intros ->; contradiction|]. auto.
        + intros [[Hk [Hk'|Hk']]|[Hk Hk']]; auto. }
    unfold block_allocate. destruct (Z.eqb_spec (b_free (blk a index)) (-1)) as [Hf|Hf].
    - destruct (b_mem (blk a index)) as [r|] eqn:Em.
      + (* next unit of the existing region *)
        destruct Hb as (w & e & fl & Hg & Hw & He & Hal & Hpos). rewrite Hf in *.
        pose proof (wo_nofree _ _ _ _ _ Hw). subst fl.
        pose proof (wo_count _ _ _ _ _ _ Hw) as Hcnt. rewrite zlen_nil in Hcnt.
        assert (Hlt : e < epb) by lia.
        pose proof (wo_e _ _ _ _ _ _ Hw) as Hee. pose proof (wo_len _ _ _ _ _ _ Hw) as Hwl.
        assert (Hr : 0 <= e * U + E < zlen w) by (apply unit_range with (e := e + 1); [lia|lia|rewrite U_E; lia|exact Hwl]).
        cbn [fst snd]. rewrite He. rewrite (store_OK _ _ _ _ w) by (auto; lia). cbn [bind].
        do 3 eexists. split; [reflexivity|].
        pose proof (wo_fresh _ _ _ _ Hw Hlt) as Hw'.
        assert (Hnin' : ~ In (r, e * U) live).
        { intros Hin. apply offs_In in Hin.
          destruct (wo_mem _ _ _ _ _ _ _ Hw ltac:(cbn; exact Hin)) as (k & Hk & Hke).
          rewrite U_E in Hke. nia. }
        pose proof (aget_range _ _ _ Hg) as Hrr. splits; [|exact Hnin'|].
        * set (b' := {| b_mem := Some r; b_free := -1; b_alloc := b_alloc (blk a index) + 1;
                        b_end := e * U + U |}).
          destruct (Hlist b' ltac:(cbn; lia)) as [L1 L2].
          apply inv_upd with (live := live); auto; cbn [b_mem b'].
          -- split; cbn [b_alloc b_mem b_free b_end b']; [lia|].
             exists (upd w (Z.to_nat (e * U + E)) (Some index)), (e + 1), [].
             rewrite aget_upd by lia. rewrite Z.eqb_refl. rewrite offs_cons. cbn [fst snd]. rewrite Z.eqb_refl.
             rewrite zlen_cons. splits; auto; try lia. 
          -- intros r' Hr1 Hr2. rewrite aget_upd by lia. rewrite offs_cons. cbn [fst snd].
             destruct (Z.eqb_spec r' r); [congruence|]. destruct (Z.eqb_spec r r'); [congruence|]. auto.
          -- intros r' Hr1 Hr2. congruence.
          -- intros r' w' Hr1 _. congruence.
          -- intros p Hp [Hp'|Hp']; congruence.
          -- intros p [<-|Hp]; auto.
          -- cbn [b_alloc b']. rewrite zlen_cons. lia.
        * intros q j Hq Hj. apply load_upd; auto.
          destruct (Z.eq_dec (fst q) r) as [Hqr|]; [right|left; assumption].
          destruct (live_block _ _ _ I Hq) as (i2 & w2 & e2 & fl2 & k2 & _ & _ & _ & _ & _ & _ & _ & Hk2 & Hq2 & _).
          intros Heq. rewrite Hq2 in Heq. destruct (unit_inj k2 j e E); rewrite ?U_E in *; lia.
      + (* a new region *)
        cbn [h_new]. unfold h_new. cbn [fst snd].
        set (w := repeat (@None Z) (Z.to_nat (blk_size epb sz))).
        assert (Hwl : zlen w = epb * U).
        { unfold w, blk_size. rewrite zlen_repeat. pose proof E_pos. rewrite U_E. nia. }
        assert (Hg : aget (a_heap a ++ [Some w]) (zlen (a_heap a)) = OK (Some w)).
        { pose proof (zlen_nonneg (a_heap a)).
          rewrite (aget_OK (None : region)) by (rewrite zlen_app, zlen_1; lia). rewrite zn_app by lia.
          rewrite Z.ltb_irrefl, Z.sub_diag. reflexivity. }
        assert (Hold : forall r, r <> zlen (a_heap a) ->
          aget (a_heap a ++ [Some w]) r = aget (a_heap a) r).
        { intros r Hr. destruct (Z_lt_le_dec r 0); [rewrite !aget_UB by lia; reflexivity|].
          destruct (Z_lt_le_dec r (zlen (a_heap a))).
          - rewrite !(aget_OK (None : region)) by (rewrite ?zlen_app, ?zlen_1; lia). rewrite zn_app by lia.
            destruct (Z.ltb_spec r (zlen (a_heap a))); [reflexivity|lia].
          - rewrite !aget_UB by (rewrite ?zlen_app, ?zlen_1; lia). reflexivity. }
        assert (Hlv : forall p, In p live -> fst p < zlen (a_heap a)).
        { intros p Hp. destruct (live_block _ _ _ I Hp) as (i2 & w2 & e2 & fl2 & k2 & _ & _ & Hg2 & _).
          apply aget_range in Hg2. lia. }
        assert (Hos : offs (zlen (a_heap a)) live = []).
        { destruct (offs (zlen (a_heap a)) live) as [|o t] eqn:Eo; [reflexivity|]. exfalso.
          assert (Hin : In (zlen (a_heap a), o) live) by (apply offs_In; rewrite Eo; left; reflexivity).
          apply Hlv in Hin. cbn in Hin. lia. }
        assert (Hw : words_ok index 0 [] w (-1) []).
        { split; auto; try lia. cbn. reflexivity. }
        pose proof (wo_fresh _ _ _ _ Hw ltac:(lia)) as Hw'. rewrite Z.mul_0_l in Hw'.
        assert (Hr : 0 <= 0 + E < zlen w) by (rewrite Hwl, U_E; nia).
        rewrite (store_OK _ _ _ _ w) by auto. cbn [bind].
        do 3 eexists. split; [reflexivity|].
        assert (Hrr : 0 <= zlen (a_heap a) < zlen (a_heap a ++ [Some w])) by (eapply aget_range; eauto).
        splits.
        * set (b' := {| b_mem := Some (zlen (a_heap a)); b_free := b_free (blk a index);
                        b_alloc := b_alloc (blk a index) + 1; b_end := 0 + U |}).
          destruct Hb as [_ Hb0].
          destruct (Hlist b' ltac:(cbn; lia)) as [L1 L2].
          apply inv_upd with (live := live); auto; cbn [b_mem b'].
          -- split; cbn [b_alloc b_mem b_free b_end b']; [lia|].
             exists (upd w (Z.to_nat (0 + E)) (Some index)), (0 + 1), [].
             rewrite aget_upd by lia. rewrite Z.eqb_refl. rewrite offs_cons. cbn [fst snd]. rewrite Z.eqb_refl.
             rewrite Hos, zlen_1, Hf. splits; auto; try lia.
          -- intros r' Hr1 Hr2. assert (r' <> zlen (a_heap a)) by congruence.
             rewrite aget_upd by lia. rewrite offs_cons. cbn [fst snd].
             destruct (Z.eqb_spec r' (zlen (a_heap a))); [congruence|].
             destruct (Z.eqb_spec (zlen (a_heap a)) r'); [congruence|]. auto.
          -- intros r' Hr1 Hr2 k Hk Hkr. assert (r' = zlen (a_heap a)) by congruence. subst r'.
             destruct (i_ok _ _ I k Hk) as [_ Hbk]. rewrite Hkr in Hbk.
             destruct Hbk as (w2 & e2 & fl2 & Hg2 & _). apply aget_range in Hg2. lia.
          -- intros r' w' Hr1 _. congruence.
          -- intros p Hp [Hp'|Hp']; [|exact Hp']. congruence.
          -- intros p [<-|Hp]; auto.
          -- cbn [b_alloc b']. rewrite zlen_cons. lia.
        * intros Hin. apply Hlv in Hin. cbn in Hin. lia.
        * intros q j Hq Hj. specialize (Hlv q Hq). apply load_region.
          rewrite aget_upd by lia. destruct (Z.eqb_spec (fst q) (zlen (a_heap a))); [lia|]. apply Hold. lia.
    - (* the free list of the block *)
      destruct (b_mem (blk a index)) as [r|] eqn:Em; [|lia].
      destruct Hb as (w & e & fl & Hg & Hw & He & Hal & Hpos).
      destruct (wo_reuse _ _ _ _ _ _ Hw Hf) as (fl' & f' & -> & Hf' & Hw').
      destruct (wo_mem _ _ _ _ _ _ (b_free (blk a index)) Hw ltac:(left; reflexivity)) as (k & Hk & Hke).
      pose proof (wo_e _ _ _ _ _ _ Hw) as Hee. pose proof (wo_len _ _ _ _ _ _ Hw) as Hwl.
      rewrite (load_OK _ _ _ _ w f'); auto; cycle 1.
      { rewrite Hke. apply unit_range with (e := e); [lia|lia|rewrite U_E; lia|exact Hwl]. }
      { rewrite Z.add_0_r. exact Hf'. }
      cbn [bind]. do 3 eexists. split; [reflexivity|]. splits; [| |reflexivity].
      + set (b' := {| b_mem := Some r; b_free := f'; b_alloc := b_alloc (blk a index) + 1;
                      b_end := b_end (blk a index) |}).
        destruct (Hlist b' ltac:(cbn; lia)) as [L1 L2].
        apply inv_upd with (live := live); auto; cbn [b_mem b'].
        * split; cbn [b_alloc b_mem b_free b_end b']; [lia|].
          exists w, e, fl'. rewrite offs_cons. cbn [fst snd]. rewrite Z.eqb_refl.
          rewrite zlen_cons. splits; auto; try lia.
        * intros r' Hr1 Hr2. rewrite offs_cons. cbn [fst snd].
          destruct (Z.eqb_spec r r'); [congruence|]. auto.
        * intros r' Hr1 Hr2. congruence.
        * intros r' w' Hr1 _. congruence.
        * intros p Hp [Hp'|Hp']; congruence.
        * intros p [<-|Hp]; auto.
        * cbn [b_alloc b']. rewrite zlen_cons. lia.
      + intros Hin. apply offs_In in Hin. pose proof (wo_nodup _ _ _ _ _ _ Hw) as Hnd'. cbn in Hnd'.
        apply NoDup_cons_iff in Hnd'. apply Hnd'. apply in_or_app. right. exact Hin.
  Qed.

  Lemma allocate_ok a live :
    inv a live -> zlen live < epb * cap0 ->
    exists a' p, allocate epb sz a = OK (a', p) /\ inv a' (p :: live) /\ ~ In p live /\
      forall q j, In q live -> 0 <= j < E -> load (a_heap a') q j = load (a_heap a) q j.
  Proof.
    intros I Hlt. unfold allocate.
    assert (exists a1, match a_list a with
      | [] => push_block {| a_heap := a_heap a; a_blocks := a_blocks a; a_cap := a_cap a;
                            a_list := [zlen (a_blocks a)] |}
      | _ :: _ => OK a end = OK a1 /\ inv a1 live /\ a_heap a1 = a_heap a /\
      exists index rest, a_list a1 = index :: rest) as (a1 & Ha1 & I1 & Hh & index & rest & Hl).
    { destruct (a_list a) as [|index rest] eqn:El; [|exists a; splits; eauto].
      pose proof (full_sum a live I El) as Hs. pose proof (i_cap _ _ I) as Hc.
      assert (Hn : zlen (a_blocks a) < cap0) by nia.
      unfold push_block. cbn [a_blocks a_cap a_heap a_list]. rewrite Hc.
      destruct (Z.ltb_spec (zlen (a_blocks a)) cap0); [|lia].
      pose proof (inv_push a live I Hn El) as I1. rewrite Hc in I1.
      eexists. splits; [reflexivity|exact I1|reflexivity|]. cbn. eauto. }
    rewrite Ha1. cbn [bind]. rewrite Hl.
    assert (Hi : 0 <= index < zlen (a_blocks a1)).
    { apply (i_list _ _ I1). rewrite Hl. left. reflexivity. }
    rewrite (aget_OK block_new) by lia. cbn [bind].
    destruct (allocate_core a1 live index rest I1 Hl) as (h & b & p & Hb & I2 & Hnin & Hld).
    rewrite Hb. cbn [bind]. rewrite aset_OK by lia. cbn [bind]. rewrite <- Hl.
    do 2 eexists. split; [reflexivity|]. splits; auto. cbn [a_heap]. rewrite <- Hh. exact Hld.
  Qed.

  Lemma deallocate_ok a l1 p l2 :
    inv a (l1 ++ p :: l2) ->
    exists a', deallocate epb sz a (Some p) = OK a' /\ inv a' (l1 ++ l2) /\
      forall q j, In q (l1 ++ l2) -> 0 <= j < E -> load (a_heap a') q j = load (a_heap a) q j.
  Proof.
    intros I. pose proof E_pos as HE. set (live := l1 ++ p :: l2) in *.
    assert (Hp : In p live) by (apply in_or_app; right; left; reflexivity).
    destruct (live_block _ _ _ I Hp) as (i & w & e & fl & k & Hi & Hm & Hg & Hw & He & Hal & Hpos & Hk & Ho & Hee & Hwl).
    destruct p as [r o]. cbn [fst snd] in *.
    assert (Hoff : offs r live = offs r l1 ++ o :: offs r l2).
    { unfold live. rewrite offs_app, offs_cons. cbn [fst snd]. rewrite Z.eqb_refl. reflexivity. }
    assert (Hoff' : offs r (l1 ++ l2) = offs r l1 ++ offs r l2) by apply offs_app.
    assert (Hcnt : zlen (offs r live) = zlen (offs r (l1 ++ l2)) + 1).
    { rewrite Hoff, Hoff', !zlen_app, zlen_cons. lia. }
    assert (Hrr : 0 <= r < zlen (a_heap a)) by (eapply aget_range; eauto).
    assert (HrE : 0 <= o + E < zlen w) by (subst o; apply unit_range with (e := e); [lia|lia|rewrite U_E; lia|exact Hwl]).
    assert (Hr0 : 0 <= o + 0 < zlen w) by (subst o; apply unit_range with (e := e); [lia|lia|rewrite U_E; lia|exact Hwl]).
    assert (Hndl : forall q, In q (l1 ++ l2) -> q <> (r, o)).
    { intros q Hq ->. apply offs_In in Hq. pose proof (wo_nodup _ _ _ _ _ _ Hw) as Hnd.
      rewrite Hoff in Hnd. rewrite app_assoc in Hnd. apply NoDup_remove_2 in Hnd. apply Hnd.
      rewrite <- app_assoc. apply in_or_app. right. rewrite <- Hoff'. exact Hq. }
    assert (Hother : forall r', r' <> r -> offs r' (l1 ++ l2) = offs r' live).
    { intros r' Hr'. unfold live. rewrite !offs_app, offs_cons. cbn [fst]. destruct (Z.eqb_spec r r'); [congruence|]. reflexivity. }
    assert (Hlen : zlen live = zlen (l1 ++ l2) + 1).
    { unfold live. rewrite !zlen_app, zlen_cons. lia. }
    assert (Hsub : forall q, In q (l1 ++ l2) -> In q live).
    { intros q Hq. unfold live. apply in_app_or in Hq. apply in_or_app. destruct Hq; [left|right; right]; auto. }
    assert (Hlist : forall b', b_alloc b' < epb ->
      NoDup (if is_full epb (blk a i) then i :: a_list a else a_list a) /\
      forall k, In k (if is_full epb (blk a i) then i :: a_list a else a_list a) <->
        (k <> i /\ In k (a_list a)) \/ (k = i /\ b_alloc b' < epb)).
    { intros b' Hb'. pose proof (i_list _ _ I i) as Hli. pose proof (i_nd _ _ I).
      unfold is_full. destruct (Z.eqb_spec (b_alloc (blk a i)) epb).
      - split; [constructor; auto; rewrite Hli; lia|]. intros j. cbn. split.
        + intros [Hj|Hj]; [right; lia|]. left. split; [intros ->; apply Hli in Hj; lia|auto].
        + intros [[Hj Hj']|[Hj Hj']]; auto.
      - split; [auto|]. intros j. destruct (Z.eq_dec j i) as [->|]; [|intuition lia].
        split; [intros _; right; lia|]. intros _. apply Hli. lia. }
    unfold deallocate. rewrite (load_OK _ _ _ _ w i); auto; cycle 1.
    { rewrite Ho. apply (wo_tag _ _ _ _ _ _ Hw). exact Hk. }
    cbn [bind]. rewrite (aget_OK block_new) by lia. cbn [bind].
    unfold block_deallocate. rewrite (store_OK _ _ _ _ w) by auto. cbn [bind]. rewrite Hm. cbn [fst].
    rewrite Z.eqb_refl. rewrite Hoff in Hw. pose proof (wo_free _ _ _ _ _ _ _ _ Hw) as Hw'.
    rewrite Z.add_0_r in *.
    set (h1 := upd (a_heap a) (Z.to_nat r) (Some (upd w (Z.to_nat o) (Some (b_free (blk a i)))))).
    assert (Hh1 : 0 <= r < zlen h1) by (unfold h1; rewrite zlen_upd; lia).
    destruct (Z.eqb_spec (b_alloc (blk a i) - 1) 0) as [H0|H0].
    - assert (Hnil : offs r (l1 ++ l2) = []).
      { destruct (offs r (l1 ++ l2)) eqn:E0; [reflexivity|]. rewrite zlen_cons in Hcnt.
        pose proof (zlen_nonneg l). lia. }
      assert (Hdel : h_delete h1 r = OK (upd h1 (Z.to_nat r) None)).
      { unfold h_delete, h_words. unfold h1 at 1. rewrite aget_upd by lia. rewrite Z.eqb_refl. cbn [bind].
        apply aset_OK. exact Hh1. }
      rewrite Hdel. cbn [bind]. rewrite aset_OK by lia. cbn [bind].
      assert (Hg' : forall r', aget (upd h1 (Z.to_nat r) None) r' = if r' =? r then OK None else aget (a_heap a) r').
      { intros r'. rewrite aget_upd by exact Hh1. destruct (Z.eqb_spec r' r); [reflexivity|].
        unfold h1. rewrite aget_upd by lia. destruct (Z.eqb_spec r' r); [congruence|reflexivity]. }
      assert (Hno : forall q, In q (l1 ++ l2) -> fst q <> r).
      { intros [r' o'] Hq Hr'. cbn in Hr'. subst r'. apply offs_In in Hq. rewrite Hnil in Hq. contradiction. }
      eexists. split; [reflexivity|]. split.
      + set (b' := {| b_mem := None; b_free := -1; b_alloc := 0; b_end := b_end (blk a i) |}).
        destruct (Hlist b' ltac:(cbn; lia)) as [L1 L2].
        apply inv_upd with (live := live); auto; cbn [b_mem b'].
        * split; cbn; [lia|auto].
        * intros r' Hr1 _. assert (r' <> r) by congruence. rewrite Hg', Hother by auto.
          destruct (Z.eqb_spec r' r); [congruence|]. auto.
        * intros r' Hr'. discriminate.
        * intros r' w' Hr' Hw2. assert (r' = r) by congruence. subst r'. rewrite Hg', Z.eqb_refl in Hw2. discriminate.
        * intros q Hq [Hq'|Hq']; [|exact Hq']. exfalso. apply (Hno q Hq). congruence.
        * cbn [b_alloc b']. lia.
      + intros q j Hq Hj. apply load_region. cbn [a_heap]. rewrite Hg'.
        destruct (Z.eqb_spec (fst q) r); [exfalso; eapply Hno; eauto|reflexivity].
    - cbn [bind]. rewrite aset_OK by lia. cbn [bind snd].
      eexists. split; [reflexivity|]. split.
      + set (b' := {| b_mem := Some r; b_free := o; b_alloc := b_alloc (blk a i) - 1; b_end := b_end (blk a i) |}).
        destruct (Hlist b' ltac:(cbn; lia)) as [L1 L2].
        apply inv_upd with (live := live); auto; cbn [b_mem b'].
        * split; cbn [b_alloc b_mem b_free b_end b']; [lia|].
          eexists _, e, (o :: fl). unfold h1. rewrite aget_upd by lia. rewrite Z.eqb_refl.
          split; [reflexivity|]. rewrite <- Hoff' in Hw'. splits; auto; lia.
        * intros r' Hr1 _. assert (r' <> r) by congruence. rewrite Hother by auto.
          unfold h1. rewrite aget_upd by lia. destruct (Z.eqb_spec r' r); [congruence|]. auto.
        * intros r' Hr1 Hr2. congruence.
        * intros r' w' Hr1 _. congruence.
        * intros q Hq [Hq'|Hq']; congruence.
        * cbn [b_alloc b']. lia.
      + intros q j Hq Hj. cbn [a_heap]. unfold h1. apply load_upd; auto.
        destruct (Z.eq_dec (fst q) r) as [Hqr|]; [right|left; assumption].
        pose proof (Hndl q Hq) as Hqne. apply Hsub in Hq.
        destruct (live_block _ _ _ I Hq) as (i2 & w2 & e2 & fl2 & k2 & _ & _ & _ & _ & _ & _ & _ & Hk2 & Hq2 & _).
        intros Heq. rewrite Hq2 in Heq. destruct (unit_inj k2 j k 0); rewrite ?U_E in *; try lia.
        apply Hqne. subst k2. destruct q as [r' o']. cbn [fst snd] in *. congruence.
  Qed.

  Lemma client_write_ok a live p j v :
    inv a live -> In p live -> 0 <= j < E ->
    exists a', client_write a p j v = OK a' /\ inv a' live /\ load (a_heap a') p j = OK v /\
      forall q j', In q live -> 0 <= j' < E -> (q, j') <> (p, j) ->
        load (a_heap a') q j' = load (a_heap a) q j'.
  Proof.
    intros I Hp Hj. pose proof E_pos as HE.
    destruct (live_block _ _ _ I Hp) as (i & w & e & fl & k & Hi & Hm & Hg & Hw & He & Hal & Hpos & Hk & Ho & Hee & Hwl).
    destruct p as [r o]. cbn [fst snd] in *.
    assert (Hrr : 0 <= r < zlen (a_heap a)) by (eapply aget_range; eauto).
    assert (Hrj : 0 <= o + j < zlen w) by (subst o; apply unit_range with (e := e); [lia|lia|rewrite U_E; lia|exact Hwl]).
    unfold client_write. rewrite (store_OK _ _ _ _ w) by auto. cbn [bind]. eexists. split; [reflexivity|].
    splits; cbn [a_heap].
    - destruct I as [Ic In_ Iok Iinj Ilv Iown Ind Il Is]. split; cbn [a_heap a_blocks a_cap a_list]; auto.
      + intros i' Hi'. destruct (Z.eq_dec i' i) as [->|Hne].
        * split; [lia|]. rewrite Hm. eexists _, e, fl. rewrite aget_upd by lia. rewrite Z.eqb_refl.
          split; [reflexivity|]. splits; auto; try lia. apply wo_write; auto. apply offs_In. exact Hp.
        * apply block_ok_frame with (h := a_heap a) (live := live); [|auto]. intros r' Hr'.
          rewrite aget_upd by lia. destruct (Z.eqb_spec r' r) as [->|]; [|auto].
          exfalso. apply Hne. eapply Iinj; eauto.
      + intros r' w' Hr'. rewrite aget_upd in Hr' by lia. destruct (Z.eqb_spec r' r) as [->|]; [|eauto].
        exists i. auto.
    - apply load_OK with (w := upd w (Z.to_nat (o + j)) (Some v)).
      + rewrite aget_upd by lia. rewrite Z.eqb_refl. reflexivity.
      + rewrite zlen_upd. lia.
      + rewrite zn_upd' by lia. rewrite Z.eqb_refl. reflexivity.
    - intros q j' Hq Hj' Hne. apply load_upd; auto.
      destruct (Z.eq_dec (fst q) r) as [Hqr|]; [right|left; assumption].
      destruct (live_block _ _ _ I Hq) as (i2 & w2 & e2 & fl2 & k2 & _ & _ & _ & _ & _ & _ & _ & Hk2 & Hq2 & _).
      intros Heq. rewrite Hq2, Ho in Heq. destruct (unit_inj k2 j' k j); rewrite ?U_E in *; try lia.
      apply Hne. destruct q as [r' o']. cbn [fst snd] in *. congruence.
  Qed.

  (** *** Histories *)
  Lemma history_inv a live :
    0 <= cap0 -> history epb cap0 sz (epb * cap0) a live -> inv a live.
  Proof.
    intros Hc H. induction H as [|a live o a' p' live' H IH Hleg Hop Hla Hlim]; [apply inv_new; auto|].
    destruct o as [|[p|]|p j v]; cbn in *.
    - destruct Hla as (p & -> & ->). rewrite zlen_cons in Hlim.
      destruct (allocate_ok a live IH ltac:(lia)) as (a2 & p2 & Ha & Hi & _).
      rewrite Ha in Hop. cbn in Hop. injection Hop as <- <-. exact Hi.
    - destruct Hla as (l1 & l2 & -> & ->). destruct (deallocate_ok a l1 p l2 IH) as (a2 & Ha & Hi & _).
      unfold deallocate in Ha. rewrite Ha in Hop. injection Hop as <- _. exact Hi.
    - injection Hop as <- _. subst live'. exact IH.
    - subst live'. destruct Hleg as (Hin & Hj & Hjs).
      destruct (client_write_ok a live p j v IH Hin) as (a2 & Ha & Hi & _).
      { pose proof (word_lt j Hjs). lia. }
      rewrite Ha in Hop. injection Hop as <- _. exact Hi.
  Qed.

  Lemma history_mono l l' a live : l <= l' -> history epb cap0 sz l a live -> history epb cap0 sz l' a live.
  Proof.
    intros Hl H. induction H as [|a live o a' p' live' H IH Hleg Hop Hla Hlim]; [constructor|].
    eapply history_step; eauto. lia.
  Qed.

  Lemma NoDup_offs live : (forall r, NoDup (offs r live)) -> NoDup live.
  Proof.
    induction live as [|p live IH]; intros H; [constructor|]. constructor.
    - intros Hin. specialize (H (fst p)). rewrite offs_cons, Z.eqb_refl in H. apply NoDup_cons_iff in H.
      apply H. apply offs_In. destruct p; exact Hin.
    - apply IH. intros r. specialize (H r). rewrite offs_cons in H.
      destruct (fst p =? r); [apply NoDup_cons_iff in H; tauto|exact H].
  Qed.

  Lemma inv_nodup a live : inv a live -> NoDup live.
  Proof.
    intros I. apply NoDup_offs. intros r. destruct (offs r live) as [|o t] eqn:Eo; [constructor|].
    assert (Hin : In (r, o) live) by (apply offs_In; rewrite Eo; left; reflexivity).
    destruct (live_block _ _ _ I Hin) as (i & w & e & fl & k & _ & _ & _ & Hw & _). cbn [fst] in Hw.
    rewrite <- Eo. pose proof (wo_nodup _ _ _ _ _ _ Hw) as Hnd.
    clear - Hnd. induction fl as [|x fl IH]; [exact Hnd|]. cbn in Hnd. apply NoDup_cons_iff in Hnd. tauto.
  Qed.

  Lemma NoDup_pairs {A} (R : A -> A -> Prop) l :
    NoDup l -> (forall p q, In p l -> In q l -> p <> q -> R p q) -> ForallOrdPairs R l.
  Proof.
    induction l as [|x l IH]; intros Hnd H; [constructor|]. apply NoDup_cons_iff in Hnd.
    destruct Hnd as [Hx Hnd]. constructor.
    - apply Forall_forall. intros y Hy. apply H; [left; auto|right; auto|]. intros ->. contradiction.
    - apply IH; auto. intros p q Hp Hq. apply H; right; auto.
  Qed.

  Lemma inv_disjoint a live : inv a live -> all_disjoint sz live.
  Proof.
    intros I. apply NoDup_pairs; [eapply inv_nodup; eauto|]. intros p q Hp Hq Hne. unfold disjoint.
    destruct (Z.eq_dec (fst p) (fst q)) as [Hr|]; [right|left; auto].
    destruct (live_block _ _ _ I Hp) as (i & w & e & fl & k & _ & _ & _ & _ & _ & _ & _ & Hk & Ho & _).
    destruct (live_block _ _ _ I Hq) as (i2 & w2 & e2 & fl2 & k2 & _ & _ & _ & _ & _ & _ & _ & Hk2 & Ho2 & _).
    assert (k <> k2). { intros ->. apply Hne. destruct p, q; cbn in *; congruence. }
    pose proof E_sz. pose proof E_pos. rewrite Ho, Ho2, U_E. nia.
  Qed.

  Lemma inv_inside a live : inv a live -> Forall (inside (a_heap a) sz) live.
  Proof.
    intros I. apply Forall_forall. intros p Hp.
    destruct (live_block _ _ _ I Hp) as (i & w & e & fl & k & _ & _ & Hg & _ & _ & _ & _ & Hk & Ho & He & Hl).
    exists w. split; [exact Hg|]. pose proof E_sz. pose proof E_pos. rewrite Ho, Hl, U_E. nia.
  Qed.

  Lemma Forall_aget {A} (P : A -> Prop) l : (forall i x, aget l i = OK x -> P x) -> Forall P l.
  Proof.
    intros H. apply Forall_forall. intros x Hx. apply In_nth_error in Hx. destruct Hx as (n & Hn).
    apply (H (Z.of_nat n)). unfold aget. destruct (Z.ltb_spec (Z.of_nat n) 0); [lia|].
    rewrite Nat2Z.id, Hn. reflexivity.
  Qed.

  Lemma inv_empty a : inv a [] -> all_released (a_heap a).
  Proof.
    intros I. apply Forall_aget. intros r g Hg. destruct g as [w|]; [|reflexivity]. exfalso.
    destruct (i_own _ _ I r w Hg) as (i & Hi & Hm). destruct (i_ok _ _ I i Hi) as [_ Hb]. rewrite Hm in Hb.
    destruct Hb as (w' & e & fl & _ & _ & _ & Ha & Hpos). cbn in Ha. unfold zlen in Ha. cbn in Ha. lia.
  Qed.

  Definition regs (bs : list block) : list Z :=
    flat_map (fun b => match b_mem b with Some r => [r] | None => [] end) bs.

  Lemma regs_In r bs : In r (regs bs) <-> exists i, 0 <= i < zlen bs /\ b_mem (zn block_new bs i) = Some r.
  Proof.
    unfold regs. rewrite in_flat_map. split.
    - intros (b & Hb & Hr). apply (In_nth _ _ block_new) in Hb. destruct Hb as (n & Hn & Hb).
      exists (Z.of_nat n). unfold zlen. split; [lia|]. unfold zn. destruct (Z.ltb_spec (Z.of_nat n) 0); [lia|].
      rewrite Nat2Z.id, Hb. destruct (b_mem b); [|contradiction]. destruct Hr as [->|[]]. reflexivity.
    - intros (i & Hi & Hm). exists (zn block_new bs i). rewrite Hm. split; [|left; reflexivity].
      unfold zn. destruct (Z.ltb_spec i 0); [lia|]. apply nth_In. unfold zlen in Hi. lia.
  Qed.

  Lemma regs_NoDup bs :
    (forall i j r, 0 <= i < zlen bs -> 0 <= j < zlen bs ->
       b_mem (zn block_new bs i) = Some r -> b_mem (zn block_new bs j) = Some r -> i = j) ->
    NoDup (regs bs).
  Proof.
    induction bs as [|b bs IH]; intros H; [constructor|]. pose proof (zlen_nonneg bs).
    assert (Hs : forall i, 0 <= i -> zn block_new (b :: bs) (i + 1) = zn block_new bs i).
    { intros i Hi. rewrite zn_cons. destruct (Z.eqb_spec (i + 1) 0); [lia|]. destruct (Z.ltb_spec (i + 1) 0); [lia|]. f_equal. lia. }
    assert (IH' : NoDup (regs bs)).
    { apply IH. intros i j r Hi Hj Hir Hjr. enough (i + 1 = j + 1) by lia.
      apply (H (i + 1) (j + 1) r); rewrite ?zlen_cons, ?Hs by lia; auto; lia. }
    change (regs (b :: bs)) with ((match b_mem b with Some r => [r] | None => [] end) ++ regs bs).
    destruct (b_mem b) as [r|] eqn:Eb; [|exact IH']. cbn. constructor; [|exact IH'].
    intros Hin. apply regs_In in Hin. destruct Hin as (i & Hi & Hm).
    assert (0 = i + 1); [|lia].
    apply (H 0 (i + 1) r); [rewrite zlen_cons; lia|rewrite zlen_cons; lia|exact Eb|rewrite Hs by lia; exact Hm].
  Qed.

  Lemma destroy_all_ok bs : forall h : heap,
    NoDup (regs bs) -> (forall r, In r (regs bs) -> exists w, aget h r = OK (Some w)) ->
    exists h', destroy_all h bs = OK h' /\ zlen h' = zlen h /\
      (forall r, In r (regs bs) -> aget h' r = OK None) /\
      (forall r, ~ In r (regs bs) -> aget h' r = aget h r).
  Proof.
    induction bs as [|b bs IH]; intros h Hnd Hr.
    { exists h. cbn. splits; auto. contradiction. }
    change (regs (b :: bs)) with ((match b_mem b with Some r => [r] | None => [] end) ++ regs bs) in *.
    cbn [destroy_all]. unfold block_destroy. destruct (b_mem b) as [r|] eqn:Eb.
    - cbn in Hnd. apply NoDup_cons_iff in Hnd. destruct Hnd as [Hnin Hnd].
      destruct (Hr r ltac:(left; reflexivity)) as (w & Hw).
      pose proof (aget_range _ _ _ Hw) as Hrr.
      unfold h_delete, h_words. rewrite Hw. cbn [bind]. rewrite aset_OK by lia. cbn [bind].
      destruct (IH (upd h (Z.to_nat r) None) Hnd) as (h' & Hh & Hz & H1 & H2).
      { intros r' Hr'. rewrite aget_upd by lia. destruct (Z.eqb_spec r' r) as [->|]; [contradiction|].
        apply Hr. right. exact Hr'. }
      exists h'. rewrite Hh. rewrite zlen_upd in Hz. splits; auto.
      + intros r' [<-|Hr']; [|apply H1; exact Hr']. rewrite H2 by exact Hnin. rewrite aget_upd by lia.
        rewrite Z.eqb_refl. reflexivity.
      + intros r' Hr'. rewrite H2 by (intros Hin; apply Hr'; right; exact Hin). rewrite aget_upd by lia.
        destruct (Z.eqb_spec r' r) as [->|]; [exfalso; apply Hr'; left; reflexivity|reflexivity].
    - cbn in Hnd. cbn [bind]. apply IH; auto.
  Qed.

  Lemma inv_destroy a live : inv a live ->
    exists h', destroy_all (a_heap a) (a_blocks a) = OK h' /\ zlen h' = zlen (a_heap a) /\
      (forall r, In r (regs (a_blocks a)) -> aget h' r = OK None) /\ all_released h'.
  Proof.
    intros I. destruct (destroy_all_ok (a_blocks a) (a_heap a)) as (h' & Hh & Hz & H1 & H2).
    - apply regs_NoDup. apply (i_inj _ _ I).
    - intros r Hr. apply regs_In in Hr. destruct Hr as (i & Hi & Hm).
      destruct (i_ok _ _ I i Hi) as [_ Hb]. rewrite Hm in Hb. destruct Hb as (w & e & fl & Hg & _). eauto.
    - exists h'. splits; auto. apply Forall_aget. intros r g Hg. destruct g as [w|]; [|reflexivity].
      exfalso. destruct (in_dec Z.eq_dec r (regs (a_blocks a))) as [Hin|Hnin].
      + rewrite H1 in Hg by exact Hin. discriminate.
      + rewrite H2 in Hg by exact Hnin. apply Hnin. apply regs_In. apply (i_own _ _ I r w Hg).
  Qed.

  (** *** More elements than the reserved blocks hold *)
  Lemma history_gets n : 0 <= cap0 -> 0 <= n -> n <= epb * cap0 ->
    exists a live, history epb cap0 sz (epb * cap0) a live /\ zlen live = n.
  Proof.
    intros Hc Hn. pattern n. apply natlike_ind; [| |exact Hn].
    - intros _. exists (alloc_new cap0), []. split; [constructor|reflexivity].
    - intros k Hk IH Hle. destruct IH as (a & live & H & Hl); [lia|].
      pose proof (history_inv _ _ Hc H) as I.
      destruct (allocate_ok a live I ltac:(lia)) as (a' & p & Ha & _).
      exists a', (p :: live). rewrite zlen_cons. split; [|lia].
      apply history_step with (a := a) (live := live) (o := Get) (p' := Some p).
      + exact H.
      + exact Logic.I.
      + cbn [perform]. rewrite Ha. reflexivity.
      + cbn. eauto.
      + rewrite zlen_cons. lia.
  Qed.

  Lemma zsum_le bs : (forall b, In b bs -> b_alloc b <= epb) -> zsum (map b_alloc bs) <= epb * zlen bs.
  Proof.
    induction bs as [|b bs IH]; intros H; cbn [map zsum]; [unfold zlen; cbn; lia|]. rewrite zlen_cons.
    specialize (IH ltac:(intros b' Hb'; apply H; right; exact Hb')).
    specialize (H b ltac:(left; reflexivity)). nia.
  Qed.

  Lemma zsum_lt bs : (forall b, In b bs -> b_alloc b <= epb) ->
    forall b, In b bs -> b_alloc b < epb -> zsum (map b_alloc bs) < epb * zlen bs.
  Proof.
    intros H b Hb Hlt. apply in_split in Hb. destruct Hb as (l1 & l2 & ->).
    rewrite map_app, zsum_app, zlen_app, zlen_cons. cbn [map zsum].
    pose proof (zsum_le l1 ltac:(intros b' Hb'; apply H; apply in_or_app; auto)).
    pose proof (zsum_le l2 ltac:(intros b' Hb'; apply H; apply in_or_app; right; right; auto)). nia.
  Qed.

  Lemma zn_In {A} (d : A) l i : 0 <= i < zlen l -> In (zn d l i) l.
  Proof.
    intros Hi. unfold zn. destruct (Z.ltb_spec i 0); [lia|]. apply nth_In. unfold zlen in Hi. lia.
  Qed.

  Lemma full_state a live : inv a live -> zlen live = epb * cap0 ->
    a_list a = [] /\ zlen (a_blocks a) = cap0.
  Proof.
    intros I Hl. assert (Hle : forall b, In b (a_blocks a) -> b_alloc b <= epb).
    { intros b Hb. apply (In_nth _ _ block_new) in Hb. destruct Hb as (n & Hn & <-).
      destruct (i_ok _ _ I (Z.of_nat n)) as [Ha _]; [unfold zlen; lia|].
      unfold zn in Ha. destruct (Z.ltb_spec (Z.of_nat n) 0); [lia|]. rewrite Nat2Z.id in Ha. lia. }
    pose proof (i_n _ _ I) as Hn. pose proof (i_sum _ _ I) as Hs. pose proof (zsum_le _ Hle) as Hz.
    split; [|nia]. destruct (a_list a) as [|i t] eqn:El; [reflexivity|]. exfalso.
    assert (Hi : In i (a_list a)) by (rewrite El; left; reflexivity). apply (i_list _ _ I) in Hi.
    pose proof (zsum_lt _ Hle _ (zn_In block_new _ i (proj1 Hi)) (proj2 Hi)). nia.
  Qed.

  Lemma overflow :
    1 <= cap0 -> exists a live p, history epb cap0 sz (epb * cap0 + 1) a live /\ In p live /\
      ~ inside (a_heap a) sz p /\ deallocate epb sz a (Some p) = UB.
  Proof.
    intros Hc. pose proof E_pos as HE.
    destruct (history_gets (epb * cap0) ltac:(lia) ltac:(nia) ltac:(lia)) as (a & live & H & Hl).
    pose proof (history_inv _ _ ltac:(lia) H) as I.
    destruct (full_state a live I Hl) as [Hlist Hn].
    destruct (inv_destroy a live I) as (h' & Hd & Hz & H1 & _).
    destruct live as [|p live]; [rewrite zlen_nil in Hl; nia|].
    assert (Hreg : In (fst p) (regs (a_blocks a))).
    { apply regs_In. apply (i_live _ _ I). left. reflexivity. }
    pose proof (H1 _ Hreg) as Hnone. pose proof (zlen_nonneg h') as Hh0.
    set (w := repeat (@None Z) (Z.to_nat (blk_size epb sz))).
    assert (Hwl : zlen w = epb * U).
    { unfold w, blk_size. rewrite zlen_repeat. rewrite U_E. nia. }
    assert (Hg : aget (h' ++ [Some w]) (zlen h') = OK (Some w)).
    { rewrite (aget_OK (None : region)) by (rewrite zlen_app, zlen_1; lia). rewrite zn_app by lia.
      rewrite Z.ltb_irrefl, Z.sub_diag. reflexivity. }
    set (h2 := upd (h' ++ [Some w]) (Z.to_nat (zlen h')) (Some (upd w (Z.to_nat (0 + E)) (Some cap0)))).
    set (b2 := {| b_mem := Some (zlen h'); b_free := -1; b_alloc := 1; b_end := 0 + U |}).
    set (a2 := {| a_heap := h2; a_blocks := upd (a_blocks a ++ [block_new]) (Z.to_nat cap0) b2;
                  a_cap := 2 * cap0; a_list := if is_full epb b2 then [] else [cap0] |}).
    assert (Hst : allocate epb sz a = OK (a2, (zlen h', 0))).
    { unfold allocate. rewrite Hlist. unfold push_block. cbn [a_blocks a_cap a_heap a_list].
      rewrite (i_cap _ _ I), Hn, Z.ltb_irrefl, Hd. cbn [bind a_list a_blocks a_heap a_cap].
      rewrite (aget_OK block_new) by (rewrite zlen_app, zlen_1; lia). cbn [bind].
      rewrite zn_app by lia. rewrite Hn, Z.ltb_irrefl, Z.sub_diag. cbn [zn nth Z.ltb Z.compare Z.to_nat].
      unfold block_allocate. cbn [b_free block_new b_mem b_alloc b_end].
      destruct (Z.eqb_spec (-1) (-1)); [|lia]. unfold h_new. fold w.
      rewrite (store_OK _ _ _ _ w); [|exact Hg|rewrite Hwl, U_E; nia]. cbn [bind].
      rewrite aset_OK by (rewrite zlen_app, zlen_1; lia). cbn [bind]. reflexivity. }
    assert (Hnone2 : aget h2 (fst p) = OK None).
    { unfold h2. pose proof (aget_range _ _ _ Hnone). rewrite aget_upd by (rewrite zlen_app, zlen_1; lia).
      destruct (Z.eqb_spec (fst p) (zlen h')); [lia|].
      rewrite (aget_OK (None : region)) by (rewrite zlen_app, zlen_1; lia). rewrite zn_app by lia.
      destruct (Z.ltb_spec (fst p) (zlen h')); [|lia]. rewrite <- (aget_OK (None : region)) by lia. exact Hnone. }
    exists a2, ((zlen h', 0) :: p :: live), p. splits.
    - apply history_step with (a := a) (live := p :: live) (o := Get) (p' := Some (zlen h', 0)).
      + eapply history_mono; [|exact H]. lia.
      + exact Logic.I.
      + cbn [perform]. rewrite Hst. reflexivity.
      + cbn. eauto.
      + rewrite zlen_cons, Hl. lia.
    - right. left. reflexivity.
    - intros (w' & Hw' & _). change (a_heap a2) with h2 in Hw'. rewrite Hnone2 in Hw'. discriminate.
    - unfold deallocate, load, h_words. change (a_heap a2) with h2. rewrite Hnone2. reflexivity.
  Qed.
End Proofs.

(** *** Statements *)
Theorem alloc_safe epb cap0 sz a live :
  1 <= epb -> 1 <= cap0 -> 1 <= sz ->
  history epb cap0 sz (epb * cap0) a live ->
  all_disjoint sz live /\ Forall (inside (a_heap a) sz) live /\
  (live = [] -> all_released (a_heap a)) /\
  (exists h, alloc_destroy a = OK h /\ all_released h) /\
  (forall o, legal sz live o -> (o = Get -> zlen live < epb * cap0) ->
     exists a' p', perform epb sz a o = OK (a', p') /\
       (exists live', live_after live o p' live') /\
       forall live', live_after live o p' live' -> keeps sz a o a' live live').
Proof.
  intros He Hc Hs H. pose proof (history_inv epb cap0 sz He Hs a live ltac:(lia) H) as I.
  splits.
  - eapply inv_disjoint; eauto.
  - eapply inv_inside; eauto.
  - intros ->. eapply inv_empty; eauto.
  - destruct (inv_destroy epb cap0 sz a live I) as (h & Hd & _ & _ & Hr). exists h. auto.
  - intros o Hleg Hget. destruct o as [|[p|]|p j v].
    + destruct (allocate_ok epb cap0 sz He Hs a live I ltac:(auto)) as (a' & p & Ha & _ & _ & Hk).
      exists a', (Some p). cbn [perform]. rewrite Ha. splits; cbn; eauto.
      intros live' _ q j Hq _ Hj Hjs. apply Hk; auto. pose proof (word_lt sz j Hjs). lia.
    + cbn in Hleg. apply in_split in Hleg. destruct Hleg as (l1 & l2 & ->).
      destruct (deallocate_ok epb cap0 sz He Hs a l1 p l2 I) as (a' & Ha & _ & Hk).
      exists a', None. cbn [perform]. rewrite Ha. splits; cbn; eauto.
      intros live' (m1 & m2 & Hm & ->) q j _ Hq Hj Hjs. apply Hk; [|pose proof (word_lt sz j Hjs); lia].
      pose proof (inv_nodup epb cap0 sz Hs _ _ I) as Hnd.
      assert (Hne : q <> p).
      { intros ->. rewrite Hm in Hnd. apply NoDup_remove_2 in Hnd. contradiction. }
      assert (Hin : In q (l1 ++ p :: l2)).
      { rewrite Hm. apply in_app_or in Hq. apply in_or_app. destruct Hq; [left|right; right]; auto. }
      apply in_app_or in Hin. apply in_or_app. destruct Hin as [Hin|[Hin|Hin]]; auto. congruence.
    + exists a, None. cbn. splits; eauto. intros live' -> q j Hq _ Hj Hjs. reflexivity.
    + destruct Hleg as (Hin & Hj & Hjs).
      destruct (client_write_ok epb cap0 sz He Hs a live p j v I Hin) as (a' & Ha & _ & Hv & Hk).
      { pose proof (word_lt sz j Hjs). lia. }
      exists a', None. cbn [perform]. rewrite Ha. splits; cbn; eauto.
      intros live' -> q j' Hq _ Hj' Hjs'. unfold contents.
      destruct (Z.eqb_spec (fst q) (fst p)); cbn [andb].
      2:{ apply Hk; auto; [pose proof (word_lt sz j' Hjs'); lia|]. congruence. }
      destruct (Z.eqb_spec (snd q) (snd p)); cbn [andb].
      2:{ apply Hk; auto; [pose proof (word_lt sz j' Hjs'); lia|]. congruence. }
      destruct (Z.eqb_spec j' j) as [->|].
      * replace q with p by (destruct p, q; cbn in *; congruence). exact Hv.
      * apply Hk; auto; [pose proof (word_lt sz j' Hjs'); lia|]. congruence.
Qed.

Theorem alloc_overflow epb cap0 sz :
  1 <= epb -> 1 <= cap0 -> 1 <= sz ->
  exists a live p, history epb cap0 sz (epb * cap0 + 1) a live /\ In p live /\
    ~ inside (a_heap a) sz p /\ deallocate epb sz a (Some p) = UB.
Proof. intros. apply overflow; auto. Qed.

(** *** Running a given list of operations (for examples) *)
Definition ptr_eqb (p q : ptr) : bool := (fst p =? fst q) && (snd p =? snd q).

Fixpoint take_out (p : ptr) (l : list ptr) : option (list ptr) :=
  match l with
  | [] => None
  | q :: t => if ptr_eqb q p then Some t
              else match take_out p t with Some t' => Some (q :: t') | None => None end
  end.

Definition play1 (epb sz limit : Z) (s : alloc * list ptr) (o : op) : option (alloc * list ptr) :=
  let '(a, live) := s in
  match perform epb sz a o with
  | OK (a', p') =>
    match o, p' with
    | Get, Some p => if zlen live + 1 <=? limit then Some (a', p :: live) else None
    | Put (Some p), _ =>
      match take_out p live with Some l => Some (a', l) | None => None end
    | Write p j v, _ =>
      match take_out p live with
      | Some _ => if (0 <=? j) && (8 * j <? sz) then Some (a', live) else None
      | None => None
      end
    | _, _ => None
    end
  | _ => None
  end.

Fixpoint play (epb sz limit : Z) (s : alloc * list ptr) (os : list op) : option (alloc * list ptr) :=
  match os with
  | [] => Some s
  | o :: t => match play1 epb sz limit s o with Some s' => play epb sz limit s' t | None => None end
  end.

Lemma take_out_spec p l l' : take_out p l = Some l' -> exists l1 l2, l = l1 ++ p :: l2 /\ l' = l1 ++ l2.
Proof.
  revert l'. induction l as [|q t IH]; intros l'; cbn; [discriminate|].
  destruct (ptr_eqb q p) eqn:Eq.
  - intros [= <-]. unfold ptr_eqb in Eq. apply andb_true_iff in Eq. destruct Eq as [E1 E2].
    apply Z.eqb_eq in E1, E2. exists [], t. cbn. split; [|reflexivity]. destruct p, q; cbn in *; congruence.
  - destruct (take_out p t) as [t'|]; [|discriminate]. intros [= <-].
    destruct (IH t' eq_refl) as (l1 & l2 & -> & ->). exists (q :: l1), l2. auto.
Qed.

Lemma history_limit epb cap0 sz limit a live :
  0 <= limit -> history epb cap0 sz limit a live -> zlen live <= limit.
Proof. intros Hl H. destruct H; [exact Hl|assumption]. Qed.

Lemma play_history epb cap0 sz limit os : forall a live a' live',
  0 <= limit -> history epb cap0 sz limit a live -> play epb sz limit (a, live) os = Some (a', live') ->
  history epb cap0 sz limit a' live'.
Proof.
  induction os as [|o os IH]; intros a live a' live' Hl H; cbn [play].
  { intros [= <- <-]. exact H. }
  destruct (play1 epb sz limit (a, live) o) as [[a1 live1]|] eqn:E1; [|discriminate].
  intros Hp. apply (IH _ _ _ _ Hl) in Hp; [exact Hp|]. pose proof (history_limit _ _ _ _ _ _ Hl H) as Hlen.
  unfold play1 in E1. destruct (perform epb sz a o) as [[a2 p']| | |] eqn:Ep; try discriminate.
  destruct o as [|[p|]|p j v].
  - destruct p' as [p|]; [|discriminate]. destruct (Z.leb_spec (zlen live + 1) limit); [|discriminate].
    injection E1 as <- <-. apply history_step with (a := a) (live := live) (o := Get) (p' := Some p); cbn [legal live_after]; eauto.
    rewrite zlen_cons. lia.
  - destruct (take_out p live) as [l|] eqn:Et; [|destruct p'; discriminate].
    apply take_out_spec in Et. destruct Et as (l1 & l2 & Hl1 & Hl2).
    assert (E1' : Some (a2, l) = Some (a1, live1)) by (destruct p'; exact E1). injection E1' as <- <-.
    apply history_step with (a := a) (live := live) (o := Put (Some p)) (p' := p'); cbn [legal live_after]; eauto.
    + rewrite Hl1. apply in_or_app. right. left. reflexivity.
    + rewrite Hl1, zlen_app, zlen_cons in Hlen. rewrite Hl2, zlen_app. lia.
  - destruct p'; discriminate.
  - destruct (take_out p live) as [l|] eqn:Et; [|destruct p'; discriminate].
    apply take_out_spec in Et. destruct Et as (l1 & l2 & Hl1 & Hl2).
    destruct ((0 <=? j) && (8 * j <? sz)) eqn:Ej; [|destruct p'; discriminate].
    apply andb_true_iff in Ej. destruct Ej as [Ej1 Ej2]. apply Z.leb_le in Ej1. apply Z.ltb_lt in Ej2.
    assert (E1' : Some (a2, live) = Some (a1, live1)) by (destruct p'; exact E1). injection E1' as <- <-.
    apply history_step with (a := a) (live := live) (o := Write p j v) (p' := p'); cbn [legal live_after]; eauto.
    splits; auto. rewrite Hl1. apply in_or_app. right. left. reflexivity.
Qed.

Lemma play_new epb cap0 sz limit os a live :
  0 <= limit -> play epb sz limit (alloc_new cap0, []) os = Some (a, live) ->
  history epb cap0 sz limit a live.
Proof. intros Hl H. eapply play_history; eauto. constructor. Qed.
