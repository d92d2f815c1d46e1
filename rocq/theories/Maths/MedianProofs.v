From Coq Require Import List ZArith Lia Bool.
From Verif.Base Require Import Imp.
From Verif.Maths Require Import MedianModel MedianSpec.
Import ListNotations.
Open Scope Z_scope.

Section Proofs.
  Context {T : Type} (zero : T) (ltb : T -> T -> bool) (neq : T -> T -> bool).
  Hypothesis ORD : ordered zero ltb neq.
  Notation ok x := (neq x x = false).
  Notation Zn := (zn zero).
  Notation is_kth := (is_kth ltb).
  Notation below u := (fun x => ltb x u).
  Notation upto u := (fun x => negb (ltb u x)).

  (** *** Counting *)
  Lemma count_app (p : T -> bool) l1 l2 : count p (l1 ++ l2) = count p l1 + count p l2.
  Proof. unfold count. now rewrite filter_app, zlen_app. Qed.
  Lemma count_cons (p : T -> bool) x l : count p (x :: l) = (if p x then 1 else 0) + count p l.
  Proof. unfold count. simpl. destruct (p x); zl; lia. Qed.
  Lemma count_nil (p : T -> bool) : count p [] = 0.
  Proof. reflexivity. Qed.
  Lemma count_bounds (p : T -> bool) l : 0 <= count p l <= zlen l.
  Proof.
    induction l as [|x l IH]; [rewrite count_nil; zl; lia|]. rewrite count_cons, zlen_cons.
    destruct (p x); lia.
  Qed.
  Lemma count_all (p : T -> bool) l : Forall (fun x => p x = true) l -> count p l = zlen l.
  Proof.
    induction 1 as [|x l H _ IH]; [reflexivity|]. rewrite count_cons, H, zlen_cons. lia.
  Qed.
  Lemma count_none (p : T -> bool) l : Forall (fun x => p x = false) l -> count p l = 0.
  Proof.
    induction 1 as [|x l H _ IH]; [reflexivity|]. rewrite count_cons, H. lia.
  Qed.
  Lemma count_le_mono (p q : T -> bool) l :
    Forall (fun x => p x = true -> q x = true) l -> count p l <= count q l.
  Proof.
    induction 1 as [|x l H _ IH]; [rewrite !count_nil; lia|]. rewrite !count_cons.
    destruct (p x); [rewrite H by reflexivity; lia|]. destruct (q x); lia.
  Qed.

  (** Equal as multisets, up to order-equivalence of elements. *)
  Definition same (l1 l2 : list T) : Prop :=
    forall u, ok u -> count (below u) l1 = count (below u) l2 /\
                      count (upto u) l1 = count (upto u) l2.

  Definition oks (l : list T) : Prop := Forall (fun x => ok x) l.

  (** *** Sorted lists *)
  Fixpoint srt (l : list T) : Prop :=
    match l with
    | [] => True
    | x :: t => Forall (fun y => ltb y x = false) t /\ srt t
    end.

  Lemma srt_app l1 l2 : srt (l1 ++ l2) <->
    srt l1 /\ srt l2 /\ Forall (fun x => Forall (fun y => ltb y x = false) l2) l1.
  Proof.
    induction l1 as [|x l1 IH]; simpl.
    - intuition.
    - rewrite Forall_app, IH. rewrite Forall_cons_iff. intuition.
  Qed.

  Lemma lt_trans x y z : ok x -> ok y -> ok z -> ltb x y = true -> ltb y z = true -> ltb x z = true.
  Proof.
    intros Hx Hy Hz H1 H2.
    destruct (lt_neg_trans _ _ _ ORD y x z Hy Hx Hz H2) as [H|H]; auto.
    rewrite (lt_asym _ _ _ ORD x y) in H by auto. discriminate.
  Qed.

  (** Elements that are not less than each other behave alike. *)
  Lemma eqv_below x v u : ok x -> ok v -> ok u -> ltb x v = false -> ltb v x = false ->
    ltb x u = ltb v u /\ ltb u x = ltb u v.
  Proof.
    intros Hx Hv Hu H1 H2. split.
    - destruct (ltb x u) eqn:E.
      + destruct (lt_neg_trans _ _ _ ORD x v u Hx Hv Hu E); congruence.
      + destruct (ltb v u) eqn:E'; auto.
        destruct (lt_neg_trans _ _ _ ORD v x u Hv Hx Hu E'); congruence.
    - destruct (ltb u x) eqn:E.
      + destruct (lt_neg_trans _ _ _ ORD u v x Hu Hv Hx E); congruence.
      + destruct (ltb u v) eqn:E'; auto.
        destruct (lt_neg_trans _ _ _ ORD u x v Hu Hx Hv E'); congruence.
  Qed.

  (** *** lower_bound splits a sorted list *)
  Lemma lower_bound_split v l : ok v -> oks l -> srt l ->
    partitioned ltb v l = true /\
    exists A B, l = A ++ B /\ length A = first_not_less ltb v l /\
      Forall (fun x => ltb x v = true) A /\ Forall (fun x => ltb x v = false) B.
  Proof.
    intros Hv Ho Hs. unfold partitioned.
    induction l as [|x l IH].
    - split; [reflexivity|]. exists [], []. auto.
    - inversion Ho as [|? ? Hx Hol]; subst. destruct Hs as [Hxs Hs]. simpl.
      destruct (ltb x v) eqn:E.
      + destruct (IH Hol Hs) as (P & A & B & -> & L & FA & FB). simpl. split; [exact P|].
        exists (x :: A), B. simpl. splits; auto.
      + assert (FB : Forall (fun y => ltb y v = false) (x :: l)).
        { constructor; auto. unfold oks in *; rewrite Forall_forall in *. intros y Hy.
          destruct (ltb y v) eqn:E'; auto.
          destruct (lt_neg_trans _ _ _ ORD y x v (Hol y Hy) Hx Hv E') as [H|H]; [|congruence].
          rewrite Hxs in H by auto. discriminate. }
        split.
        * apply forallb_forall. rewrite Forall_forall in FB. intros y Hy. now rewrite FB.
        * exists [], (x :: l). auto.
  Qed.

  Lemma zn_mid A (x : T) B : Zn (A ++ x :: B) (zlen A) = x.
  Proof. rewrite zn_app, Z.ltb_irrefl, Z.sub_diag. reflexivity. Qed.

  (** *** The shifting loops *)
  Lemma shift_left_loop (A : list T) (x : T) (B : list T) :
    for_up 0 (zlen B)
      (fun i so => v <- aget so (zlen A + (i + 1)) ;; aset so (zlen A + i) v) (A ++ x :: B)
    = OK (A ++ B ++ [last B x]).
  Proof.
    pose proof (zlen_nonneg A). pose proof (zlen_nonneg B).
    match goal with |- for_up 0 ?n ?F ?S = _ =>
      destruct (for_up_inv (fun i so => zlen so = zlen A + zlen B + 1 /\
         forall k, 0 <= k < zlen A + zlen B + 1 ->
           Zn so k = if (zlen A <=? k) && (k <? zlen A + i) then Zn (A ++ x :: B) (k + 1)
                     else Zn (A ++ x :: B) k) 0 n F S) as (s & E & L & Hs); [lia| | |] end.
    - split; [zl; lia|]. intros k Hk.
      destruct (Z.leb_spec (zlen A) k), (Z.ltb_spec k (zlen A + 0)); simpl; auto; lia.
    - intros i so Hi [L Hs]. rewrite (aget_OK zero) by lia. cbn [bind].
      rewrite aset_OK by lia. eexists; split; [reflexivity|].
      split; [zl; lia|]. intros k Hk. rewrite zn_upd by lia. rewrite !Hs by lia.
      destruct (Z.eqb_spec k (zlen A + i)) as [->|].
      + destruct (Z.leb_spec (zlen A) (zlen A + i)), (Z.ltb_spec (zlen A + i) (zlen A + (i + 1))),
          (Z.leb_spec (zlen A) (zlen A + (i + 1))), (Z.ltb_spec (zlen A + (i + 1)) (zlen A + i));
          simpl; try lia. f_equal; lia.
      + destruct (Z.leb_spec (zlen A) k), (Z.ltb_spec k (zlen A + (i + 1))), (Z.ltb_spec k (zlen A + i));
          simpl; auto; lia.
    - rewrite E. f_equal. apply (zn_ext zero); [zl; lia|]. intros k Hk.
      rewrite Hs by lia. rewrite !zn_app. zl.
      destruct (Z.leb_spec (zlen A) k), (Z.ltb_spec k (zlen A + zlen B)), (Z.ltb_spec k (zlen A)),
        (Z.ltb_spec (k + 1) (zlen A)), (Z.ltb_spec (k - zlen A) (zlen B)); simpl; try lia; auto.
      + rewrite zn_cons. destruct (Z.eqb_spec (k + 1 - zlen A) 0); [lia|].
        destruct (Z.ltb_spec (k + 1 - zlen A) 0); [lia|]. f_equal; lia.
      + replace (k - zlen A) with (zlen B) by lia. rewrite Z.sub_diag.
        change (Zn [last B x] 0) with (last B x). clear.
        revert x. induction B as [|b B IH]; intros x; [reflexivity|].
        rewrite zn_cons, zlen_cons. pose proof (zlen_nonneg B).
        destruct (Z.eqb_spec (zlen B + 1) 0); [lia|]. destruct (Z.ltb_spec (zlen B + 1) 0); [lia|].
        replace (zlen B + 1 - 1) with (zlen B) by lia. rewrite IH. clear.
        destruct B as [|c B]; [reflexivity|].
        change (last (b :: c :: B) x) with (last (c :: B) x). clear. revert c.
        induction B as [|d B IH]; intros c; [reflexivity|].
        change (last (c :: d :: B) b) with (last (d :: B) b).
        change (last (c :: d :: B) x) with (last (d :: B) x). apply IH.
  Qed.

  Lemma set_last (l : list T) (x v : T) n : zlen l = n -> aset (l ++ [x]) n v = OK (l ++ [v]).
  Proof.
    intros <-. pose proof (zlen_nonneg l). rewrite aset_OK by (zl; lia). f_equal.
    apply (zn_ext zero); [zl; lia|]. intros k Hk. zl. rewrite zn_upd by (zl; lia).
    rewrite !zn_app.
    destruct (Z.eqb_spec k (zlen l)) as [->|].
    - rewrite Z.ltb_irrefl, Z.sub_diag. reflexivity.
    - destruct (Z.ltb_spec k (zlen l)); [reflexivity|lia].
  Qed.

  Lemma shift_right_loop (A B : list T) (z v : T) :
    (so <- for_down (zlen B) 1
       (fun i so => v <- aget so (zlen A + (i - 1)) ;; aset so (zlen A + i) v) (A ++ B ++ [z]) ;;
     aset so (zlen A) v) = OK (A ++ v :: B).
  Proof.
    pose proof (zlen_nonneg A). pose proof (zlen_nonneg B).
    match goal with |- context [for_down ?n 1 ?F ?S] =>
      destruct (for_down_inv (fun i so => zlen so = zlen A + zlen B + 1 /\
         forall k, 0 <= k < zlen A + zlen B + 1 ->
           Zn so k = if zlen A + i <? k then Zn (A ++ B ++ [z]) (k - 1)
                     else Zn (A ++ B ++ [z]) k) n 1 F S) as (s & E & L & Hs); [lia| | |] end.
    - split; [zl; lia|]. intros k Hk. destruct (Z.ltb_spec (zlen A + zlen B) k); auto; lia.
    - intros i so Hi [L Hs]. rewrite (aget_OK zero) by lia. cbn [bind].
      rewrite aset_OK by lia. eexists; split; [reflexivity|].
      split; [zl; lia|]. intros k Hk. rewrite zn_upd by lia. rewrite !Hs by lia.
      destruct (Z.eqb_spec k (zlen A + i)) as [->|].
      + destruct (Z.ltb_spec (zlen A + (i - 1)) (zlen A + i)),
          (Z.ltb_spec (zlen A + i) (zlen A + (i - 1))); try lia. f_equal; lia.
      + destruct (Z.ltb_spec (zlen A + (i - 1)) k), (Z.ltb_spec (zlen A + i) k); auto; lia.
    - rewrite E. cbn [bind]. rewrite aset_OK by lia. f_equal.
      apply (zn_ext zero); [zl; lia|]. intros k Hk. zl. rewrite zn_upd by lia.
      rewrite Hs by lia. rewrite !zn_app.
      destruct (Z.eqb_spec k (zlen A)) as [->|].
      + rewrite Z.ltb_irrefl, Z.sub_diag. reflexivity.
      + destruct (Z.ltb_spec (zlen A + (1 - 1)) k), (Z.ltb_spec k (zlen A)),
          (Z.ltb_spec (k - 1) (zlen A)), (Z.eqb_spec (k - zlen A) 0), (Z.ltb_spec (k - zlen A) 0),
          (Z.ltb_spec (k - 1 - zlen A) (zlen B)); try lia; auto. 
        rewrite zn_cons. destruct (Z.eqb_spec (k - zlen A) 0), (Z.ltb_spec (k - zlen A) 0); try lia.
        f_equal; lia.
  Qed.

  Lemma shift_frame_loop (x : T) (F : list T) (v : T) :
    (fr <- for_up 0 (zlen F) (fun i fr => v <- aget fr (i + 1) ;; aset fr i v) (x :: F) ;;
     aset fr (zlen F) v) = OK (F ++ [v]).
  Proof.
    pose proof (shift_left_loop [] x F) as H. change (zlen (@nil T)) with 0 in H.
    simpl app in H.
    rewrite (for_up_ext _ _ _ (fun i so => v <- aget so (0 + (i + 1)) ;; aset so (0 + i) v))
      by reflexivity.
    rewrite H. cbn [bind]. apply set_last; auto.
  Qed.

  (** *** The invariant *)
  Record Inv (size : Z) (m : median T) (F : list T) : Prop := {
    i_pos : 1 <= size;
    i_size : m_size m = size;
    i_frame : m_frame m = F;
    i_lenF : zlen F = size;
    i_lenS : zlen (m_sorted m) = size;
    i_okF : oks F;
    i_okS : oks (m_sorted m);
    i_srt : srt (m_sorted m);
    i_same : same (m_sorted m) F }.

  Lemma drop_spec size S v F :
    1 <= size -> zlen S = size -> oks S -> srt S -> ok v -> oks F -> same S (v :: F) ->
    exists S', median_drop zero ltb neq size S v = OK (S' ++ [zero], false) /\
      zlen S' = size - 1 /\ oks S' /\ srt S' /\ same S' F.
  Proof.
    intros Hp HL HoS HsS Hv HoF Hsame. unfold median_drop, lower_bound.
    replace (size - 1 + 1) with size by lia.
    replace (firstn (Z.to_nat size) S) with S
      by (rewrite firstn_all2; [reflexivity | unfold zlen in HL; lia]).
    destruct (lower_bound_split v S Hv HoS HsS) as (P & A & B & -> & LA & FA & FB).
    rewrite P. cbn [bind]. rewrite <- LA. fold (zlen A).
    apply Forall_app in HoS as [HoA HoB].
    (* B starts with an element equivalent to v *)
    destruct (Hsame v Hv) as [C1 C2].
    rewrite !count_app in C1, C2. rewrite !count_cons in C1, C2.
    rewrite (lt_irr _ _ _ ORD v Hv) in C1, C2. simpl negb in C2.
    rewrite (count_all (below v) A FA) in C1. rewrite (count_none (below v) B FB) in C1.
    assert (CA : count (upto v) A = zlen A).
    { apply count_all. unfold oks in *; rewrite Forall_forall in *. intros x Hx.
      now rewrite (lt_asym _ _ _ ORD x v) by auto. }
    assert (CM : count (below v) F <= count (upto v) F).
    { apply count_le_mono. unfold oks in *; rewrite Forall_forall in *. intros x Hx E.
      now rewrite (lt_asym _ _ _ ORD x v) by auto. }
    destruct B as [|x B].
    { change (count (upto v) []) with 0 in C2. lia. }
    apply srt_app in HsS as (SA & SB & SAB). destruct SB as [SxB SB].
    apply Forall_cons_iff in HoB as [Hx HoB']. apply Forall_cons_iff in FB as [Hxv FB'].
    assert (Hvx : ltb v x = false).
    { destruct (ltb v x) eqn:E; auto. exfalso.
      assert (CB : count (upto v) (x :: B) = 0).
      { apply count_none. constructor; [now rewrite E|].
        unfold oks in *; rewrite Forall_forall in *. intros y Hy.
        destruct (lt_neg_trans _ _ _ ORD v y x Hv (HoB' y Hy) Hx E) as [H|H].
        - now rewrite H.
        - rewrite SxB in H by auto. discriminate. }
      lia. }
    rewrite (aget_OK zero) by (pose proof (zlen_nonneg A); pose proof (zlen_nonneg B); zl; lia).
    cbn [bind]. rewrite zn_mid.
    replace (size - 1 - zlen A) with (zlen B) by (zl; lia).
    rewrite shift_left_loop. cbn [bind]. rewrite app_assoc.
    rewrite set_last by (zl; lia). cbn [bind].
    rewrite (neq_lt _ _ _ ORD) by auto. rewrite Hxv, Hvx. simpl orb.
    exists (A ++ B). splits; auto.
    - zl; lia.
    - apply Forall_app; auto.
    - apply srt_app. splits; auto. unfold oks in *; rewrite Forall_forall in *. intros a Ha.
      specialize (SAB a Ha). inversion SAB; auto.
    - intros u Hu. destruct (Hsame u Hu) as [D1 D2].
      destruct (eqv_below x v u Hx Hv Hu Hxv Hvx) as [Q1 Q2].
      rewrite !count_app in D1, D2 |- *. rewrite !count_cons in D1, D2. rewrite Q1 in D1.
      rewrite Q2 in D2. split; rewrite ?count_app; lia.
  Qed.

  Lemma put_spec size S v F z :
    1 <= size -> zlen S = size - 1 -> oks S -> srt S -> ok v -> same S F ->
    exists S', median_put ltb size (S ++ [z]) v = OK S' /\
      zlen S' = size /\ oks S' /\ srt S' /\ same S' (F ++ [v]).
  Proof.
    intros Hp HL HoS HsS Hv Hsame. unfold median_put, lower_bound.
    replace (firstn (Z.to_nat (size - 1)) (S ++ [z])) with S.
    2: { rewrite firstn_app. replace (Z.to_nat (size - 1)) with (length S) by (unfold zlen in HL; lia).
         rewrite Nat.sub_diag, firstn_all. simpl. now rewrite app_nil_r. }
    destruct (lower_bound_split v S Hv HoS HsS) as (P & A & B & -> & LA & FA & FB).
    rewrite P. cbn [bind]. rewrite <- LA. fold (zlen A).
    replace (size - 1 - zlen A) with (zlen B) by (zl; lia).
    rewrite <- app_assoc.
    apply Forall_app in HoS as [HoA HoB]. apply srt_app in HsS as (SA & SB & SAB).
    eexists. split; [apply shift_right_loop|]. splits.
    - zl; lia.
    - apply Forall_app; auto.
    - apply srt_app. splits; [exact SA | split; auto | ].
      unfold oks in *; rewrite Forall_forall in *. intros a Ha. constructor; auto.
      apply (lt_asym _ _ _ ORD); auto.
    - intros u Hu. destruct (Hsame u Hu) as [D1 D2].
      rewrite !count_app in D1, D2 |- *. split; rewrite ?count_app, ?count_cons, ?count_nil; lia.
  Qed.

  Lemma push_inv size m F v : Inv size m F ->
    exists m', median_push zero ltb neq m v = OK (m', false) /\
      Inv size m' (tl F ++ [clean zero neq v]) /\ m_index m' = m_index m.
  Proof.
    intros [Hp Hs Hf HlF HlS HoF HoS Hsr Hsame]. unfold median_push.
    fold (clean zero neq v). set (w := clean zero neq v).
    assert (Hw : ok w).
    { unfold w, clean. destruct (neq v v) eqn:E; auto. apply (zero_ok _ _ _ ORD). }
    rewrite Hs, Hf. destruct F as [|f0 F]; [zl; lia|].
    apply Forall_cons_iff in HoF as [Hf0 HoF'].
    change (aget (f0 :: F) 0) with (OK f0). cbn [bind].
    destruct (drop_spec size (m_sorted m) f0 F) as (S1 & E1 & L1 & O1 & R1 & M1); auto.
    rewrite E1. cbn [bind].
    replace (size - 1) with (zlen F) by (zl; lia).
    rewrite <- bind_assoc, shift_frame_loop. cbn [bind].
    destruct (put_spec size S1 w F zero) as (S2 & E2 & L2 & O2 & R2 & M2); auto.
    rewrite E2. cbn [bind]. eexists; split; [reflexivity|]. split; [|reflexivity].
    constructor; cbn [m_size m_frame m_sorted tl]; auto.
    - zl; lia.
    - apply Forall_app; auto.
  Qed.

  (** *** Order statistics of the sorted array *)
  Lemma inv_kth size m F k : Inv size m F -> 0 <= k < size ->
    is_kth k F (Zn (m_sorted m) k) /\ ok (Zn (m_sorted m) k).
  Proof.
    intros [Hp Hs Hf HlF HlS HoF HoS Hsr Hsame] Hk.
    set (S := m_sorted m) in *.
    assert (D : S = firstn (Z.to_nat k) S ++ Zn S k :: skipn (Z.to_nat (k + 1)) S).
    { apply (zn_ext zero); [zl; lia|]. intros i Hi. rewrite zn_app. zl.
      replace (Z.min (Z.of_nat (Z.to_nat k)) (zlen S)) with k by lia.
      destruct (Z.ltb_spec i k).
      - rewrite zn_firstn by lia. reflexivity.
      - rewrite zn_cons. destruct (Z.eqb_spec (i - k) 0); [f_equal; lia|].
        destruct (Z.ltb_spec (i - k) 0); [lia|]. rewrite zn_skipn by lia. f_equal; lia. }
    set (A := firstn (Z.to_nat k) S) in *. set (B := skipn (Z.to_nat (k + 1)) S) in *.
    set (v := Zn S k) in *.
    assert (LA : zlen A = k) by (unfold A; zl; lia).
    rewrite D in HoS, Hsr.
    apply Forall_app in HoS as [HoA HoB]. apply Forall_cons_iff in HoB as [Hv HoB].
    apply srt_app in Hsr as (SA & (SvB & SB) & SAB).
    split; [|exact Hv]. destruct (Hsame v Hv) as [C1 C2].
    unfold MedianSpec.is_kth. rewrite <- C1, <- C2. rewrite D.
    rewrite !count_app, !count_cons. rewrite (lt_irr _ _ _ ORD v Hv). simpl negb.
    rewrite (count_none (below v) B) by exact SvB.
    rewrite (count_all (upto v) A).
    2: { rewrite Forall_forall in *. intros x Hx. specialize (SAB x Hx).
         apply Forall_cons_iff in SAB as [H _]. now rewrite H. }
    pose proof (count_bounds (below v) A). pose proof (count_bounds (upto v) B). lia.
  Qed.

  Lemma clamp_limited size raw : 1 <= size -> clamp_index size raw = limited size raw /\
    0 <= clamp_index size raw < size.
  Proof.
    intros H. unfold clamp_index, limited.
    destruct (Z.leb_spec size raw), (Z.ltb_spec (size - 1) 0), (Z.ltb_spec raw 0); lia.
  Qed.

  (** *** Construction and reset *)
  Lemma fill_zero l n : zlen l = n -> 0 <= n ->
    for_up 0 n (fun i fr => aset fr i zero) l = OK (repeat zero (Z.to_nat n)).
  Proof.
    intros L H. destruct (for_up_fill zero 0 n (fun _ => zero) l) as (l' & E & L' & Hl); try lia.
    rewrite E. f_equal. apply (zn_ext zero); [zl; lia|]. intros i Hi.
    rewrite Hl by lia. rewrite zn_repeat.
    destruct (Z.leb_spec 0 i), (Z.ltb_spec i n); simpl; auto; lia.
  Qed.

  Lemma repeat_zero_inv size ix : 1 <= size ->
    Inv size {| m_size := size; m_frame := repeat zero (Z.to_nat size);
                m_sorted := repeat zero (Z.to_nat size); m_index := ix |}
      (repeat zero (Z.to_nat size)).
  Proof.
    intros H.
    assert (O : oks (repeat zero (Z.to_nat size))).
    { apply Forall_forall. intros x Hx. apply repeat_spec in Hx as ->. apply (zero_ok _ _ _ ORD). }
    constructor; cbn; auto; try (zl; lia).
    - clear O. induction (Z.to_nat size) as [|n IH]; [exact I|]. split; auto.
      apply Forall_forall. intros x Hx. apply repeat_spec in Hx as ->.
      apply (lt_irr _ _ _ ORD), (zero_ok _ _ _ ORD).
    - intros u _; auto.
  Qed.

  Lemma reset_inv size m : 1 <= size -> m_size m = size -> zlen (m_frame m) = size ->
    zlen (m_sorted m) = size ->
    exists m', median_reset zero m = OK m' /\ Inv size m' (repeat zero (Z.to_nat size)) /\
      m_index m' = m_index m.
  Proof.
    intros H Hs Hf Ho. unfold median_reset. rewrite Hs.
    rewrite !fill_zero by lia. cbn [bind].
    eexists; split; [reflexivity|]. split; [now apply repeat_zero_inv|reflexivity].
  Qed.

  Lemma new_inv junk size raw : 1 <= size ->
    exists m, median_new zero junk size raw = OK m /\ Inv size m (repeat zero (Z.to_nat size)) /\
      m_index m = clamp_index size raw.
  Proof.
    intros H. unfold median_new.
    match goal with |- context [median_reset zero ?m] =>
      destruct (reset_inv size m) as (m' & E & I & X); cbn; auto; try (zl; lia) end.
    exists m'. auto.
  Qed.

  (** *** Histories *)
  Lemma last_values_nil size : last_values zero size [] = repeat zero (Z.to_nat size).
  Proof. unfold last_values. simpl. now rewrite app_nil_r. Qed.

  Lemma tl_skipn (l : list T) n : tl (skipn n l) = skipn (S n) l.
  Proof.
    revert l; induction n as [|n IH]; intros [|x l]; try reflexivity.
    change (skipn (S n) (x :: l)) with (skipn n l). rewrite IH. reflexivity.
  Qed.

  Lemma last_values_snoc size vs v : 1 <= size ->
    last_values zero size (vs ++ [v]) = tl (last_values zero size vs) ++ [v].
  Proof.
    intros H. unfold last_values. rewrite tl_skipn, app_length, Nat.add_1_r, app_assoc.
    rewrite skipn_app.
    replace (S (length vs) - length (repeat zero (Z.to_nat size) ++ vs))%nat with 0%nat
      by (rewrite app_length, repeat_length; lia).
    reflexivity.
  Qed.

  Lemma ops_inv size ops : 1 <= size -> forall m vs raw,
    Inv size m (last_values zero size vs) -> m_index m = clamp_index size raw ->
    exists m', median_ops zero ltb neq m ops = OK (m', false) /\
      Inv size m' (last_values zero size
        (fold_left (fun acc o => match o with MPush v => acc ++ [clean zero neq v]
                                 | MReset => [] | _ => acc end) ops vs)) /\
      m_index m' = clamp_index size (current_raw raw ops).
  Proof.
    intros Hp. induction ops as [|o ops IH]; intros m vs raw HI HX.
    - exists m. auto.
    - unfold current_raw. cbn [median_ops fold_left].
      assert (ST : exists m', median_step zero ltb neq m o = OK (m', false) /\
        Inv size m' (last_values zero size
          match o with MPush v => vs ++ [clean zero neq v] | MReset => [] | _ => vs end) /\
        m_index m' = clamp_index size (match o with MSetPercentile r => r | _ => raw end)).
      { destruct o as [v| |r]; cbn [median_step].
        - destruct (push_inv _ _ _ v HI) as (m' & E & I & X). exists m'. splits; auto.
          + now rewrite last_values_snoc.
          + congruence.
        - destruct HI as [Hp' Hs Hf HlF HlS HoF HoS Hsr Hsame].
          destruct (reset_inv size m) as (m' & E & I & X); auto; [congruence|].
          rewrite E. cbn [bind]. exists m'. splits; auto.
          + now rewrite last_values_nil.
          + congruence.
        - destruct HI as [Hp' Hs Hf HlF HlS HoF HoS Hsr Hsame].
          eexists; split; [reflexivity|]. cbn. rewrite Hs. split; auto.
          constructor; cbn; auto. }
      destruct ST as (m1 & E1 & I1 & X1). rewrite E1. cbn [bind].
      destruct (IH _ _ _ I1 X1) as (m2 & E2 & I2 & X2). rewrite E2. cbn [bind orb].
      exists m2. auto.
  Qed.

  Theorem median_percentile junk size raw ops : 1 <= size ->
    exists m, (m0 <- median_new zero junk size raw ;; median_ops zero ltb neq m0 ops) = OK (m, false) /\
      (exists v, median_get m = OK v /\
        is_kth (limited size (current_raw raw ops)) (last_values zero size (since_reset zero neq ops)) v) /\
      (forall r, exists v, median_getAt m r = OK v /\
        is_kth (limited size r) (last_values zero size (since_reset zero neq ops)) v).
  Proof.
    intros Hp. destruct (new_inv junk size raw Hp) as (m0 & E0 & I0 & X0).
    rewrite <- last_values_nil in I0.
    destruct (ops_inv size ops Hp m0 [] raw I0 X0) as (m & E & I & X).
    exists m. rewrite E0. cbn [bind]. split; [exact E|].
    assert (G : forall r, exists v, aget (m_sorted m) (clamp_index size r) = OK v /\
        is_kth (limited size r) (last_values zero size (since_reset zero neq ops)) v).
    { intros r. destruct (clamp_limited size r Hp) as [C1 C2].
      exists (Zn (m_sorted m) (clamp_index size r)). split.
      - apply aget_OK. rewrite (i_lenS _ _ _ I). lia.
      - rewrite <- C1. apply (inv_kth _ _ _ _ I C2). }
    split.
    - unfold median_get. rewrite X. apply G.
    - intros r. unfold median_getAt. rewrite (i_size _ _ _ I). apply G.
  Qed.

  (** *** filter() *)
  (** Window contents after [t] values of the zero-extended input. *)
  Definition W (size : Z) (inp : list T) (t : Z) : list T :=
    ztab size (fun i => clean zero neq (Zn inp (t - size + i))).

  Lemma clean_zero : clean zero neq zero = zero.
  Proof. unfold clean. now destruct (neq zero zero). Qed.

  Lemma W_0 size inp : W size inp 0 = repeat zero (Z.to_nat size).
  Proof.
    apply (zn_ext zero); [unfold W; zl; lia|]. unfold W. intros i Hi. zl.
    rewrite zn_ztab, zn_repeat by lia. rewrite zn_out by lia. apply clean_zero.
  Qed.

  Lemma W_step size inp t : 1 <= size ->
    tl (W size inp t) ++ [clean zero neq (Zn inp t)] = W size inp (t + 1).
  Proof.
    intros H. unfold W at 1. rewrite ztab_cons by lia. cbn [tl].
    unfold W. transitivity (ztab (size - 1 + 1) (fun i => clean zero neq (Zn inp (t + 1 - size + i))));
      [|f_equal; lia]. rewrite ztab_snoc by lia.
    f_equal; [apply ztab_ext; intros; do 2 f_equal; lia | do 3 f_equal; lia].
  Qed.

  Lemma count_ztab p n lo hi (g : Z -> T) : 0 <= n ->
    (forall i, 0 <= i < n -> p (g i) = true -> lo <= i < hi) ->
    count p (ztab n g) <= Z.max 0 (Z.min n hi - lo).
  Proof.
    intros Hn. pattern n. apply natlike_ind; [| |exact Hn].
    - intros _. rewrite ztab_0 by lia. rewrite count_nil. lia.
    - intros k Hk IH H. unfold Z.succ in *. rewrite ztab_snoc by lia.
      rewrite count_app, count_cons, count_nil.
      specialize (IH ltac:(intros; apply H; auto; lia)).
      destruct (p (g k)) eqn:E; [|lia]. specialize (H k ltac:(lia) E). lia.
  Qed.

  Lemma W_few size inp t p : 0 <= size -> p zero = false -> count p (W size inp t) <= zlen inp.
  Proof.
    intros Hs Hp. unfold W. pose proof (zlen_nonneg inp).
    pose proof (count_ztab p size (size - t) (size - t + zlen inp)
      (fun i => clean zero neq (Zn inp (t - size + i))) Hs) as C.
    cbv beta in C. specialize (C ltac:(intros i Hi E;
      destruct (Z.ltb_spec (t - size + i) 0); [rewrite zn_out, clean_zero in E by lia; congruence|];
      destruct (Z.leb_spec (zlen inp) (t - size + i));
        [rewrite zn_out, clean_zero in E by lia; congruence|]; lia)).
    lia.
  Qed.

  Lemma W_ok size inp t : oks (W size inp t).
  Proof.
    unfold W, ztab. apply Forall_forall. intros x Hx. apply in_map_iff in Hx as (k & <- & _).
    set (y := Zn inp _). unfold clean. destruct (neq y y) eqn:E; auto. apply (zero_ok _ _ _ ORD).
  Qed.

  Lemma zlen_W size inp t : 0 <= size -> zlen (W size inp t) = size.
  Proof. intros; unfold W; zl; lia. Qed.

  Lemma count_negb (p : T -> bool) l : count (fun x => negb (p x)) l = zlen l - count p l.
  Proof.
    induction l as [|x l IH]; [reflexivity|]. rewrite count_cons, zlen_cons, IH.
    rewrite (count_cons p). destruct (p x); cbn [negb]; lia.
  Qed.

  (** With fewer than size/2 input values every median is zero. *)
  Lemma short_kth size inp t t' v : 1 <= size -> zlen inp < size / 2 -> ok v ->
    is_kth (size / 2) (W size inp t) v -> is_kth (size / 2) (W size inp t') v.
  Proof.
    intros Hs Hl Hv [K1 K2].
    pose proof (zero_ok _ _ _ ORD) as Hz. pose proof (lt_irr _ _ _ ORD _ Hz) as Zi.
    assert (S2 : size / 2 + size / 2 <= size) by (pose proof (Z.div_mod size 2); pose proof (Z.mod_pos_bound size 2); lia).
    assert (L : forall t, count (below zero) (W size inp t) <= zlen inp /\
                  size - zlen inp <= count (upto zero) (W size inp t)).
    { intros s. split; [apply W_few; auto; lia|].
      pose proof (W_few size inp s (fun x => ltb zero x) ltac:(lia) Zi).
      rewrite (count_negb (fun x => ltb zero x)), zlen_W by lia. lia. }
    assert (E1 : ltb v zero = false).
    { destruct (ltb v zero) eqn:E; auto. exfalso. destruct (L t) as [L1 _].
      assert (count (upto v) (W size inp t) <= count (below zero) (W size inp t)); [|lia].
      apply count_le_mono. pose proof (W_ok size inp t) as O. unfold oks in *.
      rewrite Forall_forall in *. intros x Hx Q.
      destruct (lt_neg_trans _ _ _ ORD v x zero Hv (O x Hx) Hz E) as [H|H]; auto.
      rewrite H in Q. discriminate. }
    assert (E2 : ltb zero v = false).
    { destruct (ltb zero v) eqn:E; auto. exfalso. destruct (L t) as [_ L2].
      assert (count (upto zero) (W size inp t) <= count (below v) (W size inp t)); [|lia].
      apply count_le_mono. pose proof (W_ok size inp t) as O. unfold oks in *.
      rewrite Forall_forall in *. intros x Hx Q.
      destruct (lt_neg_trans _ _ _ ORD zero x v Hz (O x Hx) Hv E) as [H|H]; auto.
      rewrite H in Q. discriminate. }
    destruct (L t') as [L1 L2]. unfold MedianSpec.is_kth.
    assert (Q1 : count (below v) (W size inp t') <= count (below zero) (W size inp t')).
    { apply count_le_mono. pose proof (W_ok size inp t') as O. unfold oks in *.
      rewrite Forall_forall in *. intros x Hx Q.
      destruct (eqv_below v zero x) as [_ H]; auto. congruence. }
    assert (Q2 : count (upto zero) (W size inp t') <= count (upto v) (W size inp t')).
    { apply count_le_mono. pose proof (W_ok size inp t') as O. unfold oks in *.
      rewrite Forall_forall in *. intros x Hx Q.
      destruct (eqv_below v zero x) as [H _]; auto. congruence. }
    lia.
  Qed.

  Lemma centred_W size inp k : centred_window zero neq size inp k = W size inp (k + size / 2 + 1).
  Proof. unfold centred_window, W. apply ztab_ext. intros. do 2 f_equal. lia. Qed.

  Theorem median_filter_centred junk size inp : 1 <= size ->
    exists out, median_filter zero ltb neq junk size inp = OK out /\ zlen out = zlen inp /\
      forall k, 0 <= k < zlen inp ->
        is_kth (size / 2) (centred_window zero neq size inp k) (Zn out k).
  Proof.
    intros Hp. unfold median_filter.
    assert (Hh : 0 <= size / 2 < size).
    { split; [apply Z.div_pos; lia | apply Z.div_lt; lia]. }
    set (h := size / 2) in *.
    destruct (new_inv junk size h Hp) as (m0 & E0 & I0 & X0). rewrite E0. cbn [bind].
    assert (Ch : clamp_index size h = h).
    { destruct (clamp_limited size h Hp) as [-> _]. unfold limited. lia. }
    rewrite Ch in X0. rewrite <- (W_0 size inp) in I0.
    pose proof (zlen_nonneg inp).
    assert (GET : forall m t, Inv size m (W size inp t) -> m_index m = h ->
              exists v, median_get m = OK v /\ is_kth h (W size inp t) v /\ ok v).
    { intros m t I X. exists (Zn (m_sorted m) h). unfold median_get. rewrite X. split.
      - apply aget_OK. rewrite (i_lenS _ _ _ I). lia.
      - apply (inv_kth _ _ _ _ I Hh). }
    (* the invariant of both loops *)
    set (P := fun t (s : median T * list T) =>
      Inv size (fst s) (W size inp t) /\ m_index (fst s) = h /\
      forall k, 0 <= k < zlen (snd s) -> is_kth h (W size inp (k + h + 1)) (Zn (snd s) k)).
    assert (SNOC : forall t t' (m : median T) out v, P t (m, out) -> ok v ->
              is_kth h (W size inp t') v -> (t' = zlen out + h + 1 \/ zlen inp < h) ->
              forall k, 0 <= k < zlen (out ++ [v]) -> is_kth h (W size inp (k + h + 1)) (Zn (out ++ [v]) k)).
    { intros t t' m out v (_ & _ & Hout) Hv HK HT k Hk. zl. rewrite zn_app.
      destruct (Z.ltb_spec k (zlen out)); [apply Hout; cbn; lia|].
      replace (k - zlen out) with 0 by lia. change (Zn [v] 0) with v.
      destruct HT as [->|HT].
      - now replace (k + h + 1) with (zlen out + h + 1) by lia.
      - now apply (short_kth size inp t'). }
    match goal with |- context [for_up 0 (zlen inp) ?F ?S] =>
      destruct (for_up_inv (fun i s => P i s /\ zlen (snd s) = Z.max 0 (i - h)) 0 (zlen inp) F S)
        as ([m out] & E & HP & HL); [lia| | |] end.
    - unfold P. cbn [fst snd]. splits; auto; [|zl; lia]. intros k Hk. zl. lia.
    - intros i [m out] Hi [HP HL]. pose proof HP as (I & X & HO). cbn [fst snd] in *.
      rewrite (aget_OK zero) by lia. cbn [bind].
      destruct (push_inv _ _ _ (Zn inp i) I) as (m' & E & I' & X'). rewrite E. cbn [bind].
      rewrite W_step in I' by lia.
      destruct (GET m' (i + 1) I' ltac:(congruence)) as (v & Ev & Kv & Ov). rewrite Ev. cbn [bind].
      eexists; split; [reflexivity|]. cbn [snd]. destruct (Z.leb_spec h i).
      + split; [|zl; lia]. unfold P; splits; cbn [fst snd]; auto; [congruence|].
        apply (SNOC i (i + 1) m); auto. left. lia.
      + split; [|lia]. unfold P; splits; cbn [fst snd]; auto. congruence.
    - rewrite E. cbn [bind].
      match goal with |- context [while ?n ?c ?b ?S] =>
        destruct (while_inv (fun s => exists t, P t s /\ zlen (snd s) <= zlen inp /\ zlen inp <= t /\
                               (t = zlen (snd s) + h \/ zlen inp < h))
                    (fun s => Z.to_nat (zlen inp - zlen (snd s))) c b) with (fuel := n) (s := S)
          as ([m' out'] & E' & (t & HP' & HL' & _ & _) & C) end.
      + intros [m1 o1] (t & HP1 & HL1 & HT1 & HT2) C. cbn in C. apply Z.ltb_lt in C.
        pose proof HP1 as (I & X & HO). cbn [fst snd] in *.
        destruct (push_inv _ _ _ zero I) as (m' & E' & I' & X'). rewrite E'. cbn [bind].
        replace zero with (Zn inp t) in I' at 2 by (apply zn_out; lia).
        rewrite W_step in I' by lia.
        destruct (GET m' (t + 1) I' ltac:(congruence)) as (v & Ev & Kv & Ov). rewrite Ev. cbn [bind].
        eexists; split; [reflexivity|]. cbn [snd]. split; [|zl; lia].
        exists (t + 1). unfold P; splits; cbn [fst snd]; try (zl; lia); auto; try congruence.
        apply (SNOC t (t + 1) m1); auto. lia.
      + exists (zlen inp). splits; auto; cbn [snd] in *; lia.
      + cbn [snd] in *. unfold zlen in *. lia.
      + rewrite E'. cbn [bind]. cbn in C. apply Z.ltb_ge in C. cbn [snd] in HL'.
        exists out'. split; [reflexivity|]. split; [lia|]. intros k Hk.
        rewrite centred_W. apply HP'. cbn. lia.
  Qed.
End Proofs.
