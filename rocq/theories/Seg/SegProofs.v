(** makeSegmentation and create_histograms. *)
From Coq Require Import List ZArith Reals Lia Lra Bool.
From Verif.Base Require Import Imp Sums RealOps Loops Matrix.
From Verif.Maths Require Import IntModel.
From Verif.Seg Require Import MeltLoops SegModel SegSpec.
Import ListNotations.
Open Scope Z_scope.

Lemma tiles_snoc s : forall l a, tiles a (s_start s) l -> s_start s < s_end s -> tiles a (s_end s) (l ++ [s]).
Proof.
  induction l as [|u l IH]; intros a H L; cbn in *; [subst; auto|]. destruct H as (A & B & C). splits; auto.
Qed.
Lemma tiles_snoc_inv s : forall l a b, tiles a b (l ++ [s]) -> tiles a (s_start s) l /\ s_start s < s_end s /\ s_end s = b.
Proof.
  induction l as [|u l IH]; intros a b H; cbn in *.
  - destruct H as (A & B & C). splits; auto.
  - destruct H as (A & B & C). apply IH in C. tauto.
Qed.
Lemma alternates_snoc s u : forall l, alternates (l ++ [s]) -> s_type s <> s_type u -> alternates ((l ++ [s]) ++ [u]).
Proof.
  induction l as [|v l IH]; intros H N; cbn in *; [auto|]. destruct l as [|w l]; cbn in *; [tauto|]. split; [tauto|]. apply IH; tauto.
Qed.
Lemma alternates_last s u : forall l, alternates (l ++ [s]) -> s_type s = s_type u -> alternates (l ++ [u]).
Proof.
  induction l as [|v l IH]; intros H N; cbn in *; [auto|]. destruct l as [|w l]; cbn in *.
  - rewrite <- N. tauto.
  - split; [tauto|]. apply IH; tauto.
Qed.

Lemma make_segmentation_ok nc rate hop q len : 1 <= len <= zlen q -> 0 < hop -> len * hop <= INT_MAX ->
  exists l, make_segmentation nc rate hop q len = OK (Segmentation nc rate l) /\ is_segmentation hop (zn 0 q) 0 len l.
Proof.
  intros Hlen Hh Hov. unfold make_segmentation. rewrite (aget_OK 0) by lia. cbn [bind].
  assert (Int : forall i, 0 <= i <= len -> int_ (i * hop) = OK (i * hop)).
  { intros i Hi. unfold int_. replace ((INT_MIN <=? i * hop) && (i * hop <=? INT_MAX)) with true; auto. symmetry.
    apply andb_true_intro. unfold INT_MIN, INT_MAX in *. split; apply Z.leb_le; nia. }
  match goal with |- exists l, bind (for_up 1 len ?F ?S) _ = _ /\ _ =>
    destruct (for_up_inv (fun i '((segs, start, ty) : list segment_t * Z * Z) => ty = zn 0 q (i - 1) /\
      is_segmentation hop (zn 0 q) 0 i (segs ++ [Seg start (i * hop) ty])) 1 len F S) as ([[segs start] ty] & E & _ & H) end.
  - lia.
  - split; [reflexivity|]. cbn [app]. split; [|split; [|split]].
    + cbn -[Z.mul]. lia.
    + exact I.
    + intros i Hi. eexists. split; [now left|]. replace i with 0 by lia. cbn [s_start s_end s_type]. split; [lia|reflexivity].
    + constructor; auto. exists 0. reflexivity.
  - intros i [[segs start] ty] Hi (-> & T & Al & La & Mu). rewrite !(aget_OK 0) by lia. cbn [bind].
    apply Forall_app in Mu. destruct Mu as [Mu1 Mu2].
    destruct (tiles_snoc_inv _ _ _ _ T) as (T1 & T2 & T3). cbn [s_start s_end] in T1, T2, T3.
    destruct (Z.eqb_spec (zn 0 q i) (zn 0 q (i - 1))) as [Eq|Ne]; cbn [negb].
    + eexists; split; [reflexivity|]. replace (i + 1 - 1) with i by lia. split; auto. split; [|split; [|split]].
      * change ((i + 1) * hop) with (s_end (Seg start ((i + 1) * hop) (zn 0 q (i - 1)))) at 1. apply tiles_snoc; cbn; auto. nia.
      * eapply alternates_last; [exact Al|reflexivity].
      * intros j Hj. destruct (Z.eq_dec j i) as [->|].
        -- eexists. split; [apply in_or_app; right; now left|]. cbn [s_start s_end s_type]. split; [nia|auto].
        -- destruct (La j ltac:(lia)) as (s & Is & Rs & Ts). apply in_app_or in Is. destruct Is as [Is|[<-|[]]].
           ++ exists s. split; auto. apply in_or_app. now left.
           ++ cbn [s_start s_end s_type] in *. eexists. split; [apply in_or_app; right; now left|]. cbn [s_start s_end s_type]. split; [nia|auto].
      * apply Forall_app. split; auto. inversion Mu2; subst. constructor; auto.
    + rewrite Int by lia. cbn [bind]. eexists; split; [reflexivity|]. replace (i + 1 - 1) with i by lia. split; auto.
      split; [|split; [|split]].
      * change ((i + 1) * hop) with (s_end (Seg (i * hop) ((i + 1) * hop) (zn 0 q i))) at 1. apply tiles_snoc; cbn -[Z.mul]; auto. nia.
      * apply alternates_snoc; auto.
      * intros j Hj. destruct (Z.eq_dec j i) as [->|].
        -- eexists. split; [apply in_or_app; right; now left|]. cbn [s_start s_end s_type]. split; [nia|auto].
        -- destruct (La j ltac:(lia)) as (s & Is & Rs & Ts). exists s. split; auto. apply in_or_app. now left.
      * apply Forall_app. split; [apply Forall_app; auto|]. constructor; auto. exists i. reflexivity.
  - rewrite E. cbn [bind]. rewrite Int by lia. cbn [bind]. eexists; split; [reflexivity|]. exact H.
Qed.

(** There is only one such segmentation. *)
Lemma segmentation_unique hop q len : 0 < hop -> forall l l' a, is_segmentation hop q a len l -> is_segmentation hop q a len l' -> l = l'.
Proof.
  intros Hh.
  assert (Low : forall l a b s, tiles a b l -> In s l -> a <= s_start s /\ s_start s < s_end s /\ s_end s <= b).
  { induction l as [|u l IH]; intros a b s T I; [destruct I|]. destruct T as (A & B & C). destruct I as [->|I].
    - subst a. splits; [lia|auto|]. clear IH. revert B C. generalize (s_end s) as e. intros e B C.
      assert (G : forall l e b, tiles e b l -> e <= b).
      { clear. induction l as [|v l IH]; intros e b T; cbn in T; [lia|]. destruct T as (A & B & C). apply IH in C. lia. }
      now apply G in C.
    - specialize (IH _ _ _ C I). lia. }
  (* the first segment: its type, and the frame after it *)
  assert (Head : forall s l a, is_segmentation hop q a len (s :: l) -> a * hop < len * hop ->
    s_start s = a * hop /\ s_type s = q a /\ exists e, s_end s = e * hop /\ a < e <= len /\ (forall i, a <= i < e -> s_type s = q i) /\
      is_segmentation hop q e len l /\ (e < len -> s_type s <> q e)).
  { intros s l a (T & Al & La & Mu) Hal. cbn in T. destruct T as (T1 & T2 & T3).
    assert (In_head : forall i, a <= i < len -> i * hop < s_end s -> s_type s = q i).
    { intros i Hi Hlt. destruct (La i Hi) as (u & [<-|Iu] & Ru & Tu); auto.
      destruct (Low _ _ _ _ T3 Iu) as (L1 & L2 & L3). lia. }
    assert (Ee : exists e, s_end s = e * hop).
    { destruct l as [|u l]; [cbn in T3; now exists len|]. cbn in T3. destruct T3 as (T3 & _). inversion Mu as [|? ? ? Mu']; subst.
      inversion Mu' as [|? ? D]; subst. destruct D as [e D]. exists e. lia. }
    destruct Ee as (e & Ee).
    assert (Hel : s_end s <= len * hop) by (apply (Low (s :: l) (a * hop) (len * hop) s); [cbn; auto|now left]).
    assert (a < e <= len) by nia.
    splits; auto. { apply In_head; nia. }
    exists e. split; [exact Ee|]. split; [lia|]. split; [|split].
    - intros i Hi. apply In_head; nia.
    - split; [|split; [|split]].
      + now rewrite <- Ee.
      + destruct l; [exact I|]. apply Al.
      + intros i Hi. destruct (La i ltac:(lia)) as (u & [<-|Iu] & Ru & Tu); [nia|]. exists u. auto.
      + now inversion Mu.
    - intros He. destruct l as [|u l]; [cbn in T3; nia|]. destruct Al as [Ne _]. cbn in T3. destruct T3 as (U1 & U2 & U3).
      destruct (La e ltac:(lia)) as (v & [<-|[<-|Iv]] & Rv & Tv); [nia|congruence|].
      destruct (Low _ _ _ _ U3 Iv). nia. }
  assert (Nil : forall a, is_segmentation hop q a len [] -> a = len).
  { intros a (T & _). cbn in T. nia. }
  assert (Cons : forall s l a, is_segmentation hop q a len (s :: l) -> a * hop < len * hop).
  { intros s l a (T & _). destruct (Low _ _ _ s T ltac:(now left)) as (A & B & C). lia. }
  induction l as [|s l IH]; intros [|s' l'] a H H'; auto.
  - apply Nil in H. apply Cons in H'. subst. lia.
  - apply Nil in H'. apply Cons in H. subst. lia.
  - pose proof (Cons _ _ _ H) as Hal. destruct (Head _ _ _ H Hal) as (S1 & S2 & e & E & Re & V & R & Nx).
    destruct (Head _ _ _ H' Hal) as (S1' & S2' & e' & E' & Re' & V' & R' & Nx').
    assert (e = e').
    { destruct (Z.lt_trichotomy e e') as [L|[L|L]]; auto.
      - exfalso. apply (Nx ltac:(lia)). rewrite S2, <- S2'. apply V'. lia.
      - exfalso. apply (Nx' ltac:(lia)). rewrite S2', <- S2. apply V. lia. }
    subst e'. rewrite (IH l' e R R'). f_equal. destruct s, s'. cbn in *. congruence.
Qed.

(** A matrix stored by rows in one array. *)
Definition flat (n m : Z) (h : list R) (f : Z -> Z -> R) : Prop :=
  zlen h = n * m /\ forall i j, 0 <= i < n -> 0 <= j < m -> zn 0%R h (i * m + j) = f i j.
Lemma flat_inj m i j a b : 0 <= j < m -> 0 <= b < m -> i * m + j = a * m + b -> i = a /\ j = b.
Proof. intros. assert (i = a) by nia. subst. lia. Qed.
Lemma flat_get n m h f i j : flat n m h f -> 0 <= i < n -> 0 <= j < m -> aget h (i * m + j) = OK (f i j).
Proof. intros [L V] Hi Hj. rewrite (aget_OK 0%R) by nia. now rewrite V. Qed.
Lemma flat_set n m h f i j v : flat n m h f -> 0 <= i < n -> 0 <= j < m ->
  exists h', aset h (i * m + j) v = OK h' /\ flat n m h' (fun a b => if (a =? i) && (b =? j) then v else f a b).
Proof.
  intros [L V] Hi Hj. rewrite aset_OK by nia. eexists; split; [reflexivity|]. split; [zl; lia|].
  intros a b Ha Hb. rewrite zn_upd by nia. destruct (Z.eqb_spec (a * m + b) (i * m + j)) as [E|E].
  - apply flat_inj in E; auto. destruct E as [-> ->]. now rewrite !Z.eqb_refl.
  - rewrite V by auto. destruct (Z.eqb_spec a i), (Z.eqb_spec b j); subst; auto. congruence.
Qed.
Lemma flat_ext n m h f g : (forall i j, 0 <= i < n -> 0 <= j < m -> f i j = g i j) -> flat n m h f -> flat n m h g.
Proof. intros E [L V]. split; auto. intros. rewrite <- E by auto. auto. Qed.
Lemma flat_row n m h f i g body : flat n m h f -> 0 <= i < n -> 0 <= m ->
  (forall j h', 0 <= j < m -> flat n m h' (fun a b => if (a =? i) && (b <? j) then g b else f a b) -> body j h' = aset h' (i * m + j) (g j)) ->
  exists h', for_up 0 m body h = OK h' /\ flat n m h' (fun a b => if a =? i then g b else f a b).
Proof.
  intros F Hi Hm B.
  destruct (for_up_inv (fun j h' => flat n m h' (fun a b => if (a =? i) && (b <? j) then g b else f a b)) 0 m body h) as (h' & E & F').
  - lia.
  - eapply flat_ext; [|exact F]. intros a b Ha Hb. cbv beta. destruct (Z.ltb_spec b 0); [lia|]. now rewrite andb_false_r.
  - intros j h' Hj F'. rewrite B by auto. destruct (flat_set n m h' _ i j (g j) F' Hi Hj) as (h'' & E & F''). exists h''. split; auto.
    eapply flat_ext; [|exact F'']. intros a b Ha Hb. cbv beta. destruct (Z.eqb_spec a i), (Z.eqb_spec b j), (Z.ltb_spec b j), (Z.ltb_spec b (j + 1)); cbn; try lia; subst; auto.
  - exists h'. split; auto. eapply flat_ext; [|exact F']. intros a b Ha Hb. cbv beta. destruct (Z.ltb_spec b m); [|lia]. now rewrite andb_true_r.
Qed.

Section Histograms.
  Variables (x : list Z) (nx m hl : Z).
  Hypotheses (Hm : 1 <= m) (Hhl : 0 <= hl) (Hnx : 2 * hl + 1 <= nx) (Lx : nx <= zlen x)
    (Rx : forall t, 0 <= t < nx -> 0 <= zn 0%Z x t < m).
  Notation occ := (occurrences (zn 0%Z x) hl).
  Definition row_value (i j : Z) : R := (occ i j / rsum m (fun j => occ i j * occ i j))%R.

  Lemma histogram_row_ok h f i : flat nx m h f -> hl <= i < nx - hl ->
    exists h', histogram_row x m hl i h = OK h' /\ flat nx m h' (fun a b => if a =? i then row_value i b else f a b).
  Proof.
    intros F Hi. unfold histogram_row.
    destruct (flat_row nx m h f i (fun _ => 0%R) (fun j h => aset h (i * m + j) 0%R) F ltac:(lia) ltac:(lia) ltac:(auto)) as (h1 & E1 & F1).
    rewrite E1. cbn [bind].
    match goal with |- exists h', bind (for_up _ _ ?B h1) _ = _ /\ _ =>
      destruct (for_up_inv (fun t h' => flat nx m h' (fun a b => if a =? i then rsum (t - (i - hl)) (fun t => if zn 0%Z x (i - hl + t) =? b then 1%R else 0%R) else f a b))
        (i - hl) (i + hl + 1) B h1) as (h2 & E2 & F2) end.
    - lia.
    - eapply flat_ext; [|exact F1]. intros a b Ha Hb. cbv beta. destruct (Z.eqb_spec a i); auto. now rewrite rsum_0 by lia.
    - intros t h' Ht F'. rewrite (aget_OK 0) by lia. cbn [bind]. pose proof (Rx t ltac:(lia)) as Rt.
      rewrite (flat_get _ _ _ _ _ _ F') by lia. cbn [bind].
      match goal with |- exists s', aset _ _ ?v = _ /\ _ => destruct (flat_set nx m h' _ i (zn 0%Z x t) v F' ltac:(lia) Rt) as (h'' & E & F'') end.
      exists h''. split; auto. eapply flat_ext; [|exact F'']. intros a b Ha Hb. cbv beta. rewrite Z.eqb_refl.
      destruct (Z.eqb_spec a i); auto. cbn [andb]. replace (t + 1 - (i - hl)) with (t - (i - hl) + 1) by lia. rewrite rsum_S by lia.
      replace (i - hl + (t - (i - hl))) with t by lia. rewrite (Z.eqb_sym (zn 0%Z x t) b). destruct (Z.eqb_spec b (zn 0%Z x t)); [subst; reflexivity|lra].
    - rewrite E2. cbn [bind].
      assert (F3 : flat nx m h2 (fun a b => if a =? i then occ i b else f a b)).
      { eapply flat_ext; [|exact F2]. intros a b Ha Hb. cbv beta. destruct (a =? i); auto. unfold occurrences. f_equal. lia. }
      assert (E3 : for_up 0 m (fun j norm => v <- aget h2 (i * m + j) ;; OK (norm + v * v)%R) 0%R = OK (rsum m (fun j => occ i j * occ i j)%R)).
      { apply for_up_fsum; [lia|]. intros j v Hj. rewrite (flat_get _ _ _ _ _ _ F3) by lia. cbn [bind]. now rewrite Z.eqb_refl. }
      rewrite E3. cbn [bind].
      destruct (flat_row nx m h2 _ i (row_value i) (fun j h => v <- aget h (i * m + j) ;; aset h (i * m + j) (v / rsum m (fun j => occ i j * occ i j))%R) F3 ltac:(lia) ltac:(lia)) as (h3 & E4 & F4).
      + intros j h' Hj F'. rewrite (flat_get _ _ _ _ _ _ F') by lia. cbn [bind]. rewrite Z.eqb_refl. destruct (Z.ltb_spec j j); [lia|]. reflexivity.
      + exists h3. split; auto. eapply flat_ext; [|exact F4]. intros a b Ha Hb. cbv beta. now destruct (a =? i).
  Qed.
  Lemma copy_row_ok h f src i : flat nx m h f -> 0 <= src < nx -> 0 <= i < nx -> src <> i ->
    exists h', copy_row m src i h = OK h' /\ flat nx m h' (fun a b => if a =? i then f src b else f a b).
  Proof.
    intros F Hs Hi Ne. unfold copy_row. apply flat_row; auto; try lia.
    intros j h' Hj F'. rewrite (flat_get _ _ _ _ _ _ F') by lia. cbn [bind]. destruct (Z.eqb_spec src i); [lia|]. reflexivity.
  Qed.
  Lemma create_histograms_ok h hlen : Z.quot hlen 2 = hl -> zlen h = nx * m ->
    exists h', create_histograms x nx m hlen h = OK h' /\ flat nx m h' (histogram (zn 0%Z x) nx m hl).
  Proof.
    intros Eh L. unfold create_histograms. rewrite Eh.
    assert (Lz : 0 <= nx * m) by nia.
    rewrite (for_up_tab (nx * m) _ (fun _ => 0%R)) by (auto; lia). cbn [bind]. rewrite tab_all by lia.
    match goal with |- exists h', bind (for_up _ _ ?B ?S) _ = _ /\ _ =>
      destruct (for_up_inv (fun i h' => flat nx m h' (fun a b => if (hl <=? a) && (a <? i) then row_value a b else 0%R)) hl (nx - hl) B S) as (h1 & E1 & F1) end.
    - lia.
    - split; [zl; lia|]. intros i j Hi Hj. rewrite zn_ztab by nia. destruct (Z.leb_spec hl i), (Z.ltb_spec i hl); cbn; auto; lia.
    - intros i h' Hi F. destruct (histogram_row_ok h' _ i F ltac:(lia)) as (h'' & E & F'). exists h''. split; auto.
      eapply flat_ext; [|exact F']. intros a b Ha Hb. cbv beta. destruct (Z.eqb_spec a i) as [->|].
      + destruct (Z.leb_spec hl i), (Z.ltb_spec i (i + 1)); try lia. reflexivity.
      + destruct (Z.leb_spec hl a), (Z.ltb_spec a i), (Z.ltb_spec a (i + 1)); try lia; reflexivity.
    - rewrite E1. cbn [bind].
      match goal with |- exists h', bind (for_up 0 hl ?B ?S) _ = _ /\ _ =>
        destruct (for_up_inv (fun i h' => flat nx m h' (fun a b => if a <? i then row_value hl b else if (hl <=? a) && (a <? nx - hl) then row_value a b else 0%R)) 0 hl B S) as (h2 & E2 & F2) end.
      + lia.
      + eapply flat_ext; [|exact F1]. intros a b Ha Hb. cbv beta. destruct (Z.ltb_spec a 0); [lia|]. reflexivity.
      + intros i h' Hi F. destruct (copy_row_ok h' _ hl i F ltac:(lia) ltac:(lia) ltac:(lia)) as (h'' & E & F'). exists h''. split; auto.
        eapply flat_ext; [|exact F']. intros a b Ha Hb. cbv beta. destruct (Z.eqb_spec a i) as [->|].
        * destruct (Z.ltb_spec hl i), (Z.ltb_spec i (i + 1)), (Z.leb_spec hl hl), (Z.ltb_spec hl (nx - hl)); try lia. reflexivity.
        * destruct (Z.ltb_spec a i), (Z.ltb_spec a (i + 1)); try lia; reflexivity.
      + rewrite E2. cbn [bind].
        match goal with |- exists h', for_up _ nx ?B ?S = _ /\ _ =>
          destruct (for_up_inv (fun i h' => flat nx m h' (fun a b => if a <? hl then row_value hl b else if a <? nx - hl then row_value a b else if a <? i then row_value (nx - hl - 1) b else 0%R)) (nx - hl) nx B S) as (h3 & E3 & F3) end.
        * lia.
        * eapply flat_ext; [|exact F2]. intros a b Ha Hb. cbv beta. destruct (Z.ltb_spec a hl), (Z.leb_spec hl a), (Z.ltb_spec a (nx - hl)); try lia; reflexivity.
        * intros i h' Hi F. destruct (copy_row_ok h' _ (nx - hl - 1) i F ltac:(lia) ltac:(lia) ltac:(lia)) as (h'' & E & F'). exists h''. split; auto.
          eapply flat_ext; [|exact F']. intros a b Ha Hb. cbv beta. destruct (Z.eqb_spec a i) as [->|].
          -- destruct (Z.ltb_spec i hl); [lia|]. destruct (Z.ltb_spec i (nx - hl)); [lia|]. destruct (Z.ltb_spec i (i + 1)); [|lia].
             destruct (Z.ltb_spec (nx - hl - 1) hl), (Z.ltb_spec (nx - hl - 1) (nx - hl)); try lia; auto; f_equal; lia.
          -- destruct (Z.ltb_spec a hl), (Z.ltb_spec a (nx - hl)), (Z.ltb_spec a i), (Z.ltb_spec a (i + 1)); try lia; reflexivity.
        * exists h3. split; auto. eapply flat_ext; [|exact F3]. intros a b Ha Hb. cbv beta. unfold histogram.
          destruct (Z.ltb_spec a hl); [|destruct (Z.ltb_spec a (nx - hl)); [|destruct (Z.ltb_spec a nx); [|lia]]].
          -- replace (Z.max hl (Z.min a (nx - hl - 1))) with hl by lia. reflexivity.
          -- replace (Z.max hl (Z.min a (nx - hl - 1))) with a by lia. reflexivity.
          -- replace (Z.max hl (Z.min a (nx - hl - 1))) with (nx - hl - 1) by lia. reflexivity.
  Qed.

  (** Facts about the histograms. *)
  Lemma occ_nonneg i j : (0 <= occ i j)%R.
  Proof. apply rsum_nonneg. intros t Ht. destruct (_ =? _); lra. Qed.
  Lemma histogram_nonneg i j : (0 <= histogram (zn 0%Z x) nx m hl i j)%R.
  Proof.
    unfold histogram. apply Rmult_le_pos; [apply occ_nonneg|].
    assert (S : (0 <= rsum m (fun j => occ (Z.max hl (Z.min i (nx - hl - 1))) j * occ (Z.max hl (Z.min i (nx - hl - 1))) j))%R)
      by (apply rsum_nonneg; intros; apply Rle_0_sqr).
    destruct S as [S|S]; [apply Rlt_le, Rinv_0_lt_compat; exact S|]. cbv zeta. rewrite <- S. rewrite Rinv_0. lra.
  Qed.
  Lemma occ_total i : hl <= i < nx - hl -> rsum m (occ i) = IZR (2 * hl + 1).
  Proof.
    intros Hi. unfold occurrences. rewrite rsum_swap. rewrite (rsum_ext _ _ (fun _ => 1%R)).
    - rewrite rsum_const by lia. lra.
    - intros t Ht. pose proof (Rx (i - hl + t) ltac:(lia)) as P.
      assert (G : forall v d, 0 <= v -> 0 <= d -> rsum d (fun j => if v =? j then 1%R else 0%R) = if v <? d then 1%R else 0%R).
      { intros v d Hv. apply (natlike_ind (fun d => rsum d (fun j => if v =? j then 1%R else 0%R) = if v <? d then 1%R else 0%R)).
        - rewrite rsum_0 by lia. destruct (Z.ltb_spec v 0); [lia|reflexivity].
        - intros e He IH. unfold Z.succ. rewrite rsum_S by lia. rewrite IH. destruct (Z.eqb_spec v e), (Z.ltb_spec v e), (Z.ltb_spec v (e + 1)); try lia; lra. }
      rewrite G by lia. destruct (Z.ltb_spec (zn 0%Z x (i - hl + t)) m); [reflexivity|lia].
  Qed.
  Lemma occ_square_pos i : hl <= i < nx - hl -> (0 < rsum m (fun j => occ i j * occ i j))%R.
  Proof.
    intros Hi. pose proof (Rx i ltac:(lia)) as P.
    apply Rlt_le_trans with (occ i (zn 0%Z x i) * occ i (zn 0%Z x i))%R.
    - assert (0 < occ i (zn 0%Z x i))%R; [|now apply Rmult_lt_0_compat].
      apply Rlt_le_trans with 1%R; [lra|].
      apply Rle_trans with (if zn 0%Z x (i - hl + hl) =? zn 0%Z x i then 1%R else 0%R).
      + replace (i - hl + hl) with i by lia. rewrite Z.eqb_refl. lra.
      + apply (rsum_term (2 * hl + 1) (fun t => if zn 0%Z x (i - hl + t) =? zn 0%Z x i then 1%R else 0%R) hl); [|lia].
        intros t Ht. destruct (_ =? _); lra.
    - apply (rsum_term m (fun j => occ i j * occ i j)%R (zn 0%Z x i)); auto. intros. apply Rle_0_sqr.
  Qed.
End Histograms.
