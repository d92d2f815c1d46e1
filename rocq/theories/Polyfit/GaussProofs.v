(** GaussJordan2 and GaussJordan. *)
From Coq Require Import Reals ZArith Lia Lra List Bool.
From Verif.Base Require Import Imp Sums RealOps Loops Matrix.
From Verif.Polyfit Require Import PolyModel PolySpec PolyMath PolyProofs.
Import ListNotations.
Open Scope Z_scope.

Definition isdone (index : list (list Z)) (k : Z) : bool := ix index k =? 0.

Lemma solves_hom n B w x : solves n B w 0 x <-> solves n B (fun _ => 0%R) 0 x.
Proof. unfold solves. split; intros H r Hr; rewrite H by auto; ring. Qed.

Section Gauss.
  Variables (n : Z) (A : Z -> Z -> R) (y : Z -> R).
  Hypothesis Hn : 1 <= n.

  Definition gj_inv (i : Z) (st : option gj_state) : Prop :=
    match st with
    | None => singular n A
    | Some (b, w, index, ir, ic) =>
      shape n n b /\ shape n n w /\ shape n 3 index /\ 0 <= ir < n /\ 0 <= ic < n /\
      (forall k, 0 <= k < n -> 0 <= ent 0 index k 0 < n /\ 0 <= ent 0 index k 1 < n) /\
      ((good_index n index /\ count n (isdone index) = i /\ (0 < i -> ix index ic = 0) /\ (i = 0 -> E b 0 0 <> 0%R) /\
        forall s x, solves n A y s x <-> solves n (virt (isdone index) (E b)) (fun r => E w r 0) s x) \/
       (singular n A /\ exists k, 0 <= k < n /\ 0 < ix index k))
    end.

  (** What happens to the bookkeeping. *)
  Lemma index_step index q i ir : shape n 3 index -> 0 <= q < n -> 0 <= i < n -> 0 <= ir < n ->
    (forall k, 0 <= k < n -> 0 <= ent 0 index k 0 < n /\ 0 <= ent 0 index k 1 < n) ->
    exists i1 i2 i3, mget index q 2 = OK (ix index q) /\ mset index q 2 (ix index q + 1) = OK i1 /\
      mset i1 i 0 ir = OK i2 /\ mset i2 i 1 q = OK i3 /\ shape n 3 i3 /\
      (forall k, 0 <= k < n -> 0 <= ent 0 i3 k 0 < n /\ 0 <= ent 0 i3 k 1 < n) /\
      (forall k, ix i3 k = if k =? q then ix index q + 1 else ix index k).
  Proof.
    intros Si Hq Hi Hr R.
    exists (mupd index q 2 (ix index q + 1)), (mupd (mupd index q 2 (ix index q + 1)) i 0 ir),
      (mupd (mupd (mupd index q 2 (ix index q + 1)) i 0 ir) i 1 q).
    assert (S1 : shape n 3 (mupd index q 2 (ix index q + 1))) by (apply shape_mupd; auto).
    assert (S2 : shape n 3 (mupd (mupd index q 2 (ix index q + 1)) i 0 ir)) by (apply shape_mupd; auto).
    assert (S3 : shape n 3 (mupd (mupd (mupd index q 2 (ix index q + 1)) i 0 ir) i 1 q)) by (apply shape_mupd; auto).
    assert (V : forall k c, ent 0 (mupd (mupd (mupd index q 2 (ix index q + 1)) i 0 ir) i 1 q) k c =
      if (k =? i) && (c =? 1) then q else if (k =? i) && (c =? 0) then ir else if (k =? q) && (c =? 2) then ix index q + 1 else ent 0 index k c).
    { intros k c. rewrite (ent_mupd 0 n 3 _ i 1), (ent_mupd 0 n 3 _ i 0), (ent_mupd 0 n 3 _ q 2) by (auto; lia). reflexivity. }
    splits; auto.
    - apply mget_OK with (n := n) (k := 3); auto; lia.
    - apply mset_OK with (n := n) (k := 3); auto; lia.
    - apply mset_OK with (n := n) (k := 3); auto; lia.
    - apply mset_OK with (n := n) (k := 3); auto; lia.
    - intros k Hk. rewrite !V. cbn [Z.eqb Pos.eqb]. rewrite !andb_false_r, !andb_true_r. destruct (k =? i); [lia|auto].
    - intros k. unfold ix at 1. rewrite V. cbn [Z.eqb Pos.eqb]. rewrite !andb_false_r, !andb_true_r. reflexivity.
  Qed.

  Lemma gj_step_ok i st : 0 <= i < n -> gj_inv i st -> exists st', gj_step n i st = OK st' /\ gj_inv (i + 1) st'.
  Proof.
    intros Hi. destruct st as [((((b & w) & index) & ir) & ic)|]; [|intros H; exists None; split; [reflexivity|exact H]].
    intros (Sb & Sw & Si & Hir & Hic & Rg & [(G & Cn & St & Z0 & Q)|(Sg & k0 & Hk0 & Ik0)]); unfold gj_step.
    - destruct (search_good n b index ir ic Hn Sb Si G) as (big & p & q & -> & Cs). ret.
      assert (Hp : 0 <= p < n /\ 0 <= q < n) by (destruct Cs as [(? & ? & _)|(-> & -> & _)]; auto). destruct Hp as (Hp & Hq).
      destruct (index_step index q i p Si Hq Hi Hp Rg) as (i1 & i2 & i3 & -> & F1 & F2 & F3 & S3 & R3 & V3).
      ret. rewrite F1. ret. rewrite F2. ret. rewrite F3. ret.
      destruct (step_rows_ok n b w p q) as (b1 & w1 & b2 & w2 & b' & w' & -> & E2 & E3 & Sb' & Sw' & V); auto.
      ret. rewrite E2. ret. rewrite E3. ret. eexists; split; [reflexivity|].
      unfold gj_inv. do 6 (split; [auto|]).
      destruct Cs as [(_ & _ & Ip & Iq & Nz)|(-> & -> & Zs)].
      + left. destruct (V Nz) as (V1 & V2). 
        assert (D : forall k, isdone i3 k = isdone index k || (k =? q)).
        { intros k. unfold isdone. rewrite V3. destruct (Z.eqb_spec k q) as [->|]; [rewrite Iq; reflexivity|now rewrite orb_false_r]. }
        assert (Dp : isdone index p = false) by (unfold isdone; rewrite Ip; reflexivity).
        assert (Dq : isdone index q = false) by (unfold isdone; rewrite Iq; reflexivity).
        splits.
        * intros k Hk. rewrite V3. destruct (Z.eqb_spec k q) as [->|]; [lia|auto].
        * rewrite (count_ext n _ (fun c => isdone index c || (c =? q))) by (intros; apply D). rewrite count_add by auto. lia.
        * intros _. rewrite V3, Z.eqb_refl. lia.
        * lia.
        * intros s x. rewrite Q. rewrite (virt_step n (isdone index) (E b) (fun r => E w r 0) p q (E b') (fun r => E w' r 0)) by auto.
          apply solves_ext; [|auto]. intros r c Hr Hc. unfold virt. now rewrite D.
      + right. assert (Ni : 0 < i).
        { destruct (Z.eq_dec i 0) as [->|]; [|lia]. exfalso.
          assert (U : forall k, 0 <= k < n -> ix index k = -1).
          { intros k Hk. destruct (G k Hk) as [|I0]; [assumption|]. exfalso.
            assert (isdone index k = false); [|unfold isdone in *; rewrite I0 in *; discriminate].
            destruct (isdone index k) eqn:Dk; [|reflexivity]. exfalso.
            assert (count n (fun c => (isdone index c && negb (c =? k)) || (c =? k)) = count n (fun c => isdone index c && negb (c =? k)) + 1).
            { apply count_add; auto. rewrite Z.eqb_refl. apply andb_false_r. }
            rewrite (count_ext n (fun c => (isdone index c && negb (c =? k)) || (c =? k)) (isdone index)) in H.
            - pose proof (count_le n (fun c => isdone index c && negb (c =? k)) ltac:(lia)). lia.
            - intros c Hc. destruct (Z.eqb_spec c k) as [->|]; cbn [negb]; rewrite ?Dk, ?andb_true_r, ?andb_false_r, ?orb_true_r, ?orb_false_r; reflexivity. }
          apply (Z0 eq_refl). apply Zs; try lia; apply U; lia. }
        destruct (count_some n (isdone index)) as (c0 & Hc0 & Dc0); try lia.
        split.
        * assert (Sv : singular n (virt (isdone index) (E b))).
          { apply (virt_singular n _ _ c0); auto. intros r c Hr Hc Dr Dc. unfold isdone in Dr, Dc. apply Z.eqb_neq in Dr, Dc.
            apply Zs; auto; [destruct (G r Hr)|destruct (G c Hc)]; lia. }
          destruct Sv as (x & Sx & Nx). exists x. split; [|exact Nx].
          apply (solves_hom n A y). apply Q. apply solves_hom. exact Sx.
        * exists ic. split; [auto|]. rewrite V3, Z.eqb_refl, St by auto. lia.
    - rewrite (search_bad n b index ir ic k0) by auto. ret. exists None. split; [reflexivity|exact Sg].
  Qed.
End Gauss.

Lemma swap_cols_ok n (m0 : list (list R)) p q : 0 <= p < n -> 0 <= q < n -> 0 <= n -> shape n n m0 ->
  exists m, for_up 0 n (fun k m => mswap m k p k q) m0 = OK m /\ shape n n m.
Proof.
  intros Hp Hq Hn S0.
  destruct (for_up_inv (fun c m => shape n n m) 0 n (fun k m => mswap m k p k q) m0) as (m & EQ & S); eauto.
  intros k m Hk S. unfold mswap. rewrite !(mget_OK 0%R n n) by (auto; lia). ret. ret. rewrite (mset_OK n n) by (auto; lia). ret.
  assert (S' : shape n n (mupd m k p (ent 0%R m k q))) by (apply shape_mupd; auto).
  rewrite (mset_OK n n) by (auto; lia). eexists; split; [reflexivity|]. apply shape_mupd; auto.
Qed.

(** A nonzero first entry suffices to tell singular matrices from the others. *)
Theorem gauss_jordan_ok n b y coef : 1 <= n -> shape n n b -> zlen y = n -> zlen coef = n -> E b 0 0 <> 0%R ->
  exists o, gauss_jordan b y coef = OK o /\
    match o with
    | None => singular n (E b)
    | Some c => zlen c = n /\ (forall x, solves n (E b) (zn 0%R y) 1 x <-> forall r, 0 <= r < n -> x r = zn 0%R c r) /\ ~ singular n (E b)
    end.
Proof.
  intros Hn Sb Ly Lc Nz. unfold gauss_jordan, gauss_jordan2. pose proof Sb as (Lb & _). rewrite Lb.
  match goal with |- context [for_up 0 n ?B ?S] => match S with (zeros2 _ _ _, _) =>
    destruct (for_up_inv (fun i (x : list (list R) * list (list Z)) => let '(w, index) := x in
      shape n n w /\ shape n 3 index /\ (forall k, 0 <= k < i -> E w k 0 = zn 0%R y k /\ ix index k = -1) /\
      (forall k, ent 0 index k 0 = 0 /\ ent 0 index k 1 = 0)) 0 n B S) as ((w & index) & EQ & Sw & Si & V & V0); [lia| | |] end end.
  - cbv beta iota. splits; try (apply shape_repeat; lia); try (intros; lia).
    all: intros k; unfold ent, zeros2; destruct (Z.lt_ge_cases k 0) as [Q|Q]; [now rewrite (zn_out []) by lia|];
    destruct (Z.lt_ge_cases k n) as [Q'|Q']; [rewrite zn_repeat_in by lia; cbn; auto|rewrite (zn_out []) by (rewrite ?zlen_repeat; lia); auto].
  - intros i (w & index) Hi (Sw & Si & V & V0). rewrite (aget_OK 0%R) by lia. ret. rewrite (mset_OK n n) by (auto; lia). ret.
    rewrite (mset_OK n 3) by (auto; lia). ret. eexists; split; [reflexivity|]. cbv beta iota.
    split; [apply shape_mupd; auto|]. split; [apply shape_mupd; auto|]. split.
    + intros k Hk. unfold E, ix. rewrite (ent_mupd 0%R n n), (ent_mupd 0 n 3) by (auto; lia). cbn [Z.eqb Pos.eqb]. rewrite !andb_true_r.
      destruct (Z.eqb_spec k i) as [->|]; [auto|]. apply V; lia.
    + intros k. rewrite !(ent_mupd 0 n 3) by (auto; lia). cbn [Z.eqb Pos.eqb]. rewrite !andb_false_r. auto.
  - match goal with |- context [for_up 0 n ?B ?S] => match S with (zeros2 _ _ _, _) =>
      replace (for_up 0 n B S) with (OK (w, index)) by (symmetry; exact EQ) end end. ret. clear EQ.
    assert (Und : forall k, 0 <= k < n -> isdone index k = false).
    { intros k Hk. unfold isdone. destruct (V k Hk) as (_ & ->). reflexivity. }
    destruct (for_up_inv (gj_inv n (E b) (zn 0%R y)) 0 n (gj_step n) (Some (b, w, index, 0, 0))) as (st & EQ & I); [lia| |intros; now apply gj_step_ok|].
    { unfold gj_inv. do 3 (split; [auto|]). split; [lia|]. split; [lia|]. split; [intros k Hk; destruct (V0 k) as (-> & ->); lia|].
      left. splits; auto; try lia.
      - intros k Hk. left. apply V; lia.
      - apply count_none; [lia|]. auto.
      - intros s x. apply solves_ext.
        + intros r c Hr Hc. unfold virt. now rewrite Und.
        + intros r Hr. destruct (V r Hr) as (-> & _). reflexivity. }
    rewrite EQ. ret. clear EQ. destruct st as [((((b' & w') & index') & ir) & ic)|]; [|exists None; split; [reflexivity|exact I]].
    destruct I as (Sb' & Sw' & Si' & _ & _ & Rg & I).
    match goal with |- context [for_up 0 n ?B b'] =>
      destruct (for_up_inv (fun i m => shape n n m) 0 n B b') as (b2 & EQ & Sb2); [lia|auto| |] end.
    { intros i m Hi Sm. cbv zeta. rewrite !(mget_OK 0 n 3) by (auto; lia). ret. ret. destruct (Rg (n - i - 1)) as (R0 & R1); [lia|].
      destruct (Z.eqb_spec (ent 0 index' (n - i - 1) 0) (ent 0 index' (n - i - 1) 1)); cbn [negb]; [eexists; split; [reflexivity|auto]|].
      apply swap_cols_ok; auto; lia. }
    rewrite EQ. ret. clear EQ.
    match goal with |- context [for_up 0 n ?B false] =>
      destruct (for_up_inv (fun i bad => bad = true <-> exists k, 0 <= k < i /\ ix index' k <> 0) 0 n B false) as (bad & EQ & Hbad); [lia| | |] end.
    { split; [discriminate|]. intros (k & Hk & _). lia. }
    { intros i bad Hi Hb. destruct bad.
      - eexists; split; [reflexivity|]. split; [|auto]. intros _. destruct (proj1 Hb eq_refl) as (k & Hk & Nk). exists k. split; [lia|auto].
      - rewrite (mget_OK 0 n 3) by (auto; lia). ret. fold (ix index' i). eexists; split; [reflexivity|].
        destruct (Z.eqb_spec (ix index' i) 0) as [E0|N0]; cbn [negb].
        + split; [discriminate|]. intros (k & Hk & Nk). apply Hb. exists k. split; [|auto]. assert (k <> i) by (intros ->; auto). lia.
        + split; [|auto]. intros _. exists i. split; [lia|auto]. }
    rewrite EQ. ret. clear EQ.
    destruct I as [(G & Cn & _ & _ & Q)|(Sg & k0 & Hk0 & Ik0)].
    + assert (All : forall k, 0 <= k < n -> isdone index' k = true) by (apply count_all; auto; lia).
      destruct bad.
      { destruct (proj1 Hbad eq_refl) as (k & Hk & Nk). specialize (All k Hk). unfold isdone in All. apply Z.eqb_eq in All. lia. }
      rewrite (for_up_set n (fun i => mget w' i 0) (fun i => E w' i 0)) by (try lia; intros; apply mget_OK with (n := n) (k := n); auto; lia).
      ret. rewrite skipn_zlen, app_nil_r by lia. eexists; split; [reflexivity|].
      assert (Id : forall s x, solves n (virt (isdone index') (E b')) (fun r => E w' r 0) s x <-> forall r, 0 <= r < n -> x r = (s * E w' r 0)%R).
      { intros s x. unfold solves.
        assert (L : forall r, 0 <= r < n -> lin n (virt (isdone index') (E b')) x r = x r).
        { intros r Hr. unfold lin. rewrite (rsum_ext n _ (fun c => if c =? r then x r else 0%R)).
          2:{ intros c Hc. unfold virt. rewrite All by auto. destruct (Z.eqb_spec r c) as [->|]; [rewrite Z.eqb_refl; ring|].
              destruct (Z.eqb_spec c r); [lia|ring]. }
          replace n with (r + (1 + (n - r - 1))) by lia. rewrite rsum_split by lia. rewrite rsum_split by lia.
          rewrite (rsum_zero r), (rsum_zero (n - r - 1)) by (intros i Hi; zcase; lia || reflexivity).
          rewrite (rsum_S 0), rsum_0 by lia. replace (r + 0) with r by lia. rewrite Z.eqb_refl. lra. }
        split; intros H r Hr; specialize (H r Hr); rewrite ?L in * by auto; auto. }
      cbv beta iota. splits.
      * rewrite zlen_ztab. clear - Hn. lia.
      * intros x. rewrite Q, Id. split; intros H r Hr; specialize (H r Hr); rewrite zn_ztab in * by auto; lra.
      * intros (x & Sx & c & Hc & Nc). apply Nc. apply (solves_hom n (E b) (zn 0%R y)) in Sx. apply Q in Sx.
        rewrite (proj1 (Id 0%R x) Sx c Hc). ring.
    + assert (bad = true) as ->. { apply Hbad. exists k0. split; [auto|lia]. }
      exists None. split; [reflexivity|exact Sg].
Qed.
