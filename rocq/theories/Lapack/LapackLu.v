(** The factorisation: dgetf2_ on a panel, and dgetrf_ over the panels. *)
From Coq Require Import List ZArith Reals Lia Lra Bool.
From Verif.Base Require Import Imp Sums RealOps Loops Matrix Tables.
From Verif.Lapack Require Import LapackModel LapackBlas.
Import ListNotations.
Open Scope Z_scope.

(** The triangles kept in one array. *)
Definition lo (G : Z -> Z -> R) (i p : Z) : R := if p <? i then G i p else if p =? i then 1%R else 0%R.
Definition up (G : Z -> Z -> R) (p j : Z) : R := if p <=? j then G p j else 0%R.

(** Exchanges o <-> pv o, then o + 1 <-> pv (o + 1), ..., m of them, as a renumbering of rows. *)
Fixpoint perm (o : Z) (pv : Z -> Z) (m : nat) (i : Z) : Z :=
  match m with O => i | S m => perm o pv m (swp (o + Z.of_nat m) (pv (o + Z.of_nat m)) i) end.

Lemma perm_S o pv m i : 0 <= m -> perm o pv (Z.to_nat (m + 1)) i = perm o pv (Z.to_nat m) (swp (o + m) (pv (o + m)) i).
Proof. intros H. replace (Z.to_nat (m + 1)) with (S (Z.to_nat m)) by lia. cbn [perm]. now rewrite Z2Nat.id by lia. Qed.
Lemma perm_ext o pv pv' m : (forall k, o <= k < o + Z.of_nat m -> pv k = pv' k) -> forall i, perm o pv m i = perm o pv' m i.
Proof.
  intros H. induction m as [|m IH]; intros i; cbn [perm]; auto.
  rewrite IH by (intros; apply H; lia). now rewrite H by lia.
Qed.
Lemma swp_range p q lo hi i : lo <= p < hi -> lo <= q < hi -> lo <= i < hi -> lo <= swp p q i < hi.
Proof. intros. unfold swp. ifs; lia. Qed.
Lemma swp_below p q i : i < p -> i < q -> swp p q i = i.
Proof. intros. unfold swp. ifs; lia. Qed.
Lemma swp_self p i : swp p p i = i.
Proof. unfold swp. ifs; lia. Qed.
Lemma swp_swp p q i : swp p q (swp p q i) = i.
Proof. unfold swp. destruct (Z.eqb_spec i p) as [->|]; [|destruct (Z.eqb_spec i q) as [->|]]; ifs; lia. Qed.
Lemma perm_range o pv m n : 0 <= o -> (forall k, o <= k < o + Z.of_nat m -> k <= pv k < n) ->
  forall i, o <= i < n -> o <= perm o pv m i < n.
Proof.
  intros Ho H. induction m as [|m IH]; intros i Hi; cbn [perm]; auto.
  apply IH; [intros; apply H; lia|]. pose proof (H (o + Z.of_nat m) ltac:(lia)).
  apply swp_range; lia.
Qed.
Lemma perm_below o pv m : (forall k, o <= k < o + Z.of_nat m -> k <= pv k) ->
  forall i, i < o -> perm o pv m i = i.
Proof.
  intros H. induction m as [|m IH]; intros i Hi; cbn [perm]; auto.
  pose proof (H (o + Z.of_nat m) ltac:(lia)).
  rewrite swp_below by lia. apply IH; auto. intros; apply H; lia.
Qed.
Lemma perm_split o pv m m' : forall i, perm o pv (m + m') i = perm o pv m (perm (o + Z.of_nat m) pv m' i).
Proof.
  induction m' as [|m' IH]; intros i; cbn [perm].
  - now rewrite Nat.add_0_r.
  - rewrite Nat.add_succ_r. cbn [perm]. rewrite IH. do 2 f_equal. all: f_equal; try lia. f_equal; lia.
Qed.

Section Lu.
  Variable sfmin : R.
  Variable n : Z.
  Hypothesis Hn : 0 < n.

  (** What a panel [o, o + j) of columns, starting from F, has become. *)
  Definition panel (F G : Z -> Z -> R) (pv : Z -> Z) (o nc j : Z) : Prop :=
    (forall k, o <= k < o + j -> k <= pv k < n) /\
    (forall i c, 0 <= i < n -> 0 <= c < n -> i < o \/ c < o \/ o + nc <= c -> G i c = F i c) /\
    (forall i c, o <= i < n -> o <= c < o + nc ->
      F (perm o pv (Z.to_nat j) i) c
      = (rsum j (fun p => lo G i (o + p) * up G (o + p) c) + (if (o + j <=? i) && (o + j <=? c) then G i c else 0))%R) /\
    (forall i p, o <= p < o + j -> p < i < n -> (Rabs (G i p) <= 1)%R).
  Definition pivots (ipiv ipiv0 : list Z) (pv : Z -> Z) (o j d : Z) : Prop :=
    zlen ipiv = zlen ipiv0 /\
    forall x, 0 <= x -> zn 0 ipiv x = if inr o j x then pv x - d + 1 else zn 0 ipiv0 x.

  (** The scaling of the pivot column, by either route. *)
  Lemma scale_ok F k : 0 <= k < n -> (k + 1 < n -> F k k <> 0%R) ->
    (if k + 1 <? n then
       d <- cget n (cmat n n F) k k ;;
       if Rleb sfmin (Rabs d) then
         t <- recip d ;; dscal n t (cmat n n F) (n - (k + 1)) (k + 1) k
       else
         for_up 0 (n - (k + 1)) (fun i a =>
           x <- cget n a (k + 1 + i) k ;; d <- cget n a k k ;;
           if Reqb d 0 then UB else cput n a (k + 1 + i) k (x / d)%R) (cmat n n F)
     else OK (cmat n n F))
    = OK (cmat n n (fun i c => if (c =? k) && (k <? i) then (F i c / F k k)%R else F i c)).
  Proof.
    intros Hk Hnz. destruct (Z.ltb_spec (k + 1) n) as [L|L].
    - cells. specialize (Hnz L).
      assert (Z0 : Reqb (F k k) 0 = false) by (destruct (Reqb (F k k) 0) eqn:E; auto; apply Reqb_true in E; congruence).
      destruct (Rleb sfmin (Rabs (F k k))).
      + unfold recip. rewrite Z0. cbn [bind]. rewrite dscal_ok by lia. f_equal. apply cmat_ext; auto.
        intros i c Hi Hc. ifs; auto; try lia. field. auto.
      + set (G q := fun i c => if (c =? k) && inr (k + 1) q i then (F i c / F k k)%R else F i c).
        replace (cmat n n F) with (cmat n n (G 0)) by (apply cmat_ext; auto; intros; unfold G; ifs; auto; lia).
        rewrite (for_up_path (fun q => cmat n n (G q))); [|lia|].
        * f_equal. apply cmat_ext; auto. intros i c Hi Hc. unfold G. ifs; auto; lia.
        * intros q Hq. cells. replace (G q k k) with (F k k) by (unfold G; ifs; auto; lia). rewrite Z0. cells.
          f_equal. apply cmat_ext; auto. intros i c Hi Hc. unfold set2, G. ifs; subst; auto; lia.
    - f_equal. apply cmat_ext; auto. intros. ifs; auto; lia.
  Qed.

  (** One column: G before, G3 after. *)
  Definition pivot_rows (G : Z -> Z -> R) o nc k jp := fun i c => if inr o nc c then G (swp k jp i) c else G i c.
  Definition pivot_scale (G : Z -> Z -> R) k := fun i c => if (c =? k) && (k <? i) then (G i c / G k k)%R else G i c.
  Definition pivot_update (G : Z -> Z -> R) o nc k :=
    fun i c => if (k <? i) && (k <? c) && (c <? o + nc) then (G i c - G i k * G k c)%R else G i c.

  Lemma panel_step F G pv o nc j jp : 0 <= o -> 0 <= j < nc -> o + nc <= n -> panel F G pv o nc j ->
    o + j <= jp < n -> (forall i, o + j <= i < n -> (Rabs (G i (o + j)%Z) <= Rabs (G jp (o + j)%Z))%R) ->
    G jp (o + j) <> 0%R ->
    panel F (pivot_update (pivot_scale (pivot_rows G o nc (o + j) jp) (o + j)) o nc (o + j)) (set1 pv (o + j) jp) o nc (j + 1).
  Proof.
    intros Ho Hj Hnc (P1 & P2 & P3 & P4) Hjp Hmax Hnz.
    set (k := o + j) in *. set (G3 := pivot_update _ _ _ _).
    assert (Epv : forall i, perm o (set1 pv k jp) (Z.to_nat (j + 1)) i = perm o pv (Z.to_nat j) (swp k jp i)).
    { intros i. rewrite perm_S by lia. fold k. unfold set1 at 2. rewrite Z.eqb_refl.
      apply perm_ext. intros x Hx. unfold set1. destruct (Z.eqb_spec x k); auto. unfold k in *. lia. }
    assert (S1 : forall i, swp k jp i = i \/ i >= k /\ swp k jp i >= k) by (intros i; unfold swp; ifs; lia).
    assert (G1kk : G (swp k jp k) k = G jp k) by (unfold swp; ifs; auto; lia).
    assert (G3low : forall i c, i < k -> G3 i c = G i c).
    { intros i c Hi. unfold G3, pivot_update, pivot_scale, pivot_rows. ifs; try lia; auto; rewrite swp_below by lia; auto. }
    assert (G3left : forall i c, o <= c < k -> G3 i c = G (swp k jp i) c).
    { intros i c Hc. unfold G3, pivot_update, pivot_scale, pivot_rows. ifs; try lia; auto. }
    assert (G3row : forall c, o <= c < o + nc -> G3 k c = G jp c).
    { intros c Hc. unfold G3, pivot_update, pivot_scale, pivot_rows. ifs; try lia; auto; unfold swp; ifs; auto; lia. }
    assert (G3col : forall i, k < i -> G3 i k = (G (swp k jp i) k / G jp k)%R).
    { intros i Hi. unfold G3, pivot_update, pivot_scale, pivot_rows. ifs; try lia; auto; now rewrite ?G1kk. }
    assert (G3rest : forall i c, k < i -> k < c < o + nc -> G3 i c = (G (swp k jp i) c - G (swp k jp i) k / G jp k * G jp c)%R).
    { intros i c Hi Hc. unfold G3, pivot_update, pivot_scale, pivot_rows. ifs; try lia; auto. 
      all: replace (swp k jp k) with jp by (unfold swp; ifs; lia); auto. }
    split; [|split; [|split]].
    - intros x Hx. unfold set1. ifs; [lia|]. apply P1. unfold k in *. lia.
    - intros i c Hi Hc0 Hc. rewrite <- P2 by auto. unfold G3, pivot_update, pivot_scale, pivot_rows, k in *.
      ifs; try lia; auto. 
      all: try (rewrite swp_below by lia; auto).
    - intros i c Hi Hc. rewrite Epv.
      assert (Hsw : o <= swp k jp i < n) by (apply swp_range; unfold k in *; lia).
      rewrite P3 by auto. rewrite rsum_S by lia. fold k.
      rewrite (rsum_ext j _ (fun p => (lo G3 i (o + p) * up G3 (o + p) c)%R)).
      2: { intros p Hp. cbv beta. f_equal.
           - unfold lo. destruct (S1 i) as [E|E].
             + rewrite !E. ifs; auto; rewrite G3left by (unfold k; lia); now rewrite E.
             + ifs; try (unfold k in *; lia); now rewrite G3left by (unfold k; lia).
           - unfold up. rewrite G3low by (unfold k; lia). auto. }
      rewrite Rplus_assoc. f_equal. unfold lo, up. replace (o + (j + 1)) with (k + 1) by (unfold k; lia).
      destruct (Z_lt_ge_dec i k) as [A|A].
      + replace (swp k jp i) with i by (destruct (S1 i); lia).
        destruct (Z.leb_spec k i); [lia|]. destruct (Z.leb_spec (k + 1) i); [lia|]. cbn [andb]. ifs; try lia. ring.
      + assert (B : swp k jp i >= k) by (destruct (S1 i); lia).
        destruct (Z.leb_spec k (swp k jp i)); [|lia]. cbn [andb].
        destruct (Z.eq_dec i k) as [->|].
        * destruct (Z.leb_spec (k + 1) k); [lia|]. cbn [andb]. ifs; try lia.
          replace (swp k jp k) with jp by (unfold swp; ifs; lia).
          destruct (Z.leb_spec k c); [|ring]. rewrite G3row by lia. ring.
        * destruct (Z.leb_spec (k + 1) i); [|lia]. cbn [andb]. ifs; try lia.
          destruct (Z.leb_spec k c).
          -- rewrite G3row by lia. rewrite G3col by lia. destruct (Z.leb_spec (k + 1) c).
             ++ rewrite G3rest by lia. field. auto.
             ++ replace c with k by lia. field. auto.
          -- destruct (Z.leb_spec (k + 1) c); [lia|]. ring.
    - intros i p Hp Hi. destruct (Z.eq_dec p k) as [->|].
      + rewrite G3col by lia. unfold Rdiv. rewrite Rabs_mult, Rabs_inv.
        assert (0 < Rabs (G jp k))%R by (apply Rabs_pos_lt; auto).
        apply Rmult_le_reg_r with (Rabs (G jp k)); auto.
        rewrite Rmult_assoc, Rinv_l, Rmult_1_l, Rmult_1_r by lra. apply Hmax. destruct (S1 i) as [E|E].
        * rewrite E. lia. * pose proof (swp_range k jp 0 n i). lia.
      + rewrite G3left by (unfold k in *; lia). apply P4; [unfold k in *; lia|].
        destruct (S1 i) as [E|E]; [rewrite E; lia|]. pose proof (swp_range k jp 0 n i). unfold k in *. lia.
  Qed.

  (** No usable pivot: the column is zero from row k down. *)
  Lemma panel_zero F G pv o nc j : 0 <= o -> 0 <= j < nc -> o + nc <= n -> panel F G pv o nc j ->
    (forall i, o + j <= i < n -> G i (o + j) = 0%R) ->
    panel F G (set1 pv (o + j) (o + j)) o nc (j + 1).
  Proof.
    intros Ho Hj Hnc (P1 & P2 & P3 & P4) H0. set (k := o + j) in *.
    split; [|split; [|split]]; auto.
    - intros x Hx. unfold set1. ifs; [lia|]. apply P1. unfold k in *. lia.
    - intros i c Hi Hc. rewrite perm_S by lia. fold k. unfold set1 at 2. rewrite Z.eqb_refl, swp_self.
      rewrite (perm_ext o _ pv) by (intros x Hx; unfold set1; destruct (Z.eqb_spec x k); auto; unfold k in *; lia).
      rewrite P3 by auto. rewrite rsum_S by lia. rewrite Rplus_assoc. f_equal. fold k.
      unfold lo, up. replace (o + (j + 1)) with (k + 1) by (unfold k; lia).
      destruct (Z.leb_spec k i), (Z.leb_spec k c), (Z.leb_spec (k + 1) i), (Z.leb_spec (k + 1) c); cbn [andb]; try lia; ifs; try lia;
        try (replace c with k in * by lia); try (replace i with k in * by lia); rewrite ?H0 by lia; ring.
    - intros i p Hp Hi. destruct (Z.eq_dec p k) as [->|].
      + rewrite H0 by lia. rewrite Rabs_R0. lra.
      + apply P4; unfold k in *; lia.
  Qed.

  Lemma dgetf2_ok F o nc ipiv0 : 0 <= o -> 0 < nc -> o + nc <= n -> n <= zlen ipiv0 ->
    exists G pv ipiv info, dgetf2 sfmin n (n - o) nc o (cmat n n F) ipiv0 = OK (cmat n n G, ipiv, info) /\
      panel F G pv o nc nc /\ pivots ipiv ipiv0 pv o nc o.
  Proof.
    intros Ho Hnc Hon Hz. unfold dgetf2. rewrite Z.min_r by lia.
    match goal with |- exists G pv ipiv info, for_up 0 nc ?f ?s = _ /\ _ =>
      destruct (for_up_inv (fun j '(a, ipiv, info) => exists G pv, a = cmat n n G /\ panel F G pv o nc j /\ pivots ipiv ipiv0 pv o j o)
        0 nc f s) as ([[a ipiv] info] & E & G & pv & -> & P & V); [lia| | |exists G, pv, ipiv, info; auto] end.
    - exists F, (fun x => x). split; [auto|]. split; [split; [|split; [|split]]|split]; intros; try lia; auto.
      + rewrite rsum_0 by lia. cbn [Z.to_nat perm]. destruct (Z.leb_spec (o + 0) i), (Z.leb_spec (o + 0) c); cbn [andb]; try lia. ring.
      + ifs; auto; lia.
    - intros j [[a ipiv] info] Hj (G & pv & -> & P & V1 & V2).
      destruct (idamax_ok n n G (o + j) (o + j) (n - o - j)) as (p & Ep & Hp & Hmax & Hfirst); try lia.
      rewrite Ep. cbn [bind]. rewrite aset_OK by lia. cbn [bind].
      replace (o + (j + p)) with (o + j + p) by lia. rewrite cget_mat by lia. cbn [bind].
      assert (Hmax' : forall i, o + j <= i < n -> (Rabs (G i (o + j)%Z) <= Rabs (G (o + j + p)%Z (o + j)%Z))%R).
      { intros i Hi. replace i with (o + j + (i - (o + j))) by lia. apply Hmax. lia. }
      assert (HV : forall jp, jp = o + j + p -> pivots (upd ipiv (Z.to_nat (o + j)) (j + p + 1)) ipiv0 (set1 pv (o + j) jp) o (j + 1) o).
      { intros jp ->. split; [zl; auto|]. intros x Hx. rewrite zn_upd by lia. rewrite V2 by lia. unfold set1.
        ifs; subst; try lia. }
      destruct (Reqb (G (o + j + p) (o + j)) 0) eqn:Z0; cbn [negb].
      + apply Reqb_true in Z0.
        assert (p = 0).
        { destruct (Z.eq_dec p 0); auto. specialize (Hfirst 0 ltac:(lia)). rewrite Z0, Rabs_R0 in Hfirst.
          pose proof (Rabs_pos (G (o + j + 0)%Z (o + j)%Z)). lra. }
        subst p.
        assert (C0 : forall i, o + j <= i < n -> G i (o + j) = 0%R).
        { intros i Hi. specialize (Hmax' i Hi). rewrite Z0, Rabs_R0 in Hmax'.
          destruct (Req_dec (G i (o + j)) 0); auto. apply Rabs_pos_lt in H. lra. }
        cbn [bind].
        assert (E : (if j + 1 <? nc then dger n (cmat n n G) (n - o - (j + 1)) (nc - (j + 1)) (o + j + 1) (o + j) (o + j) (o + j + 1) (o + j + 1) (o + j + 1)
                  else OK (cmat n n G)) = OK (cmat n n G)).
        { destruct (Z.ltb_spec (j + 1) nc); auto. rewrite dger_ok by lia. f_equal. apply cmat_ext; auto.
          intros i c Hi Hc. ifs; auto. rewrite (C0 (o + j + 1 + (i - (o + j + 1)))) by lia. ring. }
        rewrite E. cbn [bind]. eexists; split; [reflexivity|].
        exists G, (set1 pv (o + j) (o + j)). split; [auto|]. split; [apply panel_zero; auto; lia|]. apply HV. lia.
      + assert (Hnz : G (o + j + p) (o + j) <> 0%R) by (intros C; apply Reqb_true in C; congruence).
        assert (E1 : (if negb (j + p =? j) then dswap_rows n (cmat n n G) nc (o + j) o (o + j + p) o else OK (cmat n n G))
          = OK (cmat n n (pivot_rows G o nc (o + j) (o + j + p)))).
        { destruct (Z.eqb_spec (j + p) j); cbn [negb].
          - f_equal. apply cmat_ext; auto. intros i c Hi Hc. unfold pivot_rows. replace p with 0 by lia.
            rewrite Z.add_0_r, swp_self. ifs; auto.
          - rewrite dswap_rows_ok by lia. reflexivity. }
        rewrite E1. cbn [bind].
        assert (Hkk : pivot_rows G o nc (o + j) (o + j + p) (o + j) (o + j) = G (o + j + p) (o + j)).
        { unfold pivot_rows, swp. ifs; auto; lia. }
        pose proof (scale_ok (pivot_rows G o nc (o + j) (o + j + p)) (o + j) ltac:(lia)) as E2.
        rewrite Hkk in E2. specialize (E2 (fun _ => Hnz)).
        replace (o + j + 1 <? n) with (j + 1 <? n - o) in E2 by (destruct (Z.ltb_spec (j + 1) (n - o)), (Z.ltb_spec (o + j + 1) n); auto; lia).
        replace (n - (o + j + 1)) with (n - o - (j + 1)) in E2 by lia.
        rewrite E2. cbn [bind]. rewrite <- Hkk.
        change (fun i c : Z => _) with (pivot_scale (pivot_rows G o nc (o + j) (o + j + p)) (o + j)).
        set (G2 := pivot_scale _ _) in *.
        assert (E3 : (if j + 1 <? nc then dger n (cmat n n G2) (n - o - (j + 1)) (nc - (j + 1)) (o + j + 1) (o + j) (o + j) (o + j + 1) (o + j + 1) (o + j + 1)
                  else OK (cmat n n G2)) = OK (cmat n n (pivot_update G2 o nc (o + j)))).
        { destruct (Z.ltb_spec (j + 1) nc).
          - rewrite dger_ok by lia. f_equal. apply cmat_ext; auto. intros i c Hi Hc. unfold pivot_update. ifs; auto; try lia.
            do 2 f_equal; f_equal; lia.
          - f_equal. apply cmat_ext; auto. intros i c Hi Hc. unfold pivot_update. ifs; auto; lia. }
        rewrite E3. cbn [bind]. eexists; split; [reflexivity|].
        eexists _, (set1 pv (o + j) (o + j + p)). split; [reflexivity|]. split; [|apply HV; auto].
        apply panel_step; auto; lia.
  Qed.

  Lemma adjust_ok ipiv ipiv0 pv o jb : 0 <= o -> 0 <= jb -> o + jb <= zlen ipiv0 -> pivots ipiv ipiv0 pv o jb o ->
    exists ipiv', for_up o (o + jb) (fun i ipiv => v <- aget ipiv i ;; aset ipiv i (o + v)) ipiv = OK ipiv' /\
      pivots ipiv' ipiv0 pv o jb 0.
  Proof.
    intros Ho Hj Hz (V1 & V2).
    destruct (for_up_inv (fun k l => zlen l = zlen ipiv0 /\ forall x, 0 <= x -> zn 0 l x = if inr o (k - o) x then pv x + 1 else zn 0 ipiv x)
      o (o + jb) (fun i ipiv => v <- aget ipiv i ;; aset ipiv i (o + v)) ipiv) as (l & E & L1 & L2).
    - lia.
    - split; auto. intros x Hx. ifs; auto; lia.
    - intros k l Hk (L1 & L2). rewrite (aget_OK 0) by lia. cbn [bind]. rewrite aset_OK by lia.
      eexists; split; [reflexivity|]. split; [zl; auto|]. intros x Hx. rewrite zn_upd by lia. rewrite !L2 by lia.
      ifs; subst; try lia; auto. rewrite V2 by lia. ifs; lia.
    - exists l. split; auto. split; auto. intros x Hx. rewrite L2 by auto. rewrite V2 by auto. ifs; lia.
  Qed.

  Lemma laswp_group_ok F wd c k1 k2 ipiv pv : 0 <= wd -> 0 <= c -> c + wd <= n -> 0 <= k1 <= k2 -> k2 <= n -> k2 <= zlen ipiv ->
    (forall x, k1 <= x < k2 -> zn 0 ipiv x = pv x + 1 /\ x <= pv x < n) ->
    laswp_group n (cmat n n F) wd c k1 k2 ipiv
    = OK (cmat n n (fun i j => if inr c wd j then F (perm k1 pv (Z.to_nat (k2 - k1)) i) j else F i j)).
  Proof.
    intros H1 H2 H3 H4 H5 H6 HV. unfold laswp_group.
    set (G k := fun i j => if inr c wd j then F (perm k1 pv (Z.to_nat (k - k1)) i) j else F i j).
    replace (cmat n n F) with (cmat n n (G k1)).
    2: { apply cmat_ext; auto. intros i j Hi Hj. unfold G. rewrite Z.sub_diag. cbn [Z.to_nat perm]. ifs; auto. }
    rewrite (for_up_path (fun k => cmat n n (G k))); [reflexivity|lia|].
    intros k Hk. rewrite (aget_OK 0) by lia. cbn [bind]. destruct (HV k Hk) as [-> Hpv].
    replace (pv k + 1 - 1) with (pv k) by lia.
    assert (E : forall i, perm k1 pv (Z.to_nat (k + 1 - k1)) i = perm k1 pv (Z.to_nat (k - k1)) (swp k (pv k) i)).
    { intros i. replace (k + 1 - k1) with (k - k1 + 1) by lia. rewrite perm_S by lia. now replace (k1 + (k - k1)) with k by lia. }
    destruct (Z.eqb_spec (pv k) k) as [Ek|Nk].
    - f_equal. apply cmat_ext; auto. intros i j Hi Hj. unfold G. rewrite E, Ek, swp_self. auto.
    - rewrite dswap_rows_ok by lia. f_equal. apply cmat_ext; auto. intros i j Hi Hj. unfold G. rewrite E. ifs; auto.
  Qed.
  Lemma dlaswp_ok F wd c k1 k2 ipiv pv : 0 <= wd -> 0 <= c -> c + wd <= n -> 0 <= k1 <= k2 -> k2 <= n -> k2 <= zlen ipiv ->
    (forall x, k1 <= x < k2 -> zn 0 ipiv x = pv x + 1 /\ x <= pv x < n) ->
    dlaswp n (cmat n n F) wd c k1 k2 ipiv
    = OK (cmat n n (fun i j => if inr c wd j then F (perm k1 pv (Z.to_nat (k2 - k1)) i) j else F i j)).
  Proof.
    intros H1 H2 H3 H4 H5 H6 HV. unfold dlaswp.
    pose proof (Z.div_mod wd 32 ltac:(lia)) as D. pose proof (Z.mod_pos_bound wd 32 ltac:(lia)) as B.
    set (q := wd / 32) in *.
    set (G k := fun i j => if inr c (32 * k) j then F (perm k1 pv (Z.to_nat (k2 - k1)) i) j else F i j).
    replace (cmat n n F) with (cmat n n (G 0)) by (apply cmat_ext; auto; intros; unfold G; ifs; auto; lia).
    rewrite (for_up_path (fun k => cmat n n (G k))); [|lia|].
    - cbn [bind]. destruct (Z.eqb_spec (q * 32) wd) as [E|E].
      + f_equal. apply cmat_ext; auto. intros i j Hi Hj. unfold G. replace (32 * q) with wd by lia. auto.
      + rewrite (laswp_group_ok _ _ _ _ _ _ pv) by (auto; lia). f_equal. apply cmat_ext; auto.
        intros i j Hi Hj. unfold G. ifs; auto; lia.
    - intros k Hk. rewrite (laswp_group_ok _ _ _ _ _ _ pv) by (auto; lia). f_equal. apply cmat_ext; auto.
      intros i j Hi Hj. unfold G. ifs; auto; lia.
  Qed.

  (** Columns [o, o + jb) factored, the others brought up to date. *)
  Lemma block_step A F G1 G pv pv1 o jb : 0 <= o -> 0 < jb -> o + jb <= n ->
    panel A F pv 0 n o -> panel F G1 pv1 o jb jb ->
    (forall i c, 0 <= i < n -> 0 <= c < o -> G i c = F (perm o pv1 (Z.to_nat jb) i) c) ->
    (forall i c, 0 <= i < n -> o <= c < o + jb -> G i c = G1 i c) ->
    (forall i c, 0 <= i < o -> o + jb <= c < n -> G i c = F i c) ->
    (forall i c, o <= i < n -> o + jb <= c < n -> F (perm o pv1 (Z.to_nat jb) i) c
       = (rsum jb (fun p => lo G i (o + p) * up G (o + p) c) + (if o + jb <=? i then G i c else 0))%R) ->
    panel A G (fun x => if x <? o then pv x else pv1 x) 0 n (o + jb).
  Proof.
    intros Ho Hjb Hn' (A1 & _ & A3 & A4) (P1 & P2 & P3 & P4) HL HM HU HR.
    set (t := perm o pv1 (Z.to_nat jb)) in *.
    assert (Ht : forall i, o <= i < n -> o <= t i < n).
    { intros i Hi. apply perm_range; auto. intros k Hk. apply P1. lia. }
    assert (Ht0 : forall i, i < o -> t i = i).
    { intros i Hi. apply perm_below; auto. intros k Hk. apply P1. lia. }
    split; [|split; [|split]].
    - intros k Hk. ifs; [apply A1|apply P1]; lia.
    - lia.
    - intros i c Hi Hc.
      replace (Z.to_nat (o + jb)) with (Z.to_nat o + Z.to_nat jb)%nat by lia. rewrite perm_split. rewrite Z2Nat.id, Z.add_0_l by lia.
      rewrite (perm_ext o (fun x => if x <? o then pv x else pv1 x) pv1) by (intros k Hk; ifs; auto; lia). fold (t i).
      rewrite (perm_ext 0 (fun x => if x <? o then pv x else pv1 x) pv) by (intros k Hk; ifs; auto; lia).
      assert (Ri : 0 <= t i < n) by (destruct (Z_lt_ge_dec i o); [rewrite Ht0; lia|pose proof (Ht i); lia]).
      rewrite A3 by lia. rewrite (rsum_split o jb) by lia. rewrite Rplus_assoc. f_equal.
      + apply rsum_ext. intros p Hp. rewrite Z.add_0_l. f_equal.
        * unfold lo. destruct (Z_lt_ge_dec i o) as [C|C].
          -- rewrite Ht0 by auto. ifs; auto; rewrite HL by lia; fold (t i); rewrite Ht0 by auto; auto.
          -- pose proof (Ht i ltac:(lia)). ifs; try lia; now rewrite HL by lia.
        * unfold up. destruct (Z.leb_spec p c); auto.
          destruct (Z_lt_ge_dec c o); [rewrite HL by lia; fold (t p); rewrite Ht0 by lia; auto|].
          destruct (Z_lt_ge_dec c (o + jb)); [rewrite HM, P2 by lia; auto|]. rewrite HU by lia. auto.
      + rewrite !Z.add_0_l. change (rsum jb _) with (rsum jb (fun p => lo G i (o + p) * up G (o + p) c)%R).
        destruct (Z_lt_ge_dec i o) as [C|C].
        * rewrite Ht0 by auto. destruct (Z.leb_spec o i); [lia|]. destruct (Z.leb_spec (o + jb) i); [lia|]. cbn [andb].
          rewrite rsum_zero; [ring|]. intros p Hp. unfold lo. ifs; try lia. ring.
        * pose proof (Ht i ltac:(lia)). destruct (Z.leb_spec o (t i)); [|lia]. cbn [andb].
          destruct (Z.leb_spec o c).
          -- destruct (Z_lt_ge_dec c (o + jb)).
             ++ destruct (Z.leb_spec (o + jb) c); [lia|]. rewrite andb_false_r. unfold t. rewrite P3 by lia.
                destruct (Z.leb_spec (o + jb) c); [lia|]. rewrite andb_false_r. f_equal.
                apply rsum_ext. intros p Hp. f_equal.
                ** unfold lo. rewrite HM by lia. auto.
                ** unfold up. rewrite HM by lia. auto.
             ++ destruct (Z.leb_spec (o + jb) c); [|lia]. rewrite andb_true_r. unfold t. rewrite HR by lia. reflexivity.
          -- destruct (Z.leb_spec (o + jb) c); [lia|]. rewrite andb_false_r.
             rewrite rsum_zero; [ring|]. intros p Hp. unfold up. destruct (Z.leb_spec (o + p) c); [lia|]. ring.
    - intros i p Hp Hi. destruct (Z_lt_ge_dec p o) as [C|C].
      + rewrite HL by lia. fold (t i). destruct (Z_lt_ge_dec i o).
        * rewrite Ht0 by lia. apply A4; lia.
        * pose proof (Ht i). apply A4; lia.
      + rewrite HM by lia. apply P4; lia.
  Qed.

  Definition factored (A G : Z -> Z -> R) (pv : Z -> Z) : Prop :=
    (forall k, 0 <= k < n -> k <= pv k < n) /\
    (forall i j, 0 <= i < n -> 0 <= j < n ->
      A (perm 0 pv (Z.to_nat n) i) j = rsum n (fun p => lo G i p * up G p j)%R) /\
    (forall i p, 0 <= p < i -> i < n -> (Rabs (G i p) <= 1)%R).
  Lemma panel_factored A G pv : panel A G pv 0 n n -> factored A G pv.
  Proof.
    intros (P1 & _ & P3 & P4). split; [|split]; auto.
    - intros i j Hi Hj. rewrite P3 by lia. rewrite (proj2 (Z.leb_gt (0 + n) i)) by lia. cbn [andb]. ring_simplify.
      apply rsum_ext. intros p Hp. now rewrite Z.add_0_l.
    - intros i p Hp Hi. apply P4; lia.
  Qed.

  Theorem dgetrf_ok nb A ipiv0 : n <= zlen ipiv0 ->
    exists G pv ipiv info, dgetrf sfmin nb n (cmat n n A) ipiv0 = OK (cmat n n G, ipiv, info, 0) /\
      factored A G pv /\ n <= zlen ipiv /\ forall x, 0 <= x < n -> zn 0 ipiv x = pv x + 1.
  Proof.
    intros Hz. unfold dgetrf. destruct (Z.eqb_spec n 0); [lia|].
    destruct ((nb <=? 1) || (n <=? nb)) eqn:Eb.
    - destruct (dgetf2_ok A 0 n ipiv0) as (G & pv & ipiv & info & E & P & V1 & V2); try lia.
      rewrite Z.sub_0_r in E. rewrite E. cbn [bind]. exists G, pv, ipiv, info.
      split; [auto|]. split; [now apply panel_factored|]. split; [lia|].
      intros x Hx. rewrite V2 by lia. ifs; lia.
    - apply orb_false_elim in Eb. destruct Eb as [B1 B2]. apply Z.leb_gt in B1, B2.
      set (q := (n + nb - 1) / nb).
      assert (Q1 : n <= q * nb < n + nb).
      { unfold q. pose proof (Z.div_mod (n + nb - 1) nb ltac:(lia)). pose proof (Z.mod_pos_bound (n + nb - 1) nb ltac:(lia)). nia. }
      assert (Q0 : 0 <= q) by nia.
      match goal with |- exists G pv ipiv info, bind (for_up 0 q ?f ?s) _ = _ /\ _ =>
        destruct (for_up_inv (fun b '(a, ipiv, info) => exists G pv, a = cmat n n G /\ panel A G pv 0 n (Z.min n (b * nb)) /\
          zlen ipiv = zlen ipiv0 /\ forall x, 0 <= x < Z.min n (b * nb) -> zn 0 ipiv x = pv x + 1) 0 q f s)
        as ([[a ipiv] info] & E & G & pv & -> & P & V1 & V2); [lia| | |rewrite E; cbn [bind]] end.
      + exists A, (fun x => x). rewrite Z.mul_0_l, Z.min_r by lia. split; [auto|]. split; [|split; [auto|lia]].
        split; [lia|]. split; [lia|]. split; [|lia]. intros i c Hi Hc. rewrite rsum_0 by lia.
        cbn [Z.to_nat perm]. destruct (Z.leb_spec (0 + 0) i), (Z.leb_spec (0 + 0) c); cbn [andb]; try lia. ring.
      + intros b [[a ipiv] info] Hb (F & pv & -> & P & V1 & V2).
        set (j := b * nb). assert (Hj : 0 <= j < n) by (unfold j; nia).
        set (jb := Z.min (n - j) nb). assert (Hjb : 0 < jb /\ j + jb <= n) by (unfold jb; lia).
        replace (Z.min n (b * nb)) with j in * by (unfold j in *; lia). replace (Z.min n ((b + 1) * nb)) with (j + jb) by (unfold jb, j; nia).
        destruct (dgetf2_ok F j jb ipiv) as (G1 & pv1 & ipiv1 & iinfo & E1 & P1 & W); try lia. rewrite E1. cbn [bind].
        destruct (adjust_ok ipiv1 ipiv pv1 j jb) as (ipiv2 & E2 & W1 & W2); try lia; auto. rewrite E2. cbn [bind].
        destruct P1 as (PP & P1').
        assert (HV : forall x, j <= x < j + jb -> zn 0 ipiv2 x = pv1 x + 1 /\ x <= pv1 x < n).
        { intros x Hx. rewrite W2 by lia. ifs; [|lia]. split; [lia|]. apply PP. lia. }
        assert (P1 : panel F G1 pv1 j jb jb) by (split; auto). clear P1'.
        rewrite (dlaswp_ok _ _ _ _ _ _ pv1) by (auto; lia). cbn [bind].
        replace (j + jb - j) with jb by lia. set (t := perm j pv1 (Z.to_nat jb)) in *.
        assert (Ht : forall i, j <= i < n -> j <= t i < n).
        { intros i Hi. apply perm_range; auto; try lia. intros k Hk. apply PP. lia. }
        assert (Ht0 : forall i, i < j -> t i = i).
        { intros i Hi. apply perm_below; auto. intros k Hk. apply PP. lia. }
        assert (PV : forall x, 0 <= x < j + jb -> zn 0 ipiv2 x = (if x <? j then pv x else pv1 x) + 1).
        { intros x Hx. rewrite W2 by lia. ifs; try lia. apply V2. lia. }
        pose proof (proj1 (proj2 P1)) as P2.
        destruct (Z.ltb_spec (j + jb) n) as [C|C].
        * rewrite (dlaswp_ok _ _ _ _ _ _ pv1) by (auto; lia). cbn [bind].
          replace (j + jb - j) with jb by lia. fold t.
          set (F2 := fun i c : Z => if inr (j + jb) (n - j - jb) c then _ else _).
          assert (F2r : forall i c, 0 <= i < n -> j + jb <= c < n -> F2 i c = F (t i) c).
          { intros i c Hi Hc. unfold F2. ifs; try lia. apply P2; try lia.
            destruct (Z_lt_ge_dec i j); [rewrite Ht0; lia|]. pose proof (Ht i). lia. }
          assert (F2l : forall i c, 0 <= i < n -> 0 <= c < j -> F2 i c = F (t i) c).
          { intros i c Hi Hc. unfold F2. ifs; try lia. apply P2; try lia.
            destruct (Z_lt_ge_dec i j); [rewrite Ht0; lia|]. pose proof (Ht i). lia. }
          assert (F2m : forall i c, 0 <= i < n -> j <= c < j + jb -> F2 i c = G1 i c).
          { intros i c Hi Hc. unfold F2. ifs; auto; lia. }
          destruct (dtrsm_left_ok n n Hn F2 jb (n - j - jb) j j j (j + jb)) as (X & E3 & HX); try lia. rewrite E3. cbn [bind].
          rewrite (dgemm_ok n n Hn _ (fun l c => X l c)); try lia.
          2: { intros G l c HG Hl Hc. rewrite cget_mat by lia. rewrite HG by (try lia; ifs; auto; lia).
               ifs; try lia. f_equal. f_equal; lia. }
          cbn [bind]. eexists; split; [reflexivity|]. eexists _, (fun x => if x <? j then pv x else pv1 x).
          split; [reflexivity|]. split; [|split; [lia|auto]].
          apply (block_step A F G1 _ pv pv1 j jb); try lia; auto; fold t.
          -- intros i c Hi Hc. ifs; try lia; apply F2l; lia.
          -- intros i c Hi Hc. ifs; try lia; apply F2m; lia.
          -- intros i c Hi Hc. ifs; try lia; rewrite F2r by lia; now rewrite Ht0 by lia.
          -- intros i c Hi Hc. rewrite <- F2r by lia.
             rewrite (rsum_ext jb _ (fun p => ((if j + p <? i then G1 i (j + p)%Z else if j + p =? i then 1 else 0) * X p (c - (j + jb))%Z)%R)).
             2: { intros p Hp. unfold lo, up. rewrite (proj2 (Z.leb_le (j + p) c)) by lia.
                  f_equal.
                  - destruct (Z.ltb_spec (j + p) i); auto. ifs; try lia; apply F2m; lia.
                  - ifs; try lia. f_equal; lia. }
             destruct (Z.leb_spec (j + jb) i).
             ++ ifs; try lia.
                match goal with |- _ = (?S + (_ - ?S'))%R => replace S' with S; [ring|] end.
                apply rsum_ext. intros p Hp. ifs; try lia; f_equal; rewrite <- F2m by lia; f_equal; lia.
             ++ specialize (HX (i - j) (c - (j + jb)) ltac:(lia) ltac:(lia)).
                replace (j + (i - j)) with i in HX by lia. replace (j + jb + (c - (j + jb))) with c in HX by lia. rewrite HX.
                replace jb with (i - j + 1 + (jb - (i - j + 1))) at 2 by lia.
                rewrite (rsum_split (i - j + 1)) by lia. rewrite rsum_S by lia.
                rewrite (rsum_zero (jb - (i - j + 1))).
                ** ifs; try lia. rewrite (rsum_ext (i - j) (fun p => ((if j + p <? i then _ else _) * _)%R) (fun p => (F2 i (j + p)%Z * X p (c - (j + jb))%Z)%R)).
                   --- ring.
                   --- intros p Hp. cbv beta. ifs; try lia. now rewrite F2m by lia.
                ** intros p Hp. cbv beta. ifs; try lia. ring.
        * cbn [bind]. eexists; split; [reflexivity|]. eexists _, (fun x => if x <? j then pv x else pv1 x).
          split; [reflexivity|]. split; [|split; [lia|auto]].
          apply (block_step A F G1 _ pv pv1 j jb); try lia; auto; fold t.
          -- intros i c Hi Hc. ifs; try lia.
             apply P2; try lia. destruct (Z_lt_ge_dec i j); [rewrite Ht0; lia|]. pose proof (Ht i). lia.
          -- intros i c Hi Hc. ifs; try lia. auto.
      + exists G, pv, ipiv, info. rewrite Z.min_l in * by lia. split; [auto|]. split; [now apply panel_factored|]. split; [lia|auto].
  Qed.
End Lu.
