(** What the modelled BLAS routines do to a matrix stored by columns, entry by entry. *)
From Coq Require Import List ZArith Reals Lia Lra Bool.
From Verif.Base Require Import Imp Sums RealOps Loops Matrix Tables.
From Verif.Lapack Require Import LapackModel.
Import ListNotations.
Open Scope Z_scope.

(** The n x w matrix with entries F, as stored. *)
Definition cmat {A} (n w : Z) (F : Z -> Z -> A) : list A := ztab (n * w) (fun x => F (x mod n) (x / n)).

Lemma cidx n i j : 0 <= i < n -> (i + j * n) mod n = i /\ (i + j * n) / n = j.
Proof.
  intros H. rewrite Z.mod_add, Z.div_add by lia. rewrite Z.mod_small, Z.div_small by lia. lia.
Qed.
Lemma cidx_range n w i j : 0 <= i < n -> 0 <= j < w -> 0 <= i + j * n < n * w.
Proof. intros. nia. Qed.
Lemma cget_mat n w F i j : 0 <= i < n -> 0 <= j < w -> cget n (cmat n w F) i j = OK (F i j).
Proof.
  intros Hi Hj. unfold cget, cmat. rewrite aget_tab by (apply cidx_range; auto).
  now destruct (cidx n i j Hi) as [-> ->].
Qed.
Lemma cmat_ext {A} n w (F G : Z -> Z -> A) : 0 < n -> (forall i j, 0 <= i < n -> 0 <= j < w -> F i j = G i j) -> cmat n w F = cmat n w G.
Proof.
  intros Hn H. unfold cmat. apply ztab_ext. intros x Hx. apply H.
  - apply Z.mod_pos_bound. lia.
  - split; [apply Z.div_pos; lia|apply Z.div_lt_upper_bound; lia].
Qed.
Lemma cput_mat n w F i j v : 0 <= i < n -> 0 <= j < w -> cput n (cmat n w F) i j v = OK (cmat n w (set2 F i j v)).
Proof.
  intros Hi Hj. unfold cput, cmat. rewrite aset_tab by (apply cidx_range; auto). f_equal.
  apply ztab_ext. intros x Hx. unfold set1, set2.
  destruct (Z.eqb_spec x (i + j * n)) as [->|N].
  - destruct (cidx n i j Hi) as [-> ->]. now rewrite !Z.eqb_refl.
  - destruct (Z.eqb_spec (x mod n) i) as [E1|]; cbn [andb]; auto.
    destruct (Z.eqb_spec (x / n) j) as [E2|]; auto.
    exfalso. apply N. pose proof (Z.div_mod x n). subst. lia.
Qed.

(** lo <= i < lo + cnt *)
Definition inr (lo cnt i : Z) : bool := (lo <=? i) && (i <? lo + cnt).
Lemma inr_true lo cnt i : inr lo cnt i = true <-> lo <= i < lo + cnt.
Proof. unfold inr. rewrite andb_true_iff, Z.leb_le, Z.ltb_lt. tauto. Qed.
Lemma inr_spec lo cnt i : reflect (lo <= i < lo + cnt) (inr lo cnt i).
Proof. apply iff_reflect. symmetry. apply inr_true. Qed.
Definition swp (p q i : Z) : Z := if i =? p then q else if i =? q then p else i.

Ltac ifs :=
  repeat match goal with
  | |- context [Z.eqb ?a ?b] => destruct (Z.eqb_spec a b); cbn [andb orb negb]
  | |- context [Z.ltb ?a ?b] => destruct (Z.ltb_spec a b); cbn [andb orb negb]
  | |- context [inr ?a ?b ?c] => destruct (inr_spec a b c); cbn [andb orb negb]
  end.
Ltac cells := repeat first [rewrite cget_mat by lia; cbn [bind] | rewrite cput_mat by lia; cbn [bind]].

Section Blas.
  Variables n w : Z.
  Hypothesis Hn : 0 < n.

  Lemma idamax_ok F r c cnt : 0 <= r -> 1 <= cnt -> r + cnt <= n -> 0 <= c < w ->
    exists p, idamax n (cmat n w F) r c cnt = OK p /\ 0 <= p < cnt /\
      (forall i, 0 <= i < cnt -> (Rabs (F (r + i)%Z c) <= Rabs (F (r + p)%Z c))%R) /\
      (forall i, 0 <= i < p -> (Rabs (F (r + i)%Z c) < Rabs (F (r + p)%Z c))%R).
  Proof.
    intros Hr Hc H Hw. unfold idamax. cells.
    destruct (for_up_inv (fun i '(dmax, best) => 0 <= best < i /\ dmax = Rabs (F (r + best)%Z c) /\
       (forall x, 0 <= x < i -> (Rabs (F (r + x)%Z c) <= dmax)%R) /\
       (forall x, 0 <= x < best -> (Rabs (F (r + x)%Z c) < dmax)%R)) 1 cnt
       (fun (i : Z) '(dmax, best) => v <- cget n (cmat n w F) (r + i) c ;;
          if Rltb dmax (Rabs v) then OK (Rabs v, i) else OK (dmax, best)) (Rabs (F r c), 0))
      as ([d p] & E & B & D & M & S); [lia| | |].
    - split; [lia|]. split; [now rewrite Z.add_0_r|]. split; [|lia].
      intros x Hx. replace x with 0 by lia. rewrite Z.add_0_r. lra.
    - intros i [d p] Hi (B & D & M & S). cells. destruct (Rltb d (Rabs (F (r + i)%Z c))) eqn:E.
      + apply Rltb_true in E. eexists; split; [reflexivity|]. split; [lia|]. split; [auto|].
        split; intros x Hx.
        * destruct (Z.eq_dec x i) as [->|]; [lra|]. specialize (M x ltac:(lia)). lra.
        * specialize (M x ltac:(lia)). lra.
      + assert (~ (d < Rabs (F (r + i)%Z c)))%R by (intros C; apply Rltb_true in C; congruence).
        eexists; split; [reflexivity|]. split; [lia|]. split; [auto|]. split; auto.
        intros x Hx. destruct (Z.eq_dec x i) as [->|]; [lra|]. apply M. lia.
    - rewrite E. cbn [bind]. exists p. split; [auto|]. split; [lia|]. subst d. auto.
  Qed.

  Lemma dswap_rows_ok F cnt r1 r2 c : 0 <= cnt -> 0 <= c -> c + cnt <= w -> 0 <= r1 < n -> 0 <= r2 < n ->
    dswap_rows n (cmat n w F) cnt r1 c r2 c = OK (cmat n w (fun i j => if inr c cnt j then F (swp r1 r2 i) j else F i j)).
  Proof.
    intros Hc H0 Hw H1 H2. unfold dswap_rows.
    replace (cmat n w F) with (cmat n w (fun i j => if inr c 0 j then F (swp r1 r2 i) j else F i j))
      by (apply cmat_ext; auto; intros; ifs; auto; lia).
    rewrite (for_up_path (fun k => cmat n w (fun i j => if inr c k j then F (swp r1 r2 i) j else F i j))); [reflexivity|lia|].
    intros k Hk. cells. f_equal. apply cmat_ext; auto. intros i j Hi Hj. unfold set2, swp. ifs; subst; try lia; auto.
  Qed.
  Lemma dswap_cols_ok F cnt c1 c2 : 0 <= cnt <= n -> 0 <= c1 < w -> 0 <= c2 < w ->
    dswap_cols n (cmat n w F) cnt 0 c1 0 c2 = OK (cmat n w (fun i j => if inr 0 cnt i then F i (swp c1 c2 j) else F i j)).
  Proof.
    intros Hc H1 H2. unfold dswap_cols.
    replace (cmat n w F) with (cmat n w (fun i j => if inr 0 0 i then F i (swp c1 c2 j) else F i j))
      by (apply cmat_ext; auto; intros; ifs; auto; lia).
    rewrite (for_up_path (fun k => cmat n w (fun i j => if inr 0 k i then F i (swp c1 c2 j) else F i j))); [reflexivity|lia|].
    intros k Hk. cells. f_equal. apply cmat_ext; auto. intros i j Hi Hj. unfold set2, swp. ifs; subst; try lia; auto.
  Qed.
  Lemma dscal_ok F s cnt r c : 0 <= cnt -> 0 <= r -> r + cnt <= n -> 0 <= c < w ->
    dscal n s (cmat n w F) cnt r c = OK (cmat n w (fun i j => if (j =? c) && inr r cnt i then (s * F i j)%R else F i j)).
  Proof.
    intros Hc H0 Hw H1. unfold dscal.
    replace (cmat n w F) with (cmat n w (fun i j => if (j =? c) && inr r 0 i then (s * F i j)%R else F i j))
      by (apply cmat_ext; auto; intros; ifs; auto; lia).
    rewrite (for_up_path (fun k => cmat n w (fun i j => if (j =? c) && inr r k i then (s * F i j)%R else F i j))); [reflexivity|lia|].
    intros k Hk. cells. f_equal. apply cmat_ext; auto. intros i j Hi Hj. unfold set2. ifs; subst; try lia; auto.
  Qed.

  Lemma col_add_ok F t cnt xr xc yr yc : 0 <= cnt -> 0 <= xr -> xr + cnt <= n -> 0 <= yr -> yr + cnt <= n ->
    0 <= xc < w -> 0 <= yc < w -> xc <> yc ->
    col_add n t (cmat n w F) cnt xr xc yr yc
    = OK (cmat n w (fun i j => if (j =? yc) && inr yr cnt i then (F i j + t * F (xr + (i - yr))%Z xc)%R else F i j)).
  Proof.
    intros Hc H1 H2 H3 H4 H5 H6 N. unfold col_add.
    replace (cmat n w F) with (cmat n w (fun i j => if (j =? yc) && inr yr 0 i then (F i j + t * F (xr + (i - yr))%Z xc)%R else F i j))
      by (apply cmat_ext; auto; intros; ifs; auto; lia).
    rewrite (for_up_path (fun k => cmat n w (fun i j => if (j =? yc) && inr yr k i then (F i j + t * F (xr + (i - yr))%Z xc)%R else F i j))); [reflexivity|lia|].
    intros k Hk. cells. f_equal. apply cmat_ext; auto. intros i j Hi Hj. unfold set2. ifs; subst; try lia; auto.
    replace (yr + k - yr) with k by lia. auto.
  Qed.
  Lemma col_sub_ok F t cnt xr xc yr yc : 0 <= cnt -> 0 <= xr -> xr + cnt <= n -> 0 <= yr -> yr + cnt <= n ->
    0 <= xc < w -> 0 <= yc < w -> xc <> yc ->
    col_sub n t (cmat n w F) cnt xr xc yr yc
    = OK (cmat n w (fun i j => if (j =? yc) && inr yr cnt i then (F i j - t * F (xr + (i - yr))%Z xc)%R else F i j)).
  Proof.
    intros Hc H1 H2 H3 H4 H5 H6 N. unfold col_sub.
    replace (cmat n w F) with (cmat n w (fun i j => if (j =? yc) && inr yr 0 i then (F i j - t * F (xr + (i - yr))%Z xc)%R else F i j))
      by (apply cmat_ext; auto; intros; ifs; auto; lia).
    rewrite (for_up_path (fun k => cmat n w (fun i j => if (j =? yc) && inr yr k i then (F i j - t * F (xr + (i - yr))%Z xc)%R else F i j))); [reflexivity|lia|].
    intros k Hk. cells. f_equal. apply cmat_ext; auto. intros i j Hi Hj. unfold set2. ifs; subst; try lia; auto.
    replace (yr + k - yr) with k by lia. auto.
  Qed.
  (** Skipping a zero multiplier changes nothing. *)
  Lemma skip_add F b cnt xr xc yr yc : 0 <= cnt -> 0 <= xr -> xr + cnt <= n -> 0 <= yr -> yr + cnt <= n ->
    0 <= xc < w -> 0 <= yc < w -> xc <> yc ->
    (if Reqb b 0 then OK (cmat n w F) else col_add n (-1 * b) (cmat n w F) cnt xr xc yr yc)
    = OK (cmat n w (fun i j => if (j =? yc) && inr yr cnt i then (F i j - F (xr + (i - yr))%Z xc * b)%R else F i j)).
  Proof.
    intros. destruct (Reqb b 0) eqn:E.
    - apply Reqb_true in E. subst b. f_equal. apply cmat_ext; auto. intros. ifs; auto. ring.
    - rewrite col_add_ok by auto. f_equal. apply cmat_ext; auto. intros. ifs; auto. ring.
  Qed.
  Lemma skip_sub F b cnt xr xc yr yc : 0 <= cnt -> 0 <= xr -> xr + cnt <= n -> 0 <= yr -> yr + cnt <= n ->
    0 <= xc < w -> 0 <= yc < w -> xc <> yc ->
    (if Reqb b 0 then OK (cmat n w F) else col_sub n b (cmat n w F) cnt xr xc yr yc)
    = OK (cmat n w (fun i j => if (j =? yc) && inr yr cnt i then (F i j - b * F (xr + (i - yr))%Z xc)%R else F i j)).
  Proof.
    intros. destruct (Reqb b 0) eqn:E.
    - apply Reqb_true in E. subst b. f_equal. apply cmat_ext; auto. intros. ifs; auto. ring.
    - rewrite col_sub_ok by auto. reflexivity.
  Qed.

  Lemma dger_ok F m nc xr xc yr yc ar ac : 0 <= m -> 0 <= nc -> 0 <= xr -> xr + m <= n -> 0 <= xc < w ->
    0 <= yr < n -> 0 <= yc -> yc + nc <= w -> 0 <= ar -> ar + m <= n -> 0 <= ac -> ac + nc <= w ->
    xc < ac -> yr < ar ->
    dger n (cmat n w F) m nc xr xc yr yc ar ac
    = OK (cmat n w (fun i j => if inr ar m i && inr ac nc j then (F i j - F (xr + (i - ar))%Z xc * F yr (yc + (j - ac))%Z)%R else F i j)).
  Proof.
    intros Hm Hnc H1 H2 H3 H4 H5 H6 H7 H8 H9 H10 H11 H12. unfold dger.
    set (G k := fun i j => if inr ar m i && inr ac k j then (F i j - F (xr + (i - ar))%Z xc * F yr (yc + (j - ac))%Z)%R else F i j).
    replace (cmat n w F) with (cmat n w (G 0)) by (apply cmat_ext; auto; intros; unfold G; ifs; auto; lia).
    rewrite (for_up_path (fun k => cmat n w (G k))); [reflexivity|lia|].
    intros k Hk. cells. rewrite skip_add by lia. f_equal. apply cmat_ext; auto.
    intros i j Hi Hj. unfold G. ifs; subst; try lia; auto;
    replace (ac + k - ac) with k by lia; auto.
  Qed.

  (** B is read through [getb], and is not touched by changes inside C. *)
  Lemma dgemm_ok F (B : Z -> Z -> R) getb m nc k ar ac cr cc : 0 <= m -> 0 <= nc -> 0 <= k ->
    0 <= ar -> ar + m <= n -> 0 <= ac -> ac + k <= w -> 0 <= cr -> cr + m <= n -> 0 <= cc -> cc + nc <= w ->
    ac + k <= cc \/ cc + nc <= ac ->
    (forall G l j, (forall i j, 0 <= i < n -> 0 <= j < w -> inr cr m i && inr cc nc j = false -> G i j = F i j) ->
       0 <= l < k -> 0 <= j < nc -> getb (cmat n w G) l j = OK (B l j)) ->
    dgemm n getb (cmat n w F) m nc k ar ac cr cc
    = OK (cmat n w (fun i j => if inr cr m i && inr cc nc j
        then (F i j - rsum k (fun l => F (ar + (i - cr))%Z (ac + l)%Z * B l (j - cc)%Z))%R else F i j)).
  Proof.
    intros Hm Hnc Hk H1 H2 H3 H4 H5 H6 H7 H8 Hd HB. unfold dgemm.
    set (V l i j := (F i j - rsum l (fun l => F (ar + (i - cr))%Z (ac + l)%Z * B l (j - cc)%Z))%R).
    set (G q l := fun i j => if inr cr m i && inr cc q j then V k i j else if inr cr m i && (j =? cc + q) then V l i j else F i j).
    assert (V0 : forall i j, V 0 i j = F i j) by (intros; unfold V; rewrite rsum_0 by lia; ring).
    replace (cmat n w F) with (cmat n w (G 0 0)) by (apply cmat_ext; auto; intros; unfold G; ifs; auto; try lia).
    rewrite (for_up_path (fun q => cmat n w (G q 0))).
    - f_equal. apply cmat_ext; auto. intros i j Hi Hj. unfold G. ifs; auto; try lia. 
    - lia.
    - intros q Hq. cbv beta.
      rewrite (for_up_path (fun l => cmat n w (G q l))).
      + f_equal. apply cmat_ext; auto. intros i j Hi Hj. unfold G. ifs; subst; auto; try lia.
      + lia.
      + intros l Hl. rewrite HB; [|intros i j Hi Hj C; unfold G; revert C; ifs; auto; try lia; discriminate|lia|lia].
        cbn [bind]. rewrite skip_add by lia. f_equal. apply cmat_ext; auto.
        intros i j Hi Hj. unfold G. ifs; subst; auto; try lia;
        unfold V; rewrite (rsum_S l) by lia; replace (cc + q - cc) with q by lia; ring.
  Qed.

  Lemma dgemv_ok F x m nc ar ac x0 yr yc : 0 <= m -> 0 <= nc ->
    0 <= ar -> ar + m <= n -> 0 <= ac -> ac + nc <= w -> 0 <= yr -> yr + m <= n -> 0 <= yc < w ->
    yc < ac -> 0 <= x0 -> x0 + nc <= zlen x ->
    dgemv n (cmat n w F) m nc ar ac x x0 yr yc
    = OK (cmat n w (fun i j => if (j =? yc) && inr yr m i
        then (F i j - rsum nc (fun l => F (ar + (i - yr))%Z (ac + l)%Z * zn 0%R x (x0 + l)%Z))%R else F i j)).
  Proof.
    intros Hm Hnc H1 H2 H3 H4 H5 H6 H7 Hd H8 H9. unfold dgemv.
    set (V l i j := (F i j - rsum l (fun l => F (ar + (i - yr))%Z (ac + l)%Z * zn 0%R x (x0 + l)%Z))%R).
    set (G l := fun i j => if (j =? yc) && inr yr m i then V l i j else F i j).
    assert (V0 : forall i j, V 0 i j = F i j) by (intros; unfold V; rewrite rsum_0 by lia; ring).
    replace (cmat n w F) with (cmat n w (G 0)) by (apply cmat_ext; auto; intros; unfold G; ifs; auto; try lia).
    rewrite (for_up_path (fun l => cmat n w (G l))); [reflexivity|lia|].
    intros l Hl. rewrite (aget_OK 0%R) by lia. cbn [bind]. rewrite skip_add by lia. f_equal. apply cmat_ext; auto.
    intros i j Hi Hj. unfold G. ifs; subst; auto; try lia;
    unfold V; rewrite (rsum_S l) by lia; ring.
  Qed.

  (** x := A x, A upper triangular. *)
  Definition upmul (F : Z -> Z -> R) (k ar ac r : Z) (x : Z -> R) : R :=
    rsum k (fun p => if r <=? p then (F (ar + r)%Z (ac + p)%Z * x p)%R else 0%R).
  Lemma upmul_S F k ar ac r x : 0 <= k ->
    upmul F (k + 1) ar ac r x = (upmul F k ar ac r x + (if r <=? k then F (ar + r)%Z (ac + k)%Z * x k else 0))%R.
  Proof. intros. unfold upmul. now rewrite rsum_S by lia. Qed.
  Lemma upmul_above F k ar ac r x : k <= r -> upmul F k ar ac r x = 0%R.
  Proof. intros. unfold upmul. apply rsum_zero. intros p Hp. destruct (Z.leb_spec r p); auto. lia. Qed.

  Lemma dtrmv_ok F m ar ac xr xc : 0 <= m -> 0 <= ar -> ar + m <= n -> 0 <= ac -> ac + m <= w ->
    0 <= xr -> xr + m <= n -> 0 <= xc < w -> ac + m <= xc ->
    dtrmv n (cmat n w F) m ar ac xr xc
    = OK (cmat n w (fun i j => if (j =? xc) && inr xr m i then upmul F m ar ac (i - xr) (fun p => F (xr + p) xc) else F i j)).
  Proof.
    intros Hm H1 H2 H3 H4 H5 H6 H7 Hd. unfold dtrmv.
    set (x := fun p => F (xr + p) xc).
    set (G l := fun i j => if (j =? xc) && inr xr l i then upmul F l ar ac (i - xr) x else F i j).
    replace (cmat n w F) with (cmat n w (G 0)) by (apply cmat_ext; auto; intros; unfold G; ifs; auto; lia).
    rewrite (for_up_path (fun l => cmat n w (G l))); [reflexivity|lia|].
    intros l Hl. cells.
    assert (E : G l (xr + l) xc = x l) by (unfold G; ifs; auto; lia). rewrite E.
    destruct (Reqb (x l) 0) eqn:Z0.
    - apply Reqb_true in Z0. f_equal. apply cmat_ext; auto. intros i j Hi Hj. unfold G.
      ifs; auto; try lia; subst.
      + rewrite upmul_S by lia. rewrite Z0. destruct (_ <=? _); ring.
      + rewrite upmul_S, upmul_above by lia. replace (i - xr) with l by lia. rewrite Z.leb_refl.
        replace i with (xr + l) by lia. fold (x l). rewrite Z0. ring.
    - rewrite col_add_ok by lia. cbn [bind]. cells. f_equal. apply cmat_ext; auto.
      intros i j Hi Hj. unfold set2, G. ifs; auto; try lia; subst.
      + rewrite upmul_S, upmul_above by lia. replace (xr + l - xr) with l by lia. rewrite Z.leb_refl. unfold x. ring.
      + rewrite upmul_S by lia. replace (i - xr <=? l) with true by (symmetry; apply Z.leb_le; lia).
        replace (xr + (i - xr)) with i by lia. ring.
  Qed.
  Lemma dtrmm_ok F m nc ar ac br bc : 0 <= m -> 0 <= nc -> 0 <= ar -> ar + m <= n -> 0 <= ac -> ac + m <= w ->
    0 <= br -> br + m <= n -> 0 <= bc -> bc + nc <= w -> ac + m <= bc ->
    dtrmm n (cmat n w F) m nc ar ac br bc
    = OK (cmat n w (fun i j => if inr br m i && inr bc nc j then upmul F m ar ac (i - br) (fun p => F (br + p) j) else F i j)).
  Proof.
    intros Hm Hnc H1 H2 H3 H4 H5 H6 H7 H8 Hd. unfold dtrmm.
    set (G q l := fun i j => if inr br m i && inr bc q j then upmul F m ar ac (i - br) (fun p => F (br + p) j)
      else if inr br l i && (j =? bc + q) then upmul F l ar ac (i - br) (fun p => F (br + p) j) else F i j).
    replace (cmat n w F) with (cmat n w (G 0 0)) by (apply cmat_ext; auto; intros; unfold G; ifs; auto; lia).
    rewrite (for_up_path (fun q => cmat n w (G q 0))).
    - f_equal. apply cmat_ext; auto. intros i j Hi Hj. unfold G. ifs; auto; try lia.
    - lia.
    - intros q Hq. cbv beta. rewrite (for_up_path (fun l => cmat n w (G q l))).
      + f_equal. apply cmat_ext; auto. intros i j Hi Hj. unfold G. ifs; subst; auto; try lia.
      + lia.
      + intros l Hl. cells.
        assert (E : G q l (br + l) (bc + q) = F (br + l) (bc + q)) by (unfold G; ifs; auto; lia). rewrite E.
        destruct (Reqb (F (br + l) (bc + q)) 0) eqn:Z0.
        * apply Reqb_true in Z0. f_equal. apply cmat_ext; auto. intros i j Hi Hj. unfold G.
          ifs; auto; try lia; subst.
          -- rewrite upmul_S by lia. rewrite Z0. destruct (_ <=? _); ring.
          -- rewrite upmul_S, upmul_above by lia. replace (i - br) with l by lia. rewrite Z.leb_refl.
             replace i with (br + l) by lia. rewrite Z0. ring.
        * rewrite col_add_ok by lia. cbn [bind]. cells. f_equal. apply cmat_ext; auto.
          intros i j Hi Hj. unfold set2, G. ifs; auto; try lia; subst.
          all: first
            [ rewrite upmul_S, upmul_above by lia; replace (br + l - br) with l by lia; rewrite Z.leb_refl; ring
            | rewrite upmul_S by lia; replace (i - br <=? l) with true by (symmetry; apply Z.leb_le; lia);
              replace (br + (i - br)) with i by lia; ring ].
  Qed.

  (** B := inv(A) B, A unit lower triangular. *)
  Lemma dtrsm_left_ok F m nc ar ac br bc : 0 <= m -> 0 <= nc -> 0 <= ar -> ar + m <= n -> 0 <= ac -> ac + m <= w ->
    0 <= br -> br + m <= n -> 0 <= bc -> bc + nc <= w -> ac + m <= bc ->
    exists X, dtrsm_left n (cmat n w F) m nc ar ac br bc
      = OK (cmat n w (fun i j => if inr br m i && inr bc nc j then X (i - br) (j - bc) else F i j)) /\
      forall r c, 0 <= r < m -> 0 <= c < nc ->
        F (br + r) (bc + c) = (X r c + rsum r (fun p => F (ar + r)%Z (ac + p)%Z * X p c))%R.
  Proof.
    intros Hm Hnc H1 H2 H3 H4 H5 H6 H7 H8 Hd. unfold dtrsm_left.
    match goal with |- exists X, for_up 0 nc ?f _ = _ /\ _ =>
      destruct (for_up_inv (fun q a => exists X, a = cmat n w (fun i j => if inr br m i && inr bc q j then X (i - br) (j - bc) else F i j) /\
        forall r c, 0 <= r < m -> 0 <= c < q ->
        F (br + r) (bc + c) = (X r c + rsum r (fun p => F (ar + r)%Z (ac + p)%Z * X p c))%R) 0 nc f (cmat n w F))
        as (a & E & X & -> & HX); [lia| | |exists X; rewrite E; auto] end.
    - exists (fun _ _ => 0%R). split; [|lia]. apply cmat_ext; auto. intros. ifs; auto; lia.
    - intros q a Hq (X & -> & HX).
      match goal with |- exists s, for_up 0 m ?f ?a0 = _ /\ _ =>
        destruct (for_up_inv (fun k a => exists Y, a = cmat n w (fun i j =>
            if inr br m i && inr bc q j then X (i - br) (j - bc) else
            if inr br m i && (j =? bc + q) then Y (i - br) else F i j) /\
          forall r, 0 <= r < m ->
          F (br + r) (bc + q) = (Y r + rsum (Z.min r k) (fun p => F (ar + r)%Z (ac + p)%Z * Y p))%R) 0 m f a0)
        as (a' & E & Y & -> & HY); [lia| | |rewrite E] end.
      + exists (fun r => F (br + r) (bc + q)). split.
        * apply cmat_ext; auto. intros. ifs; auto; subst; try lia. f_equal; lia.
        * intros r Hr. rewrite rsum_0 by lia. ring.
      + intros k a Hk (Y & -> & HY). cells.
        replace (if inr br m (br + k) && inr bc q (bc + q) then X (br + k - br) (bc + q - bc) else
          if inr br m (br + k) && (bc + q =? bc + q) then Y (br + k - br) else F (br + k) (bc + q)) with (Y k)
          by (ifs; try lia; f_equal; lia).
        rewrite skip_sub by lia. eexists; split; [reflexivity|].
        exists (fun r => if k <? r then (Y r - Y k * F (ar + r)%Z (ac + k)%Z)%R else Y r). split.
        * apply cmat_ext; auto. intros i j Hi Hj. ifs; auto; subst; try lia;
          replace (ar + (k + 1) + (i - (br + (k + 1)))) with (ar + (i - br)) by lia; ring.
        * intros r Hr. rewrite HY by auto. ifs.
          -- rewrite !Z.min_r by lia. rewrite rsum_S by lia. ifs; try lia.
             rewrite (rsum_ext k (fun p => (F (ar + r)%Z (ac + p)%Z * (if k <? p then (Y p - Y k * F (ar + p)%Z (ac + k)%Z)%R else Y p))%R) (fun p => (F (ar + r)%Z (ac + p)%Z * Y p)%R)).
             ++ ring.
             ++ intros p Hp. cbv beta. ifs; auto; lia.
          -- rewrite !Z.min_l by lia. f_equal. apply rsum_ext. intros p Hp. cbv beta. ifs; auto; lia.
      + eexists; split; [reflexivity|]. exists (fun r c => if c <? q then X r c else Y r). split.
        * apply cmat_ext; auto. intros. ifs; auto; subst; try lia.
        * intros r c Hr Hc. ifs.
          -- rewrite HX by lia. reflexivity.
          -- replace c with q by lia. rewrite HY by lia. rewrite Z.min_l by lia. reflexivity.
  Qed.

  (** B := - B inv(A), A upper triangular. *)
  Lemma dtrsm_right_upper_ok F m nc ar ac br bc : 0 <= m -> 0 <= nc -> 0 <= ar -> ar + nc <= n -> 0 <= ac -> ac + nc <= w ->
    0 <= br -> br + m <= ar -> 0 <= bc -> bc + nc <= w ->
    (forall j, 0 <= j < nc -> F (ar + j) (ac + j) <> 0%R) ->
    exists X, dtrsm_right_upper n (cmat n w F) m nc ar ac br bc
      = OK (cmat n w (fun i j => if inr br m i && inr bc nc j then X (i - br) (j - bc) else F i j)) /\
      forall r c, 0 <= r < m -> 0 <= c < nc ->
        rsum (c + 1) (fun k => X r k * F (ar + k)%Z (ac + c)%Z)%R = (- F (br + r)%Z (bc + c)%Z)%R.
  Proof.
    intros Hm Hnc H1 H2 H3 H4 H5 H6 H7 H8 Hnz. unfold dtrsm_right_upper.
    match goal with |- exists X, for_up 0 nc ?f _ = _ /\ _ =>
      destruct (for_up_inv (fun q a => exists X, a = cmat n w (fun i j => if inr br m i && inr bc q j then X (i - br) (j - bc) else F i j) /\
        forall r c, 0 <= r < m -> 0 <= c < q ->
        rsum (c + 1) (fun k => X r k * F (ar + k)%Z (ac + c)%Z)%R = (- F (br + r)%Z (bc + c)%Z)%R) 0 nc f (cmat n w F))
        as (a & E & X & -> & HX); [lia| | |exists X; rewrite E; auto] end.
    - exists (fun _ _ => 0%R). split; [|lia]. apply cmat_ext; auto. intros. ifs; auto; lia.
    - intros q a Hq (X & -> & HX). rewrite dscal_ok by lia. cbn [bind].
      set (V k r := (- F (br + r)%Z (bc + q)%Z - rsum k (fun p => X r p * F (ar + p)%Z (ac + q)%Z))%R).
      set (G k := fun i j => if inr br m i && inr bc q j then X (i - br) (j - bc) else
            if inr br m i && (j =? bc + q) then V k (i - br) else F i j).
      replace (cmat n w _) with (cmat n w (G 0)).
      2: { apply cmat_ext; auto. intros i j Hi Hj. unfold G, V. rewrite rsum_0 by lia. ifs; auto; subst; try lia.
           replace (br + (i - br)) with i by lia. ring. }
      rewrite (for_up_path (fun k => cmat n w (G k))); [cbn [bind]|lia|].
      + cells. replace (G q (ar + q) (ac + q)) with (F (ar + q) (ac + q)) by (unfold G; ifs; auto; lia).
        unfold recip. destruct (Reqb (F (ar + q) (ac + q)) 0) eqn:Z0; [apply Reqb_true in Z0; now apply Hnz in Z0|].
        cbn [bind]. rewrite dscal_ok by lia. eexists; split; [reflexivity|].
        exists (fun r c => if c <? q then X r c else (1 / F (ar + q)%Z (ac + q)%Z * V q r)%R). split.
        * apply cmat_ext; auto. intros i j Hi Hj. unfold G. ifs; auto; subst; try lia.
        * intros r c Hr Hc. destruct (Z.eq_dec c q) as [->|].
          -- rewrite rsum_S by lia. ifs; try lia.
             rewrite (rsum_ext q _ (fun k => (X r k * F (ar + k)%Z (ac + q)%Z)%R)) by (intros k Hk; cbv beta; ifs; auto; lia).
             unfold V. field. apply Hnz; lia.
          -- rewrite <- HX by lia. apply rsum_ext. intros k Hk. cbv beta. ifs; auto; lia.
      + intros k Hk. cells. replace (G k (ar + k) (ac + q)) with (F (ar + k) (ac + q)) by (unfold G; ifs; auto; lia).
        rewrite skip_sub by lia. f_equal. apply cmat_ext; auto.
        intros i j Hi Hj. unfold G. ifs; auto; subst; try lia.
        unfold V. rewrite rsum_S by lia. replace (br + (i - br) - br) with (i - br) by lia.
        replace (bc + k - bc) with k by lia. ring.
  Qed.
End Blas.

(** B := B inv(A), A unit lower triangular and in another array. *)
Lemma dtrsm_right_lower_ok n w F w' W wr m nc bc : 0 < n -> 0 <= m <= n -> 0 <= nc <= w' -> 0 <= wr -> wr + nc <= n ->
  0 <= bc -> bc + nc <= w ->
  exists X, dtrsm_right_lower n (cmat n w' W) wr (cmat n w F) m nc 0 bc
    = OK (cmat n w (fun i j => if inr 0 m i && inr bc nc j then X i (j - bc) else F i j)) /\
    forall r c, 0 <= r < m -> 0 <= c < nc ->
      F r (bc + c) = (X r c + rsum (nc - (c + 1)) (fun k => X r (c + 1 + k)%Z * W (wr + (c + 1 + k))%Z c))%R.
Proof.
  intros Hn Hm Hnc H1 H2 H3 H4. unfold dtrsm_right_lower.
  match goal with |- exists X, for_down (nc - 1) 0 ?f _ = _ /\ _ =>
    destruct (for_down_inv (fun q a => exists X, a = cmat n w (fun i j => if inr 0 m i && inr (bc + (q + 1)) (nc - (q + 1)) j then X i (j - bc) else F i j) /\
      forall r c, 0 <= r < m -> q < c < nc ->
      F r (bc + c) = (X r c + rsum (nc - (c + 1)) (fun k => X r (c + 1 + k)%Z * W (wr + (c + 1 + k))%Z c))%R) (nc - 1) 0 f (cmat n w F))
      as (a & E & X & -> & HX); [lia| | |exists X; rewrite E; split; [f_equal; apply cmat_ext; auto; intros; ifs; auto; lia|intros; apply HX; lia]] end.
  - exists (fun _ _ => 0%R). split; [|lia]. apply cmat_ext; auto. intros. ifs; auto; lia.
  - intros q a Hq (X & -> & HX).
    set (V k r := (F r (bc + q)%Z - rsum k (fun p => X r (q + 1 + p)%Z * W (wr + (q + 1 + p))%Z q))%R).
    set (G k := fun i j => if inr 0 m i && inr (bc + (q + 1)) (nc - (q + 1)) j then X i (j - bc) else
          if inr 0 m i && (j =? bc + q) then V (k - (q + 1)) i else F i j).
    replace (cmat n w _) with (cmat n w (G (q + 1))).
    2: { apply cmat_ext; auto. intros i j Hi Hj. unfold G, V. rewrite rsum_0 by lia. ifs; auto; subst; try lia. ring. }
    rewrite (for_up_path (fun k => cmat n w (G k))); [|lia|].
    + eexists; split; [reflexivity|].
      exists (fun r c => if q <? c then X r c else V (nc - (q + 1)) r). split.
      * apply cmat_ext; auto. intros i j Hi Hj. unfold G. ifs; auto; subst; try lia.
      * intros r c Hr Hc. destruct (Z.eq_dec c q) as [->|].
        -- ifs; try lia. unfold V.
           rewrite (rsum_ext _ (fun k => (if q <? q + 1 + k then _ else _) * _)%R (fun k => (X r (q + 1 + k)%Z * W (wr + (q + 1 + k))%Z q)%R)).
           ++ ring.
           ++ intros k Hk. cbv beta. ifs; auto; lia.
        -- rewrite HX by lia. ifs; try lia. f_equal. apply rsum_ext. intros k Hk. cbv beta. ifs; auto; lia.
    + intros k Hk. cells. rewrite skip_sub by lia. f_equal. apply cmat_ext; auto.
      intros i j Hi Hj. unfold G. ifs; auto; subst; try lia.
      unfold V. replace (k + 1 - (q + 1)) with (k - (q + 1) + 1) by lia. rewrite rsum_S by lia.
      replace (0 + (i - 0)) with i by lia. replace (q + 1 + (k - (q + 1))) with k by lia.
      replace (bc + k - bc) with k by lia. ring.
Qed.
