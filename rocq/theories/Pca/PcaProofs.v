(** covcol, the projection and the whole of pca_project. *)
From Coq Require Import List ZArith Reals Lia Lra Bool Psatz.
From Verif.Base Require Import Imp Sums RealOps Loops Matrix Tables.
From Verif.Pca Require Import PcaModel PcaSpec PcaMath PcaQl PcaTqli PcaHouse PcaTred2.
Import ListNotations.
Open Scope Z_scope.

Lemma repeat_ztab {A} (x : A) m : 0 <= m -> repeat x (Z.to_nat m) = ztab m (fun _ => x).
Proof.
  intros H. apply (zn_ext x); [zl; lia|]. intros k Hk. rewrite zlen_repeat in Hk. rewrite zn_repeat_in by lia. now rewrite zn_ztab by lia.
Qed.
Lemma repeat_tab2 {A} (x : A) n m : 0 <= n -> 0 <= m -> repeat (repeat x (Z.to_nat m)) (Z.to_nat n) = tab2 n m (fun _ _ => x).
Proof. intros Hn Hm. rewrite repeat_ztab, repeat_ztab by auto. reflexivity. Qed.

Lemma scatter_sym n x j k : scatter n x j k = scatter n x k j.
Proof. apply rsum_ext. intros. ring. Qed.

Section Pca.
  Variables (junk : R) (n m w : Z) (x : Z -> Z -> R).
  Hypotheses (Hn : 0 <= n) (Hm : 0 < m) (Hw : m <= w).

  Lemma column_means_ok : column_means junk (tab2 n w x) n m = OK (ztab m (column_mean n x)).
  Proof.
    unfold column_means. rewrite repeat_ztab by lia.
    set (S := fun j => ztab m (fun k => if k <? j then column_mean n x k else junk)).
    replace (ztab m (fun _ => junk)) with (S 0) by (apply ztab_ext; intros; zdec; reflexivity).
    rewrite (for_up_path S); [|lia|].
    - f_equal. apply ztab_ext. intros. zdec; reflexivity.
    - intros j Hj. unfold S at 1. rewrite aset_tab by lia. cbn [bind].
      set (f := fun k => if k <? j then column_mean n x k else junk).
      set (T := fun i => ztab m (set1 f j (rsum i (fun i => x i j)))).
      replace (ztab m (set1 f j 0%R)) with (T 0) by (unfold T; now rewrite rsum_0 by lia).
      rewrite (for_up_path T); [|lia|].
      + cbn [bind]. unfold T. rewrite aget_tab by lia. cbn [bind]. rewrite aset_tab by lia. f_equal. apply ztab_ext. intros k Hk.
        unfold set1, f. rewrite Z.eqb_refl. zdec; subst; reflexivity.
      + intros i Hi. unfold T. rewrite aget_tab by lia. cbn [bind]. rewrite mget_tab by lia. cbn [bind]. rewrite aset_tab by lia. f_equal.
        apply ztab_ext. intros k Hk. unfold set1. rewrite Z.eqb_refl. zdec; subst; auto. now rewrite rsum_S by lia.
  Qed.

  Definition centred_cols (i j : Z) : R := if j <? m then centred n x i j else x i j.

  Lemma covcol_ok f : covcol junk (tab2 n w x) n m (tab2 m m f) = OK (tab2 n w centred_cols, tab2 m m (scatter n x)).
  Proof.
    unfold covcol. rewrite column_means_ok. cbn [bind].
    set (S := fun i => tab2 n w (fun a b => if (a <? i) && (b <? m) then centred n x a b else x a b)).
    replace (tab2 n w x) with (S 0) by (apply tab2_ext; intros; zdec; reflexivity).
    rewrite (for_up_path S); [|lia|].
    2:{ intros i Hi.
      set (T := fun j => tab2 n w (fun a b => if ((a <? i) && (b <? m)) || ((a =? i) && (b <? j)) then centred n x a b else x a b)).
      replace (S i) with (T 0) by (apply tab2_ext; intros; zdec; reflexivity).
      rewrite (for_up_path T); [|lia|].
      - f_equal. apply tab2_ext. intros; zdec; reflexivity.
      - intros j Hj. unfold T. rewrite mget_tab by lia. cbn [bind]. rewrite aget_tab by lia. cbn [bind]. rewrite mput_tab by lia. f_equal.
        apply tab2_ext. intros a b Ha Hb. unfold set2. zdec; subst; reflexivity. }
    cbn [bind]. replace (S n) with (tab2 n w centred_cols) by (apply tab2_ext; intros; unfold centred_cols; zdec; reflexivity). clear S.
    set (S := fun j1 => tab2 m m (fun a b => if (a <? j1) || (b <? j1) then scatter n x a b else f a b)).
    replace (tab2 m m f) with (S 0) by (apply tab2_ext; intros; zdec; reflexivity).
    rewrite (for_up_path S); [|lia|].
    - cbn [bind]. f_equal. f_equal. apply tab2_ext. intros; zdec; reflexivity.
    - intros j1 H1.
      set (T := fun j2 => tab2 m m (fun a b => if (a <? j1) || (b <? j1) || ((a =? j1) && (b <? j2)) || ((b =? j1) && (a <? j2)) then scatter n x a b else f a b)).
      replace (S j1) with (T j1) by (apply tab2_ext; intros; zdec; reflexivity).
      rewrite (for_up_path T); [|lia|].
      + f_equal. apply tab2_ext. intros; zdec; reflexivity.
      + intros j2 H2. unfold T at 1. rewrite mput_tab by lia. cbn [bind].
        set (g := fun a b => if (a <? j1) || (b <? j1) || ((a =? j1) && (b <? j2)) || ((b =? j1) && (a <? j2)) then scatter n x a b else f a b).
        set (U := fun i => tab2 m m (set2 g j1 j2 (rsum i (fun i => centred n x i j1 * centred n x i j2)%R))).
        replace (tab2 m m (set2 g j1 j2 0%R)) with (U 0) by (unfold U; now rewrite rsum_0 by lia).
        rewrite (for_up_path U); [|lia|].
        * cbn [bind]. unfold U. rewrite mget_tab by lia. cbn [bind]. rewrite mput_tab by lia. f_equal. apply tab2_ext. intros a b Ha Hb.
          fold (scatter n x j1 j2). unfold set2, g. zdec; subst; try reflexivity; try apply scatter_sym.
        * intros i Hi. unfold U. rewrite mget_tab by lia. cbn [bind]. rewrite !mget_tab by lia. cbn [bind]. rewrite mput_tab by lia. f_equal.
          apply tab2_ext. intros a b Ha Hb. unfold set2. rewrite !Z.eqb_refl. cbn [andb].
          destruct ((a =? j1) && (b =? j2)); auto. rewrite rsum_S by lia. unfold centred_cols. zdec. reflexivity.
  Qed.

  (** The projection loop. *)
  Definition projected (nc : Z) (z : Z -> Z -> R) (i k : Z) : R :=
    if k <? nc then rsum m (fun j => centred n x i j * z j (m - 1 - k)%Z)%R else centred_cols i k.
  Lemma project_ok nc z interm : 0 <= nc <= m -> zlen interm = m ->
    (for_up 0 n (fun i '(data, interm) =>
      interm <- for_up 0 m (fun j interm => v <- mget data i j ;; aset interm j v) interm ;;
      data <- for_up 0 nc (fun k data =>
        data <- mput data i k 0%R ;;
        for_up 0 m (fun k2 data =>
          v <- mget data i k ;; x <- aget interm k2 ;; y <- mget (tab2 m m z) k2 (m - k - 1) ;;
          mput data i k (v + x * y)%R) data) data ;;
      OK (data, interm)) (tab2 n w centred_cols, interm)) = OK (tab2 n w (projected nc z), if n =? 0 then interm else ztab m (centred n x (n - 1))).
  Proof.
    intros Hc Hi.
    set (S := fun i => (tab2 n w (fun a b => if a <? i then projected nc z a b else centred_cols a b), if i =? 0 then interm else ztab m (centred n x (i - 1)))).
    replace (tab2 n w centred_cols, interm) with (S 0).
    2:{ unfold S. f_equal. apply tab2_ext. intros; zdec; reflexivity. }
    rewrite (for_up_path S); [|lia|].
    { unfold S. f_equal. f_equal. apply tab2_ext. intros; zdec; reflexivity. }
    intros i Hi0. unfold S at 1. cbv beta iota.
    set (t := if i =? 0 then interm else ztab m (centred n x (i - 1))).
    assert (Ht : zlen t = m) by (unfold t; destruct (i =? 0); [auto|zl; lia]).
    assert (E1 : for_up 0 m (fun j interm => v <- mget (tab2 n w (fun a b => if a <? i then projected nc z a b else centred_cols a b)) i j ;; aset interm j v) t
      = OK (ztab m (centred n x i))).
    { rewrite (for_up_set m _ (centred n x i)); [|lia|].
      - rewrite skipn_zlen by lia. now rewrite app_nil_r.
      - intros j Hj. rewrite mget_tab by lia. unfold centred_cols. zdec. reflexivity. }
    rewrite E1. cbn [bind].
    set (T := fun k => tab2 n w (fun a b => if (a <? i) || ((a =? i) && (b <? k)) then projected nc z a b else centred_cols a b)).
    replace (tab2 n w (fun a b => if a <? i then projected nc z a b else centred_cols a b)) with (T 0) by (apply tab2_ext; intros; zdec; reflexivity).
    rewrite (for_up_path T); [|lia|].
    - cbn [bind]. unfold S. rewrite (proj2 (Z.eqb_neq (i + 1) 0)) by lia. replace (i + 1 - 1) with i by lia. f_equal. f_equal.
      apply tab2_ext. intros a b Ha Hb. unfold T, projected. zdec; reflexivity.
    - intros k Hk. unfold T at 1. rewrite mput_tab by lia. cbn [bind].
      set (g := fun a b => if (a <? i) || ((a =? i) && (b <? k)) then projected nc z a b else centred_cols a b).
      set (U := fun k2 => tab2 n w (set2 g i k (rsum k2 (fun j => centred n x i j * z j (m - 1 - k)%Z)%R))).
      replace (tab2 n w (set2 g i k 0%R)) with (U 0) by (unfold U; now rewrite rsum_0 by lia).
      rewrite (for_up_path U); [|lia|].
      + f_equal. apply tab2_ext. intros a b Ha Hb. unfold set2, g, projected. zdec; subst; reflexivity.
      + intros k2 H2. unfold U. rewrite mget_tab by lia. cbn [bind]. rewrite aget_tab by lia. cbn [bind]. rewrite mget_tab by lia. cbn [bind].
        rewrite mput_tab by lia. f_equal. apply tab2_ext. intros a b Ha Hb. unfold set2. rewrite !Z.eqb_refl. cbn [andb].
        destruct ((a =? i) && (b =? k)); auto. rewrite rsum_S by lia. replace (m - k - 1) with (m - 1 - k) by lia. reflexivity.
  Qed.

  Variable negligible : R -> R -> bool.
  Variable eps : R.
  Hypothesis neg_zero : forall dd, (0 <= dd)%R -> negligible 0 dd = true.
  Hypothesis neg_small : forall x dd, (0 <= x)%R -> (0 <= dd)%R -> negligible x dd = true -> (x <= eps * dd)%R.
  Hypothesis Heps : (0 <= eps)%R.

  Theorem pca_project_ok nc : 0 <= nc <= m ->
    pca_project junk negligible (tab2 n w x) n m nc = Throw \/
    exists z lambda, pca_project junk negligible (tab2 n w x) n m nc = OK (tab2 n w (projected nc z)) /\
      eigenbasis m (scatter n x) z lambda (62 * IZR m * eps * norm_F m m (scatter n x)).
  Proof.
    intros Hc. unfold pca_project. rewrite repeat_tab2 by lia. rewrite covcol_ok. cbn [bind].
    rewrite !repeat_ztab by lia.
    destruct (tred2_ok m (scatter n x) (fun _ => junk) (fun _ => junk) Hm (scatter_sym n x)) as (z & d & e & E & O & T).
    rewrite E. cbn [bind]. clear E.
    set (F := norm_F m m (scatter n x)).
    assert (Fo : form m (scatter n x) F (coup m 0 (fun j => e (j + 1)%Z)) d 0 0 z 0).
    { split; auto. exists (fun _ _ => 0%R). splits.
      - rewrite frob_frob2. unfold frob2. rewrite rsum_zero; [rewrite sqrt_0; lra|]. intros. apply rsum_zero. intros. ring.
      - intros k a Hk Ha. unfold image. rewrite T by auto. unfold bulge_row.
        change (cpl m e) with (coup m 0 (fun j => e (j + 1)%Z)).
        repeat match goal with |- context[if ?b then _ else _] => destruct b end; ring.
      - unfold F. rewrite frob_sq. apply Req_le. rewrite <- (frob2_mul m (scatter n x) z O). unfold frob2. apply rsum_ext. intros.
        apply rsum_ext. intros. unfold image, mul. ring. }
    pose proof (tqli_ok negligible eps neg_zero neg_small Heps m Hm (scatter n x) F (frob_pos m m _) d e z 0 Fo) as Q.
    destruct (tqli negligible (ztab m d) (ztab m e) m (tab2 m m z)) as [((d', e'), z')| | |]; cbn [ok_or_exit] in Q; try contradiction; [|left; reflexivity].
    right. destruct Q as (fd & fz & -> & Le & -> & Eb). cbn [bind]. rewrite Rplus_0_l in Eb. exists fz, fd. split; [|exact Eb].
    rewrite (project_ok nc fz e' Hc Le). reflexivity.
  Qed.
End Pca.
