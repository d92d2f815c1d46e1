(** hmm_init. *)
From Coq Require Import List ZArith Reals Lia Lra Bool.
From Verif.Base Require Import Imp RealOps Sums Loops Matrix.
From Verif.Hmm Require Import HmmModel HmmSpec HmmBaum HmmTrain HmmTrainProofs.
Import ListNotations.
Open Scope Z_scope.

Section Init.
  Variables (junk : R) (rnd : Z -> R) (x : list (list R)) (T L N : Z).
  Hypothesis HT : 1 <= T.
  Hypothesis HL : 0 <= L.
  Hypothesis HN : 1 <= N.
  Hypothesis Sx : shape T L x.
  Hypothesis Hr : forall k, (0 <= rnd k <= 1)%R.

  Definition mean (d : Z) : R := (rsum T (fun t => ent 0 x t d) / IZR T)%R.
  Definition variance (d : Z) : R := (rsum T (fun t => (ent 0 x t d - mean d) * (ent 0 x t d - mean d)) / IZR (T - 1))%R.

  Lemma fill_seq n k0 (f : Z -> R) l : 0 <= n -> zlen l = n ->
    for_up 0 n (fun j '((row, ss, k) : list R * R * Z) =>
      let v := f k in row <- aset row j v ;; OK (row, (ss + v)%R, k + 1)) (l, 0%R, k0)
    = OK (ztab n (fun j => f (k0 + j)), rsum n (fun j => f (k0 + j)), k0 + n).
  Proof.
    intros Hn Ll.
    match goal with |- for_up 0 n ?G ?S = _ =>
      destruct (for_up_inv (fun j '((row, ss, k) : list R * R * Z) =>
        zlen row = n /\ (forall c, 0 <= c < j -> zn 0%R row c = f (k0 + c)) /\ ss = rsum j (fun j => f (k0 + j)) /\ k = k0 + j) 0 n G S)
      as ([[row ss] k] & E & L1 & V & -> & ->) end.
    - lia.
    - splits; auto; try lia; try (intros; lia).
    - intros j [[row ss] k] Hj (L1 & V & -> & ->). cbv zeta. rewrite aset_OK by lia. cbn [bind]. eexists; split; [reflexivity|]. cbv beta iota.
      splits; [zl; lia| | |lia].
      + intros c Hc. rewrite zn_upd by lia. destruct (Z.eqb_spec c j); [now subst|]. apply V. lia.
      + now rewrite rsum_S by lia.
    - rewrite E. do 3 f_equal. apply (zn_ext 0%R); [zl; lia|]. intros c Hc. rewrite zn_ztab by lia. apply V. lia.
  Qed.

  Theorem hmm_init_ok : exists m, hmm_init junk rnd x T L N = OK m /\ model_ok L N m /\ positive_model N m /\
    (forall i d, 0 <= i < N -> 0 <= d < L -> (Rabs (ent 0 (mmu m) i d - mean d) <= sqrt (variance d) / 4)%R) /\
    (forall d e, 0 <= d < L -> 0 <= e < L -> ent 0%R (mcov m) d e = if d =? e then variance d else 0%R).
  Proof.
    unfold hmm_init. rewrite (for_up_tab L _ mean); [|unfold new1; zl; lia|].
    2: { intros d s Hd _ _ _. rewrite (sum_up_ok T _ (fun t => ent 0%R x t d)).
         - cbn [bind]. now rewrite Rplus_0_l.
         - lia.
         - intros t Ht. apply mget_OK with (n := T) (k := L); auto. }
    cbn [bind]. rewrite skipn_zlen by (unfold new1; zl; lia). rewrite app_nil_r.
    rewrite (for_rows L L _ (fun d e => if d =? e then variance d else 0%R)); auto; [|unfold new2, new1; apply shape_repeat; lia|].
    2: { intros d s Hd Ls Rs _ _. rewrite (aget_OK []) by lia. cbn [bind].
         rewrite (for_up_tab L _ (fun _ => 0%R)); [|rewrite Rs; lia|reflexivity]. cbn [bind].
         rewrite skipn_zlen by (rewrite Rs; lia). rewrite app_nil_r. rewrite (aget_OK 0%R) by (zl; lia). cbn [bind].
         rewrite zn_ztab by lia. rewrite (sum_up_ok T _ (fun t => (ent 0 x t d - mean d) * (ent 0 x t d - mean d))%R); [|lia|].
         - cbn [bind]. rewrite aset_OK by (zl; lia). cbn [bind]. f_equal. apply (zn_ext 0%R); [zl; lia|]. intros e He. revert He. zl. intros He.
           rewrite zn_upd by (zl; lia). rewrite !zn_ztab by lia. rewrite (Z.eqb_sym d e). destruct (Z.eqb_spec e d); auto. rewrite Rplus_0_l. reflexivity.
         - intros t Ht. rewrite (mget_OK 0%R T L) by auto. cbn [bind]. rewrite (aget_OK 0%R) by (zl; lia). cbn [bind]. now rewrite zn_ztab by lia. }
    cbn [bind]. set (cov := tab2 L L _).
    match goal with |- context [for_up 0 N ?G (new2 junk N L, 0)] =>
      destruct (for_up_inv (fun i '((mu, k) : list (list R) * Z) => shape N L mu /\
        forall r d, 0 <= r < i -> 0 <= d < L -> (Rabs (ent 0 mu r d - mean d) <= sqrt (variance d) / 4)%R) 0 N G (new2 junk N L, 0))
      as ([mu k] & E & Sm & Vm) end.
    { lia. }
    { split; [unfold new2, new1; apply shape_repeat; lia|]. intros; lia. }
    { intros i [mu k] Hi (Sm & Vm). rewrite (aget_OK []) by (destruct Sm; lia). cbn [bind].
      match goal with |- context [for_up 0 L ?G ?S] =>
        destruct (for_up_inv (fun d '((row, k) : list R * Z) => zlen row = L /\
          forall c, 0 <= c < d -> (Rabs (zn 0 row c - mean c) <= sqrt (variance c) / 4)%R) 0 L G S) as ([row k'] & E & L1 & V) end.
      - lia.
      - split; [apply Sm; lia|]. intros; lia.
      - intros d [row k'] Hd (L1 & V). rewrite (aget_OK 0%R) by (zl; lia). cbn [bind].
        rewrite (mget_OK 0%R L L) by (auto; apply shape_tab2; lia). cbn [bind]. rewrite aset_OK by lia. cbn [bind].
        eexists; split; [reflexivity|]. cbv beta iota. split; [zl; lia|]. intros c Hc. rewrite zn_upd by lia.
        destruct (Z.eqb_spec c d) as [->|]; [|apply V; lia]. rewrite zn_ztab by lia. unfold cov. rewrite ent_tab2 by lia. rewrite Z.eqb_refl.
        match goal with |- (Rabs ?e <= _)%R => replace e with ((1 / 2 * rnd k' - 1 / 4) * sqrt (variance d))%R by ring end.
        rewrite Rabs_mult. rewrite (Rabs_pos_eq (sqrt _)) by apply sqrt_pos. pose proof (sqrt_pos (variance d)).
        assert (Rabs (1 / 2 * rnd k' - 1 / 4) <= 1 / 4)%R by (specialize (Hr k'); apply Rabs_le; lra). nra.
      - rewrite E. cbn [bind]. rewrite aset_OK by (destruct Sm; lia). cbn [bind]. eexists; split; [reflexivity|]. cbv beta iota. split.
        + destruct Sm as [Lm Rm]. split; [zl; lia|]. intros r Hr'. rewrite zn_upd by lia. destruct (Z.eqb_spec r i); auto.
        + intros r d Hr' Hd. unfold ent. rewrite zn_upd by (destruct Sm; lia). destruct (Z.eqb_spec r i) as [->|]; [apply V; lia|].
          apply Vm; lia. }
    rewrite E. cbn [bind]. clear E.
    match goal with |- context [for_up 0 N ?G (new1 junk N, new2 junk N N, 0%R, k)] =>
      destruct (for_up_inv (fun i '((p0, a, s, k) : list R * list (list R) * R * Z) => zlen p0 = N /\ shape N N a /\
        (forall c, 0 <= c < i -> (1 <= zn 0 p0 c)%R) /\ s = rsum i (zn 0%R p0) /\
        (forall r, 0 <= r < i -> (forall c, 0 <= c < N -> (0 < ent 0 a r c)%R) /\ rsum N (ent 0%R a r) = 1%R)) 0 N G (new1 junk N, new2 junk N N, 0%R, k))
      as ([[[p0 a] s] k'] & E & L1 & Sa & V1 & -> & V2) end.
    { lia. }
    { split; [unfold new1; zl; lia|]. split; [unfold new2, new1; apply shape_repeat; lia|]. split; [intros; lia|]. split; [now rewrite rsum_0 by lia|]. intros; lia. }
    { intros i [[[p0 a] s] k1] Hi (L1 & Sa & V1 & -> & V2). cbv zeta. rewrite aset_OK by lia. cbn [bind].
      rewrite (aget_OK []) by (destruct Sa; lia). cbn [bind].
      rewrite (fill_seq N (k1 + 1) (fun k => (1 + rnd k)%R)) by (try lia; apply Sa; lia). cbn [bind].
      rewrite map_row_ok by lia. cbn [bind]. rewrite aset_OK by (destruct Sa; lia). cbn [bind]. eexists; split; [reflexivity|]. cbv beta iota.
      set (ss := rsum N _). set (row := ztab N _).
      assert (Hs : (0 < ss)%R). { apply rsum_pos; [lia|]. intros j Hj. specialize (Hr (k1 + 1 + j)). lra. }
      splits; [zl; lia| | | |].
      - destruct Sa as [La Ra]. split; [zl; lia|]. intros r Hr'. rewrite zn_upd by lia. destruct (Z.eqb_spec r i); auto. unfold row. zl. lia.
      - intros c Hc. rewrite zn_upd by lia. destruct (Z.eqb_spec c i); [specialize (Hr k1); lra|]. apply V1. lia.
      - rewrite rsum_S by lia. f_equal; [|rewrite zn_upd by lia; now rewrite Z.eqb_refl].
        apply rsum_ext. intros c Hc. rewrite zn_upd by lia. destruct (Z.eqb_spec c i); [lia|auto].
      - intros r Hr'. destruct (Z.eq_dec r i) as [->|].
        + assert (EV : forall c, 0 <= c < N -> ent 0%R (upd a (Z.to_nat i) row) i c = ((1 + rnd (k1 + 1 + c)%Z) / ss)%R).
          { intros c Hc. unfold ent. rewrite zn_upd by (destruct Sa; lia). rewrite Z.eqb_refl. unfold row. now rewrite zn_ztab by lia. }
          split.
          * intros c Hc. rewrite EV by lia. apply Rdiv_lt_0_compat; auto. specialize (Hr (k1 + 1 + c)). lra.
          * rewrite (rsum_ext N _ (fun c => / ss * (1 + rnd (k1 + 1 + c)%Z))%R) by (intros c Hc; rewrite EV by lia; unfold Rdiv; ring).
            rewrite rsum_scal. fold ss. field. lra.
        + assert (EV : forall c, 0 <= c < N -> ent 0%R (upd a (Z.to_nat i) row) r c = ent 0%R a r c).
          { intros c Hc. unfold ent. rewrite zn_upd by (destruct Sa; lia). destruct (Z.eqb_spec r i); [lia|auto]. }
          destruct (V2 r ltac:(lia)) as [W1 W2]. split; [intros c Hc; rewrite EV by lia; now apply W1|].
          rewrite <- W2. apply rsum_ext. auto. }
    rewrite E. cbn [bind]. clear E.
    assert (Hs : (0 < rsum N (zn 0%R p0))%R). { apply rsum_pos; [lia|]. intros i Hi. specialize (V1 i Hi). lra. }
    assert (Ep : map_row N (fun v => v / rsum N (zn 0 p0))%R p0 = OK (ztab N (fun i => zn 0 p0 i / rsum N (zn 0 p0))%R)).
    { rewrite <- (map_row_ok N (fun v => v / rsum N (zn 0 p0))%R) by lia. f_equal. rewrite <- L1. symmetry. apply ztab_zn. }
    rewrite Ep. cbn [bind]. eexists; split; [reflexivity|].
    unfold model_ok, positive_model. cbn [mN mL mp0 ma mmu mcov]. splits; auto.
    - zl. lia.
    - apply shape_tab2; lia.
    - intros i Hi. rewrite zn_ztab by lia. apply Rdiv_lt_0_compat; auto. specialize (V1 i Hi). lra.
    - rewrite (rsum_ext N _ (fun i => / rsum N (zn 0%R p0) * zn 0%R p0 i)%R) by (intros i Hi; rewrite zn_ztab by lia; unfold Rdiv; ring).
      rewrite rsum_scal. field. lra.
    - intros i j Hi Hj. now apply V2.
    - intros i Hi. now apply V2.
    - intros d e Hd He. unfold cov. now rewrite ent_tab2 by lia.
  Qed.
End Init.
