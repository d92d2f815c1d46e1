(** cq2chroma and mpeg7_constq. *)
From Coq Require Import List ZArith Reals Lia Lra Bool.
From Verif.Base Require Import Imp Sums Arith RealOps Loops Matrix.
From Verif.Hmm Require Import HmmBaum.
From Verif.Seg Require Import SegModel SegSpec.
Import ListNotations.
Open Scope Z_scope.

Lemma cq2chroma_ok cq nframes w ncoeff bins chroma : 0 <= nframes -> shape nframes w cq -> 0 <= ncoeff <= w -> 1 <= bins -> shape nframes bins chroma ->
  cq2chroma cq nframes ncoeff bins chroma = OK (tab2 nframes bins (fun t b => folded bins (Z.quot ncoeff bins) (ent 0%R cq t) b)).
Proof.
  intros Hn Sq Hw Hb Sc. unfold cq2chroma. destruct (Z.eqb_spec bins 0); [lia|].
  pose proof (Z.quot_pos ncoeff bins ltac:(lia) ltac:(lia)) as Hq. set (noct := Z.quot ncoeff bins) in *.
  assert (Hnb : noct * bins <= ncoeff). { unfold noct. rewrite Z.quot_div_nonneg by lia. rewrite Z.mul_comm. apply Z.mul_div_le. lia. }
  apply for_rows; auto; try lia. intros t s Ht Ls Rs _ _. rewrite (aget_OK []) by lia. cbn [bind].
  assert (Lr : zlen (zn [] s t) = bins) by (apply Rs; lia).
  rewrite (for_up_tab bins _ (fun _ => 0%R)) by (auto; lia). cbn [bind]. rewrite skipn_zlen by lia. rewrite app_nil_r.
  match goal with |- bind (for_up 0 noct ?F ?S) _ = _ =>
    destruct (for_up_inv (fun o r => r = ztab bins (folded bins o (ent 0%R cq t))) 0 noct F S) as (r & E & ->) end.
  - lia.
  - apply ztab_ext. intros b Hb'. unfold folded. now rewrite rsum_0 by lia.
  - intros o r Ho ->. eexists. split; [|reflexivity].
    rewrite (for_up_tab bins _ (folded bins (o + 1) (ent 0%R cq t))).
    + rewrite skipn_zlen by (zl; lia). now rewrite app_nil_r.
    + zl; lia.
    + intros b r Hb' Lb Ob _. rewrite (aget_OK 0%R) by (revert Lb; zl; lia). cbn [bind].
      assert (o * bins + b < ncoeff) by nia.
      rewrite (mget_OK 0%R nframes w) by (auto; nia). cbn [bind]. rewrite Ob by lia. rewrite zn_ztab by lia.
      unfold folded. now rewrite rsum_S by lia.
  - rewrite E. reflexivity.
Qed.

Lemma decibels_to_db v : to_db v = decibels v.
Proof. reflexivity. Qed.

(** v is the largest of the first n values, or 0. *)
Definition largest (n : Z) (f : Z -> R) (v : R) : Prop :=
  (forall i, 0 <= i < n -> (f i <= v)%R) /\ (v = 0%R \/ exists i, 0 <= i < n /\ v = f i).

Lemma mpeg7_constq_ok features nframes ncoeff : 0 <= nframes -> 0 <= ncoeff -> shape nframes (ncoeff + 1) features ->
  let db i j := decibels (ent 0%R features i j) in
  let env i := norm_of ncoeff (db i) in
  exists top, largest nframes env top /\
    mpeg7_constq features nframes ncoeff =
      OK (tab2 nframes (ncoeff + 1) (fun i j => if j =? ncoeff then (env i / top)%R else (db i j / env i)%R)).
Proof.
  intros Hn Hc Sf db env. unfold mpeg7_constq.
  rewrite (for_rows nframes (ncoeff + 1) _ (fun i j => if j =? ncoeff then ent 0%R features i j else db i j)); auto; try lia.
  2:{ intros i s Hi Ls Rs _ Os. rewrite (aget_OK []) by lia. cbn [bind].
      assert (Lr : zlen (zn [] s i) = ncoeff + 1) by (apply Rs; lia).
      rewrite (for_up_tab ncoeff _ (db i)).
      - cbn [bind]. f_equal. apply (zn_ext 0%R); [zl; lia|]. intros j Hj. revert Hj. zl. intros Hj. rewrite zn_app. zl.
        rewrite (zn_ztab 0%R (ncoeff + 1)) by lia. destruct (Z.eqb_spec j ncoeff), (Z.ltb_spec j (Z.max 0 ncoeff)); try lia.
        + rewrite zn_skipn by lia. rewrite Os by lia. unfold ent. f_equal. lia.
        + now rewrite zn_ztab by lia.
      - lia.
      - intros j r Hj Lj Oj _. rewrite (aget_OK 0%R) by lia. cbn [bind]. rewrite Oj by lia. rewrite Os by lia. reflexivity. }
  cbn [bind]. set (f1 := tab2 _ _ _).
  assert (S1 : shape nframes (ncoeff + 1) f1) by (apply shape_tab2; lia).
  assert (V1 : forall i j, 0 <= i < nframes -> 0 <= j < ncoeff -> ent 0%R f1 i j = db i j).
  { intros i j Hi Hj. unfold f1. rewrite ent_tab2 by lia. destruct (Z.eqb_spec j ncoeff); [lia|reflexivity]. }
  match goal with |- exists top, _ /\ bind (for_up 0 nframes ?F ?S) _ = _ =>
    destruct (for_up_inv (fun i '((f, top) : list (list R) * R) => shape nframes (ncoeff + 1) f /\ largest i env top /\
      (forall r, 0 <= r < i -> zn [] f r = ztab (ncoeff + 1) (fun j => if j =? ncoeff then env r else (db r j / env r)%R)) /\
      (forall r, i <= r -> zn [] f r = zn [] f1 r)) 0 nframes F S) as ([f2 top] & E2 & S2 & L2 & D2 & _) end.
  - lia.
  - split; [exact S1|]. split; [|split; [intros; lia|auto]]. split; [intros; lia|now left].
  - intros i [f top] Hi (Sf' & La & Do & Ot). rewrite (aget_OK []) by (destruct Sf'; lia). cbn [bind].
    assert (Lr : zlen (zn [] f i) = ncoeff + 1) by (apply Sf'; lia).
    assert (Vr : forall j, 0 <= j < ncoeff -> zn 0%R (zn [] f i) j = db i j) by (intros; rewrite Ot by lia; now apply V1).
    rewrite (for_up_fsum 0%R Rplus ncoeff _ (fun j => db i j * db i j)%R); [|lia|].
    2:{ intros j acc Hj. rewrite (aget_OK 0%R) by lia. cbn [bind]. now rewrite Vr by lia. }
    cbn [bind]. change (sqrt (fsum 0%R Rplus ncoeff (fun j => db i j * db i j)%R)) with (env i).
    rewrite (for_up_tab ncoeff _ (fun j => db i j / env i)%R); [|lia|].
    2:{ intros j r Hj Lj Oj _. rewrite (aget_OK 0%R) by lia. cbn [bind]. rewrite Oj by lia. now rewrite Vr by lia. }
    cbn [bind]. rewrite aset_OK by (zl; lia). cbn [bind]. rewrite aset_OK by (destruct Sf'; lia). cbn [bind].
    eexists. split; [reflexivity|]. set (row := upd (ztab _ _ ++ _) _ _).
    assert (Er : row = ztab (ncoeff + 1) (fun j => if j =? ncoeff then env i else (db i j / env i)%R)).
    { unfold row. apply (zn_ext 0%R); [zl; lia|]. intros j Hj. revert Hj. zl. intros Hj. rewrite zn_upd by (zl; lia). rewrite (zn_ztab 0%R (ncoeff + 1)) by lia.
      destruct (Z.eqb_spec j ncoeff); auto. rewrite zn_app. zl. destruct (Z.ltb_spec j (Z.max 0 ncoeff)); [|lia]. now rewrite zn_ztab by lia. }
    assert (Lrow : zlen row = ncoeff + 1) by (rewrite Er; zl; lia).
    destruct Sf' as [Lf Rf]. split; [|split; [|split]].
    + split; [zl; lia|]. intros r Hr. rewrite zn_upd by lia. destruct (Z.eqb_spec r i); auto.
    + destruct La as [Lu Le]. destruct (Rltb_spec top (env i)) as [H|H].
      * split; [|right; exists i; split; [lia|reflexivity]]. intros r Hr. destruct (Z.eq_dec r i) as [->|]; [lra|].
        assert (env r <= top)%R by (apply Lu; lia). lra.
      * split; [intros r Hr; destruct (Z.eq_dec r i) as [->|]; [lra|apply Lu; lia]|].
        destruct Le as [Le|(r & Hr & Le)]; [now left|right; exists r; split; [lia|auto]].
    + intros r Hr. rewrite zn_upd by lia. destruct (Z.eqb_spec r i) as [->|]; [exact Er|apply Do; lia].
    + intros r Hr. destruct (Z_lt_le_dec r nframes).
      * rewrite zn_upd by lia. destruct (Z.eqb_spec r i); [lia|apply Ot; lia].
      * rewrite !zn_out; auto; right; unfold f1, tab2; zl; lia.
  - exists top. split; [exact L2|]. rewrite E2. cbn [bind].
    apply for_rows; auto; try lia. intros i s Hi Ls Rs _ Os. rewrite (aget_OK []) by lia. cbn [bind].
    assert (Er : zn [] s i = ztab (ncoeff + 1) (fun j => if j =? ncoeff then env i else (db i j / env i)%R)) by (rewrite Os by lia; apply D2; lia).
    rewrite Er. rewrite (aget_OK 0%R) by (zl; lia). cbn [bind]. rewrite aset_OK by (zl; lia). cbn [bind]. f_equal.
    apply (zn_ext 0%R); [zl; lia|]. intros j Hj. revert Hj. zl. intros Hj. rewrite zn_upd by (zl; lia). rewrite !zn_ztab by lia.
    rewrite Z.eqb_refl. destruct (Z.eqb_spec j ncoeff); auto.
Qed.

(** What a caller sees: frames of unit norm, and levels relative to the loudest frame. *)
Theorem mpeg7_constq_normal features nframes ncoeff : 1 <= nframes -> 0 <= ncoeff -> shape nframes (ncoeff + 1) features ->
  let env i := norm_of ncoeff (fun j => decibels (ent 0%R features i j)) in
  exists f', mpeg7_constq features nframes ncoeff = OK f' /\ shape nframes (ncoeff + 1) f' /\
    (forall i, 0 <= i < nframes -> (env i <> 0)%R -> norm_of ncoeff (ent 0%R f' i) = 1%R /\
      forall j, 0 <= j < ncoeff -> (env i * ent 0 f' i j = decibels (ent 0 features i j))%R) /\
    ((exists i, 0 <= i < nframes /\ (env i <> 0)%R) ->
      (forall i, 0 <= i < nframes -> (0 <= ent 0 f' i ncoeff <= 1)%R) /\ (exists i, 0 <= i < nframes /\ ent 0%R f' i ncoeff = 1%R) /\
      forall i r, 0 <= i < nframes -> 0 <= r < nframes -> (ent 0 f' i ncoeff * env r = ent 0 f' r ncoeff * env i)%R).
Proof.
  intros Hn Hc Sf env. destruct (mpeg7_constq_ok features nframes ncoeff) as (top & [Lu Le] & E); auto; try lia. fold env in Lu, Le, E.
  change (forall i, 0 <= i < nframes -> (env i <= top)%R) in Lu. change (top = 0%R \/ exists i, 0 <= i < nframes /\ top = env i) in Le.
  set (f' := tab2 _ _ _) in E.
  assert (V : forall i, 0 <= i < nframes -> ent 0%R f' i ncoeff = (env i / top)%R).
  { intros i Hi. unfold f'. rewrite ent_tab2 by lia. now rewrite Z.eqb_refl. }
  assert (W : forall i j, 0 <= i < nframes -> 0 <= j < ncoeff -> ent 0%R f' i j = (decibels (ent 0 features i j) / env i)%R).
  { intros i j Hi Hj. unfold f'. rewrite ent_tab2 by lia. destruct (Z.eqb_spec j ncoeff); [lia|reflexivity]. }
  exists f'. split; [exact E|]. split; [apply shape_tab2; lia|]. split.
  - intros i Hi Ne. split.
    + unfold norm_of. rewrite (rsum_ext ncoeff _ (fun j => / (env i * env i) * (decibels (ent 0 features i j) * decibels (ent 0 features i j)))%R).
      2:{ intros j Hj. rewrite W by lia. field. exact Ne. }
      rewrite rsum_scal. set (S := rsum ncoeff _).
      assert (ES : (env i * env i = S)%R). { apply sqrt_sqrt. apply rsum_nonneg. intros; apply Rle_0_sqr. }
      rewrite <- ES. rewrite Rinv_l; [apply sqrt_1|]. nra.
    + intros j Hj. rewrite W by lia. field. exact Ne.
  - intros (i0 & Hi0 & Ne).
    assert (Pos : forall i, (0 <= env i)%R) by (intros; apply sqrt_pos).
    assert (Pt : (0 < top)%R). { specialize (Lu i0 Hi0). specialize (Pos i0). lra. }
    split; [|split].
    + intros i Hi. rewrite V by lia. split.
      * apply Rmult_le_pos; [apply Pos|]. now apply Rlt_le, Rinv_0_lt_compat.
      * apply (Rmult_le_reg_r top); auto. unfold Rdiv. rewrite Rmult_assoc, Rinv_l, Rmult_1_l, Rmult_1_r by lra. now apply Lu.
    + destruct Le as [Le|(i & Hi & Le)]; [lra|]. exists i. split; auto. rewrite V by lia. rewrite <- Le. field. lra.
    + intros i r Hi Hr. rewrite !V by lia. field. lra.
Qed.
