(** The butterflies of kiss_fft combine the p transforms of size m into one of size p m. *)
From Coq Require Import Reals ZArith Lia Lra List Bool Ring.
From Verif.Base Require Import Imp Sums RealOps Loops.
From Verif.Fft Require Import Cplx FftModel.
Import ListNotations.
Open Scope Z_scope.

(** *** Small roots of unity *)
Definition sg (inv : bool) : Z := if inv then 1 else -1.

Lemma root_cong n a b k : n <> 0 -> a = b + n * k -> root n a = root n b.
Proof. intros H ->. now apply root_period. Qed.

Lemma root_2_1 : root 2 1 = copp c1.
Proof.
  unfold root. replace (2 * PI * 1 / 2)%R with PI by field.
  unfold cis, copp, c1. rewrite cos_PI, sin_PI. cbn. f_equal; ring.
Qed.
Lemma root_4_1 : root 4 1 = (0, 1)%R.
Proof.
  unfold root. replace (2 * PI * 1 / 4)%R with (PI / 2)%R by field.
  unfold cis. now rewrite cos_PI2, sin_PI2.
Qed.
Lemma root_3_1 : fst (root 3 1) = (-1 / 2)%R.
Proof.
  unfold root. replace (2 * PI * 1 / 3)%R with (2 * (PI / 3))%R by field.
  unfold cis. cbn [fst]. now rewrite cos_2PI3.
Qed.
Lemma root_3_s inv : root 3 (sg inv) = (-1 / 2, snd (root 3 (sg inv)))%R.
Proof.
  apply cplx_eq; [|reflexivity]. cbn [fst]. rewrite <- root_3_1. destruct inv; [reflexivity|].
  cbn [sg]. change (-1) with (- (1)). rewrite root_opp. reflexivity.
Qed.

Lemma csum_2 f : csum 2 f = cadd (f 0) (f 1).
Proof.
  change 2 with (0 + 1 + 1). rewrite !csum_S by lia. rewrite csum_0 by lia.
  change (0 + 1) with 1. ring.
Qed.
Lemma csum_3 f : csum 3 f = cadd (cadd (f 0) (f 1)) (f 2).
Proof. change 3 with (2 + 1). rewrite csum_S, csum_2 by lia. reflexivity. Qed.
Lemma csum_4 f : csum 4 f = cadd (cadd (cadd (f 0) (f 1)) (f 2)) (f 3).
Proof. change 4 with (3 + 1) at 1. rewrite csum_S, csum_3 by lia. reflexivity. Qed.
Lemma csum_5 f : csum 5 f = cadd (cadd (cadd (cadd (f 0) (f 1)) (f 2)) (f 3)) (f 4).
Proof. change 5 with (4 + 1) at 1. rewrite csum_S, csum_4 by lia. reflexivity. Qed.

Lemma bool_cases (b : bool) : b = true \/ b = false.
Proof. destruct b; auto. Qed.

Lemma idx_range p m u q : 0 <= u < m -> 0 <= q < p -> 0 <= u + q * m < p * m.
Proof. intros. nia. Qed.
Lemma idx_sep m u u' q q' : 0 <= u < m -> 0 <= u' < m -> u + q * m = u' + q' * m -> u = u' /\ q = q'.
Proof. intros. assert (q = q') by nia. subst. lia. Qed.

(** *** Butterflies *)
Section Bfly.
  Variable st : cfg.
  Let N := nfft st.
  Let s := sg (inverse st).
  Hypothesis Ntw : zlen (twiddles st) = N.
  Hypothesis Npos : 0 < N.
  Hypothesis Htw : forall i, 0 <= i < N -> zn c0 (twiddles st) i = root N (s * i).

  Section Stage.
    Variables (p m fstride off L : Z).
    Hypothesis Hp : 1 <= p.
    Hypothesis Hm : 1 <= m.
    Hypothesis Hfs : 1 <= fstride.
    Hypothesis HN : fstride * p * m = N.
    Hypothesis Hoff : 0 <= off.
    Hypothesis HL : off + p * m <= L.

    Definition stage_val (F : list cplx) (u q1 : Z) : cplx :=
      csum p (fun q => cmul (zn c0 F (off + (u + q * m))) (root N (s * (fstride * (u + q1 * m) * q)))).

    (** What one pass [u] of a butterfly does. *)
    Definition pass_ok (u : Z) (F F' : list cplx) : Prop :=
      zlen F' = L /\
      (forall i, 0 <= i -> (forall q, 0 <= q < p -> i <> off + (u + q * m)) -> zn c0 F' i = zn c0 F i) /\
      (forall q1, 0 <= q1 < p -> zn c0 F' (off + (u + q1 * m)) = stage_val F u q1).

    Definition stage_ok (F F' : list cplx) : Prop :=
      zlen F' = L /\
      (forall i, 0 <= i -> (i < off \/ off + p * m <= i) -> zn c0 F' i = zn c0 F i) /\
      (forall u q1, 0 <= u < m -> 0 <= q1 < p -> zn c0 F' (off + (u + q1 * m)) = stage_val F u q1).

    Lemma stage_loop body F :
      zlen F = L ->
      (forall u F, 0 <= u < m -> zlen F = L -> exists F', body u F = OK F' /\ pass_ok u F F') ->
      exists F', for_up 0 m body F = OK F' /\ stage_ok F F'.
    Proof.
      intros LF Hb.
      destruct (for_up_inv (fun i G => zlen G = L /\
         (forall j, 0 <= j -> (forall u q, 0 <= u < i -> 0 <= q < p -> j <> off + (u + q * m)) -> zn c0 G j = zn c0 F j) /\
         (forall u q1, 0 <= u < i -> 0 <= q1 < p -> zn c0 G (off + (u + q1 * m)) = stage_val F u q1)) 0 m body F)
        as (F' & E & I1 & I2 & I3); [lia| | |].
      - splits; auto. intros; lia.
      - intros u G Hu (I1 & I2 & I3). destruct (Hb u G) as (F' & E & P1 & P2 & P3); [lia|auto|].
        exists F'. split; [auto|]. splits; auto.
        + intros j Hj N1. rewrite P2; auto.
          * apply I2; auto. intros u' q Hu' Hq. apply N1; lia.
          * intros q Hq. apply N1; lia.
        + intros u' q1 Hu' Hq. destruct (Z.eq_dec u' u) as [->|Ne].
          * rewrite P3 by lia. unfold stage_val. apply csum_ext. intros q Hq'. f_equal.
            apply I2; [nia|]. intros u'' q'' ? ? E2. destruct (idx_sep m u u'' q q''); lia.
          * rewrite P2; [apply I3; lia|nia|]. intros q Hq' E2. destruct (idx_sep m u' u q1 q); lia.
      - exists F'. split; auto. unfold stage_ok. splits; auto.
        intros i Hi O. apply I2; auto. intros u q Hu Hq. pose proof (idx_range p m u q Hu Hq). lia.
    Qed.

    Lemma stage_root u q1 q :
      root N (s * (fstride * (u + q1 * m) * q)) = cmul (root N (s * (u * fstride * q))) (root p (s * (q1 * q))).
    Proof.
      replace (s * (fstride * (u + q1 * m) * q)) with (s * (u * fstride * q) + (s * (q1 * q)) * (fstride * m)) by lia.
      rewrite root_add. f_equal. replace N with (p * (fstride * m)) by lia. apply root_scale; nia.
    Qed.

    Lemma tw_get i : 0 <= i < N -> aget (twiddles st) i = OK (root N (s * i)).
    Proof. intros. rewrite (aget_OK c0) by lia. now rewrite Htw. Qed.

    Lemma tw_range q u : 0 <= q < p -> 0 <= u < m -> 0 <= u * (fstride * q) < N.
    Proof. intros. rewrite <- HN. split; [nia|]. assert (u * q < m * p) by nia. nia. Qed.
  End Stage.

  Ltac caseq q1 := let H := fresh in
    assert (H : q1 = 0 \/ q1 = 1 \/ q1 = 2 \/ q1 = 3 \/ q1 = 4) by lia;
    destruct H as [->|[->|[->|[->| ->]]]]; try lia.
  Ltac eqbs := repeat match goal with |- context [?a =? ?b] => destruct (Z.eqb_spec a b); [try lia | try lia] end.
  Ltac seen H := first [exact H | lia].

  Lemma bfly2_ok m fstride off L F :
    1 <= m -> 1 <= fstride -> fstride * 2 * m = N -> 0 <= off -> off + 2 * m <= L -> zlen F = L ->
    exists F', kf_bfly2 F off fstride st m = OK F' /\ stage_ok 2 m fstride off L F F'.
  Proof.
    intros Hm Hfs HN Hoff HL LF. apply stage_loop; try lia.
    intros u G Hu LG. rewrite tw_get by nia. ret.
    rewrite (aget_OK c0) by lia. ret. rewrite (aget_OK c0) by lia. ret.
    rewrite aset_OK by lia. ret. rewrite (aget_OK c0) by (zl; lia). ret. rewrite aset_OK by (zl; lia).
    eexists; split; [reflexivity|]. unfold pass_ok. splits.
    - zl. lia.
    - intros i Hi Ni. pose proof (Ni 0 ltac:(lia)). pose proof (Ni 1 ltac:(lia)).
      rewrite !zn_upd by (zl; lia). eqbs. reflexivity.
    - intros q1 Hq. unfold stage_val. rewrite csum_2. rewrite !(stage_root 2 m) by lia.
      caseq q1; rewrite !zn_upd by (zl; lia); eqbs.
      + rewrite ?Z.mul_0_r, ?root_0. replace (off + (u + 0 * m)) with (off + u) by lia.
        replace (off + (u + 1 * m)) with (off + m + u) by lia. replace (u * fstride * 1) with (u * fstride) by lia.
        change (0 * 1) with 0. rewrite ?Z.mul_0_r, ?root_0. ring.
      + rewrite ?Z.mul_0_r, ?root_0. replace (off + (u + 0 * m)) with (off + u) by lia.
        replace (off + (u + 1 * m)) with (off + m + u) by lia. replace (u * fstride * 1) with (u * fstride) by lia.
        replace (s * (1 * 1)) with s by lia.
        replace (root 2 s) with (copp c1); [ring|]. rewrite <- root_2_1. unfold s, sg. destruct (inverse st); [reflexivity|].
        apply (root_cong 2 1 (-1) 1); lia.
  Qed.

  Lemma bfly3_ok m fstride off L F :
    1 <= m -> 1 <= fstride -> fstride * 3 * m = N -> 0 <= off -> off + 3 * m <= L -> zlen F = L ->
    exists F', kf_bfly3 F off fstride st m = OK F' /\ stage_ok 3 m fstride off L F F'.
  Proof.
    intros Hm Hfs HN Hoff HL LF. unfold kf_bfly3. rewrite tw_get by nia. ret.
    replace (root N (s * (fstride * m))) with (root 3 s)
      by (replace N with (3 * (fstride * m)) by lia; symmetry; apply root_scale; nia).
    apply stage_loop; try lia.
    intros u G Hu LG. cbv zeta. rewrite !tw_get by nia. ret. ret.
    do 3 (rewrite (aget_OK c0) by lia; ret).
    do 3 (rewrite aset_OK by (zl; lia); try ret).
    eexists; split; [reflexivity|]. unfold pass_ok. splits.
    - zl. lia.
    - intros i Hi Ni. pose proof (Ni 0 ltac:(lia)). pose proof (Ni 1 ltac:(lia)). pose proof (Ni 2 ltac:(lia)).
      rewrite !zn_upd by (zl; lia). eqbs. reflexivity.
    - intros q1 Hq. unfold stage_val. rewrite csum_3. rewrite !(stage_root 3 m) by lia.
      replace (off + (u + 0 * m)) with (off + u) by lia.
      replace (off + (u + 1 * m)) with (off + u + m) by lia.
      replace (off + (u + 2 * m)) with (off + u + 2 * m) by lia.
      replace (u * fstride * 1) with (u * fstride) by lia.
      replace (u * fstride * 2) with (u * (fstride * 2)) by lia.
      rewrite ?Z.mul_0_r, ?root_0.
      set (a := zn c0 G (off + u)). set (b := zn c0 G (off + u + m)). set (c := zn c0 G (off + u + 2 * m)).
      set (w1 := root N (s * (u * fstride))). set (w2 := root N (s * (u * (fstride * 2)))).
      pose proof (root_3_s (inverse st)) as R3. fold s in R3. set (y := snd (root 3 s)) in *.
      assert (R3' : root 3 (s * 2) = cconj (root 3 s)).
      { rewrite <- root_opp. apply (root_cong 3 _ _ s); lia. }
      caseq q1; rewrite !zn_upd by (zl; lia); eqbs; fold a b c.
      + change (0 * 1) with 0. change (0 * 2) with 0. rewrite ?Z.mul_0_r, ?root_0. ring.
      + replace (s * (1 * 1)) with s by lia. replace (s * (1 * 2)) with (s * 2) by lia. rewrite R3', R3.
        apply cplx_eq; cbn; lra.
      + replace (s * (2 * 1)) with (s * 2) by lia.
        rewrite (root_cong 3 (s * (2 * 2)) s s) by lia. rewrite R3', R3.
        apply cplx_eq; cbn; lra.
  Qed.

  Lemma bfly4_ok m fstride off L F :
    1 <= m -> 1 <= fstride -> fstride * 4 * m = N -> 0 <= off -> off + 4 * m <= L -> zlen F = L ->
    exists F', kf_bfly4 F off fstride st m = OK F' /\ stage_ok 4 m fstride off L F F'.
  Proof.
    intros Hm Hfs HN Hoff HL LF. unfold kf_bfly4.
    apply stage_loop; try lia.
    intros u G Hu LG. cbv zeta. rewrite !tw_get by nia. ret. ret. ret.
    do 4 (rewrite (aget_OK c0) by lia; ret).
    do 2 (rewrite aset_OK by (zl; lia); ret).
    set (a := zn c0 G (off + u)). set (b := zn c0 G (off + u + m)). set (c := zn c0 G (off + u + 2 * m)).
    set (d := zn c0 G (off + u + 3 * m)).
    set (w1 := root N (s * (u * fstride))). set (w2 := root N (s * (u * (fstride * 2)))).
    set (w3 := root N (s * (u * (fstride * 3)))).
    assert (R1 : root 4 s = (0, IZR s)%R).
    { unfold s, sg. destruct (inverse st); [apply root_4_1|]. change (-1) with (- (1)).
      rewrite root_opp, root_4_1. unfold cconj. cbn [fst snd]. f_equal. }
    assert (R2 : root 4 (s * 2) = copp c1).
    { rewrite <- root_2_1. rewrite <- (root_scale 2 1 2) by lia. change (2 * 2) with 4. change (1 * 2) with 2.
      unfold s, sg. destruct (inverse st); [reflexivity|]. apply (root_cong 4 _ _ (-1)); lia. }
    assert (R3 : root 4 (s * 3) = cconj (root 4 s)).
    { rewrite <- root_opp. apply (root_cong 4 _ _ s); lia. }
    assert (Q : forall F4, zlen F4 = L ->
       (forall i, 0 <= i -> (forall q, 0 <= q < 4 -> i <> off + (u + q * m)) -> zn c0 F4 i = zn c0 G i) ->
       zn c0 F4 (off + u) = cadd (cadd a (cmul c w2)) (cadd (cmul b w1) (cmul d w3)) ->
       zn c0 F4 (off + u + m) = cadd (csub a (cmul c w2)) (cmul (0, IZR s)%R (csub (cmul b w1) (cmul d w3))) ->
       zn c0 F4 (off + u + 2 * m) = csub (cadd a (cmul c w2)) (cadd (cmul b w1) (cmul d w3)) ->
       zn c0 F4 (off + u + 3 * m) = csub (csub a (cmul c w2)) (cmul (0, IZR s)%R (csub (cmul b w1) (cmul d w3))) ->
       pass_ok 4 m fstride off L u G F4).
    { intros F4 Lz Out V0 V1 V2 V3. unfold pass_ok. splits; auto.
      intros q1 Hq. unfold stage_val. rewrite csum_4. rewrite !(stage_root 4 m) by lia.
      replace (off + (u + 0 * m)) with (off + u) by lia.
      replace (off + (u + 1 * m)) with (off + u + m) by lia.
      replace (off + (u + 2 * m)) with (off + u + 2 * m) by lia.
      replace (off + (u + 3 * m)) with (off + u + 3 * m) by lia.
      replace (u * fstride * 1) with (u * fstride) by lia.
      replace (u * fstride * 2) with (u * (fstride * 2)) by lia.
      replace (u * fstride * 3) with (u * (fstride * 3)) by lia.
      rewrite ?Z.mul_0_r, ?root_0. fold a b c d w1 w2 w3.
      caseq q1.
      - replace (off + (u + 0 * m)) with (off + u) by lia. rewrite V0.
        change (0 * 1) with 0. change (0 * 2) with 0. change (0 * 3) with 0. rewrite ?Z.mul_0_r, ?root_0. ring.
      - replace (off + (u + 1 * m)) with (off + u + m) by lia. rewrite V1.
        replace (s * (1 * 1)) with s by lia. replace (s * (1 * 2)) with (s * 2) by lia. replace (s * (1 * 3)) with (s * 3) by lia.
        rewrite R2, R3, R1. apply cplx_eq; cbn; ring.
      - replace (off + (u + 2 * m)) with (off + u + 2 * m) by lia. rewrite V2.
        replace (s * (2 * 1)) with (s * 2) by lia.
        rewrite (root_cong 4 (s * (2 * 2)) 0 s) by lia. rewrite (root_cong 4 (s * (2 * 3)) (s * 2) s) by lia.
        rewrite R2, root_0. ring.
      - replace (off + (u + 3 * m)) with (off + u + 3 * m) by lia. rewrite V3.
        replace (s * (3 * 1)) with (s * 3) by lia.
        rewrite (root_cong 4 (s * (3 * 2)) (s * 2) s) by lia. rewrite (root_cong 4 (s * (3 * 3)) s (s * 2)) by lia.
        rewrite R2, R3, R1. apply cplx_eq; cbn; ring. }
    assert (Out4 : forall i, 0 <= i -> (forall q, 0 <= q < 4 -> i <> off + (u + q * m)) ->
        i <> off + u /\ i <> off + u + m /\ i <> off + u + 2 * m /\ i <> off + u + 3 * m).
    { intros i Hi Ni. pose proof (Ni 0 ltac:(lia)). pose proof (Ni 1 ltac:(lia)). pose proof (Ni 2 ltac:(lia)). pose proof (Ni 3 ltac:(lia)). lia. }
    pose proof (bool_cases (inverse st)) as Hinv.
    destruct Hinv as [EI|EI]; rewrite EI.
    - do 2 (rewrite aset_OK by (zl; lia); try ret). eexists; split; [reflexivity|].
      apply Q.
      + zl; lia.
      + intros i Hi Ni. destruct (Out4 i Hi Ni) as (?&?&?&?). rewrite !zn_upd by (zl; lia). eqbs. reflexivity.
      + rewrite !zn_upd by (zl; lia). eqbs. reflexivity.
      + rewrite !zn_upd by (zl; lia). eqbs. unfold s. rewrite EI. apply cplx_eq; cbn; ring.
      + rewrite !zn_upd by (zl; lia). eqbs. reflexivity.
      + rewrite !zn_upd by (zl; lia). eqbs. unfold s. rewrite EI. apply cplx_eq; cbn; ring.
    - do 2 (rewrite aset_OK by (zl; lia); try ret). eexists; split; [reflexivity|].
      apply Q.
      + zl; lia.
      + intros i Hi Ni. destruct (Out4 i Hi Ni) as (?&?&?&?). rewrite !zn_upd by (zl; lia). eqbs. reflexivity.
      + rewrite !zn_upd by (zl; lia). eqbs. reflexivity.
      + rewrite !zn_upd by (zl; lia). eqbs. unfold s. rewrite EI. apply cplx_eq; cbn; ring.
      + rewrite !zn_upd by (zl; lia). eqbs. reflexivity.
      + rewrite !zn_upd by (zl; lia). eqbs. unfold s. rewrite EI. apply cplx_eq; cbn; ring.
  Qed.

  Lemma bfly5_ok m fstride off L F :
    1 <= m -> 1 <= fstride -> fstride * 5 * m = N -> 0 <= off -> off + 5 * m <= L -> zlen F = L ->
    exists F', kf_bfly5 F off fstride st m = OK F' /\ stage_ok 5 m fstride off L F F'.
  Proof.
    intros Hm Hfs HN Hoff HL LF. unfold kf_bfly5. rewrite !tw_get by nia. ret. ret.
    replace (root N (s * (fstride * m))) with (root 5 s)
      by (replace N with (5 * (fstride * m)) by lia; symmetry; apply root_scale; nia).
    replace (root N (s * (fstride * 2 * m))) with (root 5 (s * 2))
      by (replace N with (5 * (fstride * m)) by lia; replace (s * (fstride * 2 * m)) with (s * 2 * (fstride * m)) by lia;
          symmetry; apply root_scale; nia).
    apply stage_loop; try lia.
    intros u G Hu LG. cbv zeta. rewrite (aget_OK c0) by lia. ret. rewrite !tw_get by nia. ret. ret. ret. ret.
    do 4 (rewrite (aget_OK c0) by lia; ret).
    do 5 (rewrite aset_OK by (zl; lia); try ret).
    eexists; split; [reflexivity|]. unfold pass_ok. splits.
    - zl. lia.
    - intros i Hi Ni. pose proof (Ni 0 ltac:(lia)). pose proof (Ni 1 ltac:(lia)). pose proof (Ni 2 ltac:(lia)).
      pose proof (Ni 3 ltac:(lia)). pose proof (Ni 4 ltac:(lia)).
      rewrite !zn_upd by (zl; lia). eqbs. reflexivity.
    - intros q1 Hq. unfold stage_val. rewrite csum_5. rewrite !(stage_root 5 m) by lia.
      replace (off + (u + 0 * m)) with (off + u) by lia.
      replace (off + (u + 1 * m)) with (off + u + m) by lia.
      replace (off + (u + 2 * m)) with (off + u + 2 * m) by lia.
      replace (off + (u + 3 * m)) with (off + u + 3 * m) by lia.
      replace (off + (u + 4 * m)) with (off + u + 4 * m) by lia.
      replace (u * fstride * 1) with (u * fstride) by lia.
      replace (u * fstride * 2) with (2 * u * fstride) by lia.
      replace (u * fstride * 3) with (3 * u * fstride) by lia.
      replace (u * fstride * 4) with (4 * u * fstride) by lia.
      rewrite ?Z.mul_0_r, ?root_0.
      set (a := zn c0 G (off + u)). set (b := zn c0 G (off + u + m)). set (c := zn c0 G (off + u + 2 * m)).
      set (d := zn c0 G (off + u + 3 * m)). set (e := zn c0 G (off + u + 4 * m)).
      set (w1 := root N (s * (u * fstride))). set (w2 := root N (s * (2 * u * fstride))).
      set (w3 := root N (s * (3 * u * fstride))). set (w4 := root N (s * (4 * u * fstride))).
      assert (R3 : root 5 (s * 3) = cconj (root 5 (s * 2))).
      { rewrite <- root_opp. apply (root_cong 5 _ _ s); lia. }
      assert (R4 : root 5 (s * 4) = cconj (root 5 s)).
      { rewrite <- root_opp. apply (root_cong 5 _ _ s); lia. }
      destruct (root 5 s) as [yar yai] eqn:Ea. destruct (root 5 (s * 2)) as [ybr ybi] eqn:Eb.
      caseq q1; rewrite !zn_upd by (zl; lia); eqbs; fold a b c d e.
      + change (0 * 1) with 0. change (0 * 2) with 0.
        change (0 * 3) with 0. change (0 * 4) with 0. rewrite ?Z.mul_0_r, ?root_0.
        apply cplx_eq; cbn; ring.
      + replace (s * (1 * 1)) with s by lia. replace (s * (1 * 2)) with (s * 2) by lia.
        replace (s * (1 * 3)) with (s * 3) by lia. replace (s * (1 * 4)) with (s * 4) by lia.
        rewrite R3, R4, Ea, Eb. apply cplx_eq; cbn; ring.
      + replace (s * (2 * 1)) with (s * 2) by lia. replace (s * (2 * 2)) with (s * 4) by lia.
        rewrite (root_cong 5 (s * (2 * 3)) s s) by lia. rewrite (root_cong 5 (s * (2 * 4)) (s * 3) s) by lia.
        rewrite R3, R4, Ea, Eb. apply cplx_eq; cbn; ring.
      + replace (s * (3 * 1)) with (s * 3) by lia.
        rewrite (root_cong 5 (s * (3 * 2)) s s) by lia. rewrite (root_cong 5 (s * (3 * 3)) (s * 4) s) by lia.
        rewrite (root_cong 5 (s * (3 * 4)) (s * 2) (s * 2)) by lia.
        rewrite R3, R4, Ea, Eb. apply cplx_eq; cbn; ring.
      + replace (s * (4 * 1)) with (s * 4) by lia.
        rewrite (root_cong 5 (s * (4 * 2)) (s * 3) s) by lia. rewrite (root_cong 5 (s * (4 * 3)) (s * 2) (s * 2)) by lia.
        rewrite (root_cong 5 (s * (4 * 4)) s (s * 3)) by lia.
        rewrite R3, R4, Ea, Eb. apply cplx_eq; cbn; ring.
  Qed.
  (** *** The generic butterfly; its index arithmetic passes through int. *)
  Hypothesis Nsmall : N <= 2 ^ 30.

  Lemma wrap32_id x : 0 <= x < 2 ^ 31 -> wrap32 x = x.
  Proof. intros. unfold wrap32. rewrite Z.mod_small; lia. Qed.

  Lemma twidx_step x a : 0 <= a < N ->
    (let t := wrap32 (x mod N + a) in if t >=? N then t - N else t) = (x + a) mod N.
  Proof.
    intros Ha. pose proof (Z.mod_pos_bound x N Npos). cbv zeta. rewrite wrap32_id by lia.
    rewrite <- (Zplus_mod_idemp_l x a). set (t := x mod N) in *.
    destruct (Z.geb_spec (t + a) N).
    - rewrite <- (Z.mod_small (t + a - N) N) by lia.
      replace (t + a) with (t + a - N + 1 * N) at 2 by lia. now rewrite Z.mod_add by lia.
    - now rewrite Z.mod_small by lia.
  Qed.

  Lemma generic_sum_ok p fstride off F scratch k :
    1 <= p -> zlen scratch = p -> 0 <= fstride * k < N -> 0 <= off + k < zlen F ->
    exists F', generic_sum F off fstride st scratch k p = OK F' /\ zlen F' = zlen F /\
      (forall i, 0 <= i -> i <> off + k -> zn c0 F' i = zn c0 F i) /\
      zn c0 F' (off + k) = cadd (zn c0 F (off + k))
        (csum (p - 1) (fun j => cmul (zn c0 scratch (j + 1)) (root N (s * (fstride * k * (j + 1)))))).
  Proof.
    intros Hp Ls Ha Hk. unfold generic_sum.
    match goal with |- context [for_up 1 p ?B ?S] =>
      destruct (for_up_inv (fun q (x : Z * list cplx) => let '(t, G) := x in
        t = ((q - 1) * (fstride * k)) mod N /\ zlen G = zlen F /\
        (forall i, 0 <= i -> i <> off + k -> zn c0 G i = zn c0 F i) /\
        zn c0 G (off + k) = cadd (zn c0 F (off + k))
          (csum (q - 1) (fun j => cmul (zn c0 scratch (j + 1)) (root N (s * (fstride * k * (j + 1)))))))
        1 p B S) as ((t & G) & E & I1 & I2 & I3 & I4); [lia| | |] end.
    - rewrite csum_0 by lia. splits; auto. ring.
    - intros q (t & G) Hq (-> & I2 & I3 & I4).
      pose proof (twidx_step ((q - 1) * (fstride * k)) (fstride * k) ltac:(lia)) as TW. cbv zeta in TW |- *.
      fold N. rewrite TW. clear TW.
      replace ((q - 1) * (fstride * k) + fstride * k) with (q * (fstride * k)) by lia.
      pose proof (Z.mod_pos_bound (q * (fstride * k)) N Npos) as B.
      rewrite (aget_OK c0) by lia. ret. rewrite tw_get by auto. ret.
      rewrite (aget_OK c0) by lia. ret. rewrite aset_OK by lia. ret.
      eexists; split; [reflexivity|]. cbv beta iota. splits.
      + f_equal. lia.
      + zl; lia.
      + intros i Hi Ni. rewrite zn_upd by lia. destruct (Z.eqb_spec i (off + k)); [lia|auto].
      + rewrite zn_upd by lia. rewrite Z.eqb_refl. rewrite I4.
        replace (q + 1 - 1) with (q - 1 + 1) by lia. rewrite csum_S by lia.
        replace (q - 1 + 1) with q by lia.
        assert (R : root N (s * ((q * (fstride * k)) mod N)) = root N (s * (fstride * k * q))).
        { pose proof (Z.div_mod (q * (fstride * k)) N ltac:(lia)).
          apply (root_cong N _ _ (- (s * (q * (fstride * k) / N)))); [lia|]. nia. }
        rewrite R. ring.
    - rewrite E. ret. exists G. splits; auto.
  Qed.

  Lemma bfly_generic_ok p m fstride off L F :
    1 <= p -> 1 <= m -> 1 <= fstride -> fstride * p * m = N -> 0 <= off -> off + p * m <= L -> zlen F = L ->
    exists F', kf_bfly_generic F off fstride st m p = OK F' /\ stage_ok p m fstride off L F F'.
  Proof.
    intros Hp Hm Hfs HN Hoff HL LF. unfold kf_bfly_generic. apply stage_loop; try lia.
    intros u G Hu LG.
    rewrite (for_up_set p (fun q1 => aget G (off + (u + q1 * m))) (fun q1 => zn c0 G (off + (u + q1 * m)))).
    2:{ zl. lia. }
    2:{ intros q1 Hq1. rewrite (aget_OK c0); auto. nia. }
    ret. rewrite skipn_zlen, app_nil_r by (zl; lia).
    set (scratch := ztab p (fun q1 => zn c0 G (off + (u + q1 * m)))).
    assert (Ls : zlen scratch = p) by (unfold scratch; zl; lia).
    assert (Hs : forall q, 0 <= q < p -> zn c0 scratch q = zn c0 G (off + (u + q * m))).
    { intros q Hq. unfold scratch. now rewrite zn_ztab by lia. }
    clearbody scratch.
    match goal with |- context [for_up 0 p ?B G] =>
      destruct (for_up_inv (fun q1 F' => zlen F' = L /\
        (forall i, 0 <= i -> (forall q, 0 <= q < q1 -> i <> off + (u + q * m)) -> zn c0 F' i = zn c0 G i) /\
        (forall q, 0 <= q < q1 -> zn c0 F' (off + (u + q * m)) = stage_val p m fstride off G u q))
        0 p B G) as (F' & E & I1 & I2 & I3); [lia| | |] end.
    - splits; auto. intros; lia.
    - intros q1 F1 Hq1 (I1 & I2 & I3). cbv zeta.
      pose proof (idx_range p m u q1 Hu Hq1) as IR.
      rewrite (aget_OK c0) by lia. ret. rewrite aset_OK by lia. ret.
      destruct (generic_sum_ok p fstride off (upd F1 (Z.to_nat (off + (u + q1 * m))) (zn c0 scratch 0)) scratch (u + q1 * m))
        as (F2 & E2 & J1 & J2 & J3); auto; try (zl; nia).
      exists F2. split; [exact E2|]. zl. splits.
      + lia.
      + intros i Hi Ni. rewrite J2 by (auto; apply Ni; lia). rewrite zn_upd by lia.
        destruct (Z.eqb_spec i (off + (u + q1 * m))); [exfalso; revert e; apply Ni; lia|].
        apply I2; auto. intros; apply Ni; lia.
      + intros q Hq. destruct (Z.eq_dec q q1) as [->|Ne].
        * rewrite J3. rewrite zn_upd by lia. rewrite Z.eqb_refl. unfold stage_val.
          rewrite (csum_first p) by lia. rewrite Hs by lia.
          rewrite !Z.mul_0_r, root_0. f_equal; [ring|]. apply csum_ext. intros j Hj. rewrite Hs by lia. reflexivity.
        * pose proof (idx_range p m u q Hu ltac:(lia)).
          rewrite J2; [|lia|].
          2:{ intros E'. destruct (idx_sep m u u q q1); lia. }
          rewrite zn_upd by lia. destruct (Z.eqb_spec (off + (u + q * m)) (off + (u + q1 * m))) as [E'|E'].
          { destruct (idx_sep m u u q q1); lia. }
          apply I3; lia.
    - exists F'. split; [exact E|]. unfold pass_ok. splits; auto.
  Qed.

  Lemma bfly_ok p m fstride off L F :
    1 <= p -> 1 <= m -> 1 <= fstride -> fstride * p * m = N -> 0 <= off -> off + p * m <= L -> zlen F = L ->
    exists F', bfly p F off fstride st m = OK F' /\ stage_ok p m fstride off L F F'.
  Proof.
    intros. unfold bfly.
    destruct (Z.eqb_spec p 2) as [->|]; [apply bfly2_ok; auto|].
    destruct (Z.eqb_spec p 3) as [->|]; [apply bfly3_ok; auto|].
    destruct (Z.eqb_spec p 4) as [->|]; [apply bfly4_ok; auto|].
    destruct (Z.eqb_spec p 5) as [->|]; [apply bfly5_ok; auto|].
    apply bfly_generic_ok; auto.
  Qed.
End Bfly.
