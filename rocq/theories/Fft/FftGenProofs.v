(** What the butterflies store, whatever the scalars. *)
From Coq Require Import ZArith Lia List Bool.
From Verif.Base Require Import Imp RealOps Loops.
From Verif.Fft Require Import FftModel FftBfly FftGen.
Import ListNotations.
Open Scope Z_scope.

Section Gen.
  Context {T : Type} (zero half : T) (add sub mul : T -> T -> T) (opp : T -> T).
  Notation C := (T * T)%type.
  Notation gadd := (gadd add). Notation gsub := (gsub sub). Notation gmul := (gmul add sub mul). Notation gz := (gz zero).
  Context (N : Z) (inv : bool) (tw : list C).
  Notation w := (zn gz tw).

  (** The value stored in the cell q1 m + u, from the inputs x 0, ..., x (p - 1) of the pass. *)
  Definition kern2 (fs m u q1 : Z) (x : Z -> C) : C :=
    let t := gmul (x 1) (w (u * fs)) in if q1 =? 0 then gadd (x 0) t else gsub (x 0) t.
  Definition kern4 (fs m u q1 : Z) (x : Z -> C) : C :=
    let s0 := gmul (x 1) (w (u * fs)) in
    let s1 := gmul (x 2) (w (u * (fs * 2))) in
    let s2 := gmul (x 3) (w (u * (fs * 3))) in
    let s5 := gsub (x 0) s1 in
    let a := gadd (x 0) s1 in
    let s3 := gadd s0 s2 in
    let s4 := gsub s0 s2 in
    let up := (add (fst s5) (snd s4), sub (snd s5) (fst s4)) in
    let down := (sub (fst s5) (snd s4), add (snd s5) (fst s4)) in
    if q1 =? 0 then gadd a s3 else if q1 =? 2 then gsub a s3
    else if q1 =? 1 then (if inv then down else up) else (if inv then up else down).
  Definition kern3 (fs m u q1 : Z) (x : Z -> C) : C :=
    let s1 := gmul (x 1) (w (u * fs)) in
    let s2 := gmul (x 2) (w (u * (fs * 2))) in
    let s3 := gadd s1 s2 in
    let s0 := gsub s1 s2 in
    let fm := (sub (fst (x 0)) (mul (fst s3) half), sub (snd (x 0)) (mul (snd s3) half)) in
    let s0 := (mul (fst s0) (snd (w (fs * m))), mul (snd s0) (snd (w (fs * m)))) in
    if q1 =? 0 then gadd (x 0) s3
    else if q1 =? 2 then (add (fst fm) (snd s0), sub (snd fm) (fst s0))
    else (sub (fst fm) (snd s0), add (snd fm) (fst s0)).
  Definition kern5 (fs m u q1 : Z) (x : Z -> C) : C :=
    let ya := w (fs * m) in
    let yb := w (fs * 2 * m) in
    let s1 := gmul (x 1) (w (u * fs)) in
    let s2 := gmul (x 2) (w (2 * u * fs)) in
    let s3 := gmul (x 3) (w (3 * u * fs)) in
    let s4 := gmul (x 4) (w (4 * u * fs)) in
    let s7 := gadd s1 s4 in
    let s10 := gsub s1 s4 in
    let s8 := gadd s2 s3 in
    let s9 := gsub s2 s3 in
    let s5 := (add (add (fst (x 0)) (mul (fst s7) (fst ya))) (mul (fst s8) (fst yb)),
               add (add (snd (x 0)) (mul (snd s7) (fst ya))) (mul (snd s8) (fst yb))) in
    let s6 := (add (mul (snd s10) (snd ya)) (mul (snd s9) (snd yb)),
               sub (opp (mul (fst s10) (snd ya))) (mul (fst s9) (snd yb))) in
    let s11 := (add (add (fst (x 0)) (mul (fst s7) (fst yb))) (mul (fst s8) (fst ya)),
                add (add (snd (x 0)) (mul (snd s7) (fst yb))) (mul (snd s8) (fst ya))) in
    let s12 := (add (opp (mul (snd s10) (snd yb))) (mul (snd s9) (snd ya)),
                sub (mul (fst s10) (snd yb)) (mul (fst s9) (snd ya))) in
    if q1 =? 0 then (add (fst (x 0)) (add (fst s7) (fst s8)), add (snd (x 0)) (add (snd s7) (snd s8)))
    else if q1 =? 1 then gsub s5 s6 else if q1 =? 4 then gadd s5 s6
    else if q1 =? 2 then gadd s11 s12 else gsub s11 s12.
  (** x 0 + x 1 w + ... + x n w', from the left. *)
  Fixpoint gfold (a : Z) (n : nat) (x : Z -> C) : C :=
    match n with
    | O => x 0
    | S j => gadd (gfold a j x) (gmul (x (Z.of_nat (S j))) (w ((Z.of_nat (S j) * a) mod N)))
    end.
  Definition kern (p fs m u q1 : Z) (x : Z -> C) : C :=
    if p =? 2 then kern2 fs m u q1 x else if p =? 3 then kern3 fs m u q1 x
    else if p =? 4 then kern4 fs m u q1 x else if p =? 5 then kern5 fs m u q1 x
    else gfold (fs * (u + q1 * m)) (Z.to_nat (p - 1)) x.

  Lemma gfold_ext a n x y : (forall q, 0 <= q <= Z.of_nat n -> x q = y q) -> gfold a n x = gfold a n y.
  Proof.
    induction n as [|n IH]; intros H; cbn [gfold].
    - apply H. lia.
    - rewrite IH by (intros; apply H; lia). rewrite (H (Z.of_nat (S n))) by lia. reflexivity.
  Qed.
  Lemma kern_ext p fs m u q1 x y : 1 <= p -> (forall q, 0 <= q < p -> x q = y q) -> kern p fs m u q1 x = kern p fs m u q1 y.
  Proof.
    intros Hp H. unfold kern.
    destruct (Z.eqb_spec p 2); [unfold kern2; rewrite !H by lia; reflexivity|].
    destruct (Z.eqb_spec p 3); [unfold kern3; rewrite !H by lia; reflexivity|].
    destruct (Z.eqb_spec p 4); [unfold kern4; rewrite !H by lia; reflexivity|].
    destruct (Z.eqb_spec p 5); [unfold kern5; rewrite !H by lia; reflexivity|].
    apply gfold_ext. intros q Hq. apply H. lia.
  Qed.

  Context (Ntw : zlen tw = N) (Npos : 0 < N) (Nsmall : N <= 2 ^ 30).

  Section Stage.
    Context (p m fstride off L : Z) (Hp : 1 <= p) (Hm : 1 <= m) (Hfs : 1 <= fstride) (HN : fstride * p * m = N)
      (Hoff : 0 <= off) (HL : off + p * m <= L).
    Definition gval (F : list C) (u q1 : Z) : C := kern p fstride m u q1 (fun q => zn gz F (off + (u + q * m))).
    Definition gpass (u : Z) (F F' : list C) : Prop :=
      zlen F' = L /\
      (forall i, 0 <= i -> (forall q, 0 <= q < p -> i <> off + (u + q * m)) -> zn gz F' i = zn gz F i) /\
      (forall q1, 0 <= q1 < p -> zn gz F' (off + (u + q1 * m)) = gval F u q1).
    Definition gstage (F F' : list C) : Prop :=
      zlen F' = L /\
      (forall i, 0 <= i -> (i < off \/ off + p * m <= i) -> zn gz F' i = zn gz F i) /\
      (forall u q1, 0 <= u < m -> 0 <= q1 < p -> zn gz F' (off + (u + q1 * m)) = gval F u q1).

    Lemma gstage_loop body F : zlen F = L ->
      (forall u F, 0 <= u < m -> zlen F = L -> exists F', body u F = OK F' /\ gpass u F F') ->
      exists F', for_up 0 m body F = OK F' /\ gstage F F'.
    Proof.
      intros LF Hb.
      destruct (for_up_inv (fun i G => zlen G = L /\
         (forall j, 0 <= j -> (forall u q, 0 <= u < i -> 0 <= q < p -> j <> off + (u + q * m)) -> zn gz G j = zn gz F j) /\
         (forall u q1, 0 <= u < i -> 0 <= q1 < p -> zn gz G (off + (u + q1 * m)) = gval F u q1)) 0 m body F)
        as (F' & E & I1 & I2 & I3); [lia| | |].
      - splits; auto. intros; lia.
      - intros u G Hu (I1 & I2 & I3). destruct (Hb u G) as (F' & E & P1 & P2 & P3); [lia|auto|].
        exists F'. split; [auto|]. splits; auto.
        + intros j Hj N1. rewrite P2; auto.
          * apply I2; auto. intros u' q Hu' Hq. apply N1; lia.
          * intros q Hq. apply N1; lia.
        + intros u' q1 Hu' Hq. destruct (Z.eq_dec u' u) as [->|Ne].
          * rewrite P3 by lia. unfold gval. apply kern_ext; auto. intros q Hq'.
            apply I2; [nia|]. intros u'' q'' ? ? E2. destruct (idx_sep m u u'' q q''); lia.
          * rewrite P2; [apply I3; lia|nia|]. intros q Hq' E2. destruct (idx_sep m u' u q1 q); lia.
      - exists F'. split; auto. unfold gstage. splits; auto.
        intros i Hi O. apply I2; auto. intros u q Hu Hq. pose proof (idx_range p m u q Hu Hq). lia.
    Qed.
  End Stage.

  Ltac caseq q1 := let H := fresh in
    assert (H : q1 = 0 \/ q1 = 1 \/ q1 = 2 \/ q1 = 3 \/ q1 = 4) by lia;
    destruct H as [->|[->|[->|[->| ->]]]]; try lia.
  Ltac eqbs := repeat match goal with |- context [?a =? ?b] => destruct (Z.eqb_spec a b); [try lia | try lia] end.
  Ltac outs n Ni := match n with
    | 2%nat => pose proof (Ni 0 ltac:(lia)); pose proof (Ni 1 ltac:(lia))
    | 3%nat => outs 2%nat Ni; pose proof (Ni 2 ltac:(lia))
    | 4%nat => outs 3%nat Ni; pose proof (Ni 3 ltac:(lia))
    | 5%nat => outs 4%nat Ni; pose proof (Ni 4 ltac:(lia)) end.
  Ltac rd := rewrite (aget_OK gz) by first [lia | nia | zl; lia | zl; nia]; ret.

  Lemma g_bfly2_ok m fstride off L F :
    1 <= m -> 1 <= fstride -> fstride * 2 * m = N -> 0 <= off -> off + 2 * m <= L -> zlen F = L ->
    exists F', g_bfly2 add sub mul tw F off fstride m = OK F' /\ gstage 2 m fstride off L F F'.
  Proof.
    intros Hm Hfs HN Hoff HL LF. apply gstage_loop; try lia.
    intros u G Hu LG. do 3 rd. rewrite aset_OK by lia. ret. rd. rewrite aset_OK by (zl; lia).
    eexists; split; [reflexivity|]. unfold gpass. splits.
    - zl. lia.
    - intros i Hi Ni. outs 2%nat Ni. rewrite !zn_upd by (zl; lia). eqbs. reflexivity.
    - intros q1 Hq. unfold gval. change (kern 2) with kern2. unfold kern2.
      replace (off + (u + 0 * m)) with (off + u) by lia. replace (off + (u + 1 * m)) with (off + m + u) by lia.
      caseq q1; rewrite !zn_upd by (zl; lia); eqbs; reflexivity.
  Qed.

  Lemma g_bfly3_ok m fstride off L F :
    1 <= m -> 1 <= fstride -> fstride * 3 * m = N -> 0 <= off -> off + 3 * m <= L -> zlen F = L ->
    exists F', g_bfly3 half add sub mul tw F off fstride m = OK F' /\ gstage 3 m fstride off L F F'.
  Proof.
    intros Hm Hfs HN Hoff HL LF. unfold g_bfly3. rd. apply gstage_loop; try lia.
    intros u G Hu LG. cbv zeta. do 5 rd. do 3 (rewrite aset_OK by (zl; lia); try ret).
    eexists; split; [reflexivity|]. unfold gpass. splits.
    - zl. lia.
    - intros i Hi Ni. outs 3%nat Ni. rewrite !zn_upd by (zl; lia). eqbs. reflexivity.
    - intros q1 Hq. unfold gval. change (kern 3) with kern3. unfold kern3.
      replace (off + (u + 0 * m)) with (off + u) by lia. replace (off + (u + 1 * m)) with (off + u + m) by lia.
      replace (off + (u + 2 * m)) with (off + u + 2 * m) by lia.
      caseq q1; rewrite !zn_upd by (zl; lia); eqbs; reflexivity.
  Qed.

  Lemma g_bfly4_ok m fstride off L F :
    1 <= m -> 1 <= fstride -> fstride * 4 * m = N -> 0 <= off -> off + 4 * m <= L -> zlen F = L ->
    exists F', g_bfly4 add sub mul inv tw F off fstride m = OK F' /\ gstage 4 m fstride off L F F'.
  Proof.
    intros Hm Hfs HN Hoff HL LF. unfold g_bfly4. apply gstage_loop; try lia.
    intros u G Hu LG. cbv zeta. do 7 rd. do 2 (rewrite aset_OK by (zl; lia); ret).
    assert (Q : forall (G' : list C), gpass 4 m fstride off L u G G' -> exists F', OK G' = OK F' /\ gpass 4 m fstride off L u G F').
    { intros G' HG. now exists G'. }
    destruct (bool_cases inv) as [EI|EI]; rewrite EI.
    all: do 2 (rewrite aset_OK by (zl; lia); try ret); apply Q; unfold gpass; splits;
      [zl; lia
      |intros i Hi Ni; outs 4%nat Ni; rewrite !zn_upd by (zl; lia); eqbs; reflexivity
      |intros q1 Hq; unfold gval; change (kern 4) with kern4; unfold kern4; rewrite EI;
       replace (off + (u + 0 * m)) with (off + u) by lia; replace (off + (u + 1 * m)) with (off + u + m) by lia;
       replace (off + (u + 2 * m)) with (off + u + 2 * m) by lia; replace (off + (u + 3 * m)) with (off + u + 3 * m) by lia;
       caseq q1; rewrite !zn_upd by (zl; lia); eqbs; reflexivity].
  Qed.

  Lemma g_bfly5_ok m fstride off L F :
    1 <= m -> 1 <= fstride -> fstride * 5 * m = N -> 0 <= off -> off + 5 * m <= L -> zlen F = L ->
    exists F', g_bfly5 add sub mul opp tw F off fstride m = OK F' /\ gstage 5 m fstride off L F F'.
  Proof.
    intros Hm Hfs HN Hoff HL LF. unfold g_bfly5. rd. rd. apply gstage_loop; try lia.
    intros u G Hu LG. cbv zeta. do 9 rd. do 5 (rewrite aset_OK by (zl; lia); try ret).
    eexists; split; [reflexivity|]. unfold gpass. splits.
    - zl. lia.
    - intros i Hi Ni. outs 5%nat Ni. rewrite !zn_upd by (zl; lia). eqbs. reflexivity.
    - intros q1 Hq. unfold gval. change (kern 5) with kern5. unfold kern5.
      replace (off + (u + 0 * m)) with (off + u) by lia. replace (off + (u + 1 * m)) with (off + u + m) by lia.
      replace (off + (u + 2 * m)) with (off + u + 2 * m) by lia. replace (off + (u + 3 * m)) with (off + u + 3 * m) by lia.
      replace (off + (u + 4 * m)) with (off + u + 4 * m) by lia.
      caseq q1; rewrite !zn_upd by (zl; lia); eqbs; reflexivity.
  Qed.

  Lemma g_sum_ok p fstride off F scratch k :
    1 <= p -> zlen scratch = p -> 0 <= fstride * k < N -> 0 <= off + k < zlen F ->
    zn gz F (off + k) = zn gz scratch 0 ->
    exists F', g_sum add sub mul N tw F off fstride scratch k p = OK F' /\ zlen F' = zlen F /\
      (forall i, 0 <= i -> i <> off + k -> zn gz F' i = zn gz F i) /\
      zn gz F' (off + k) = gfold (fstride * k) (Z.to_nat (p - 1)) (zn gz scratch).
  Proof.
    intros Hp Ls Ha Hk H0. unfold g_sum.
    match goal with |- context [for_up 1 p ?B ?S] =>
      destruct (for_up_inv (fun q (x : Z * list C) => let '(t, G) := x in
        t = ((q - 1) * (fstride * k)) mod N /\ zlen G = zlen F /\
        (forall i, 0 <= i -> i <> off + k -> zn gz G i = zn gz F i) /\
        zn gz G (off + k) = gfold (fstride * k) (Z.to_nat (q - 1)) (zn gz scratch))
        1 p B S) as ((t & G) & E & I1 & I2 & I3 & I4); [lia| | |] end.
    - splits; auto.
    - intros q (t & G) Hq (-> & I2 & I3 & I4).
      pose proof (twidx_step {| nfft := N; inverse := inv; factors := []; twiddles := [] |} Npos Nsmall ((q - 1) * (fstride * k)) (fstride * k) ltac:(cbn [nfft]; lia)) as TW.
      cbv zeta in TW |- *. cbn [nfft] in TW. rewrite TW. clear TW.
      replace ((q - 1) * (fstride * k) + fstride * k) with (q * (fstride * k)) by lia.
      pose proof (Z.mod_pos_bound (q * (fstride * k)) N Npos) as B.
      rd. rd. rd. rewrite aset_OK by lia. ret.
      eexists; split; [reflexivity|]. cbv beta iota. splits.
      + f_equal. lia.
      + zl; lia.
      + intros i Hi Ni. rewrite zn_upd by lia. destruct (Z.eqb_spec i (off + k)); [lia|auto].
      + rewrite zn_upd by lia. rewrite Z.eqb_refl. rewrite I4.
        replace (Z.to_nat (q + 1 - 1)) with (S (Z.to_nat (q - 1))) by lia. cbn [gfold].
        replace (Z.of_nat (S (Z.to_nat (q - 1)))) with q by lia. reflexivity.
    - rewrite E. ret. exists G. splits; auto.
  Qed.

  Lemma g_bfly_generic_ok p m fstride off L F :
    1 <= p -> p <> 2 -> p <> 3 -> p <> 4 -> p <> 5 ->
    1 <= m -> 1 <= fstride -> fstride * p * m = N -> 0 <= off -> off + p * m <= L -> zlen F = L ->
    exists F', g_bfly_generic zero add sub mul N tw F off fstride m p = OK F' /\ gstage p m fstride off L F F'.
  Proof.
    intros Hp P2 P3 P4 P5 Hm Hfs HN Hoff HL LF. unfold g_bfly_generic. apply gstage_loop; try lia.
    intros u G Hu LG.
    rewrite (for_up_set p (fun q1 => aget G (off + (u + q1 * m))) (fun q1 => zn gz G (off + (u + q1 * m)))).
    2:{ zl. lia. }
    2:{ intros q1 Hq1. rewrite (aget_OK gz); auto. nia. }
    ret. rewrite skipn_zlen, app_nil_r by (zl; lia).
    set (scratch := ztab p (fun q1 => zn gz G (off + (u + q1 * m)))).
    assert (Ls : zlen scratch = p) by (unfold scratch; zl; lia).
    assert (Hs : forall q, 0 <= q < p -> zn gz scratch q = zn gz G (off + (u + q * m))).
    { intros q Hq. unfold scratch. now rewrite zn_ztab by lia. }
    clearbody scratch.
    match goal with |- context [for_up 0 p ?B G] =>
      destruct (for_up_inv (fun q1 F' => zlen F' = L /\
        (forall i, 0 <= i -> (forall q, 0 <= q < q1 -> i <> off + (u + q * m)) -> zn gz F' i = zn gz G i) /\
        (forall q, 0 <= q < q1 -> zn gz F' (off + (u + q * m)) = gval p m fstride off G u q))
        0 p B G) as (F' & E & I1 & I2 & I3); [lia| | |] end.
    - splits; auto. intros; lia.
    - intros q1 F1 Hq1 (I1 & I2 & I3). cbv zeta.
      pose proof (idx_range p m u q1 Hu Hq1) as IR.
      rd. rewrite aset_OK by lia. ret.
      destruct (g_sum_ok p fstride off (upd F1 (Z.to_nat (off + (u + q1 * m))) (zn gz scratch 0)) scratch (u + q1 * m))
        as (F2 & E2 & J1 & J2 & J3); auto; try (zl; nia).
      { rewrite zn_upd by lia. now rewrite Z.eqb_refl. }
      exists F2. split; [exact E2|]. zl. splits.
      + lia.
      + intros i Hi Ni. rewrite J2 by (auto; apply Ni; lia). rewrite zn_upd by lia.
        destruct (Z.eqb_spec i (off + (u + q1 * m))); [exfalso; revert e; apply Ni; lia|].
        apply I2; auto. intros; apply Ni; lia.
      + intros q Hq. destruct (Z.eq_dec q q1) as [->|Ne].
        * rewrite J3. unfold gval, kern.
          destruct (Z.eqb_spec p 2); [lia|]. destruct (Z.eqb_spec p 3); [lia|]. destruct (Z.eqb_spec p 4); [lia|].
          destruct (Z.eqb_spec p 5); [lia|]. apply gfold_ext. intros q Hq'. apply Hs. lia.
        * pose proof (idx_range p m u q Hu ltac:(lia)).
          rewrite J2; [|lia|].
          2:{ intros E'. destruct (idx_sep m u u q q1); lia. }
          rewrite zn_upd by lia. destruct (Z.eqb_spec (off + (u + q * m)) (off + (u + q1 * m))) as [E'|E'].
          { destruct (idx_sep m u u q q1); lia. }
          apply I3; lia.
    - exists F'. split; [exact E|]. unfold gpass. splits; auto.
  Qed.

  Lemma g_bfly_ok p m fstride off L F :
    1 <= p -> 1 <= m -> 1 <= fstride -> fstride * p * m = N -> 0 <= off -> off + p * m <= L -> zlen F = L ->
    exists F', g_bfly zero half add sub mul opp N inv tw p F off fstride m = OK F' /\ gstage p m fstride off L F F'.
  Proof.
    intros. unfold g_bfly.
    destruct (Z.eqb_spec p 2) as [->|]; [apply g_bfly2_ok; auto|].
    destruct (Z.eqb_spec p 3) as [->|]; [apply g_bfly3_ok; auto|].
    destruct (Z.eqb_spec p 4) as [->|]; [apply g_bfly4_ok; auto|].
    destruct (Z.eqb_spec p 5) as [->|]; [apply g_bfly5_ok; auto|].
    apply g_bfly_generic_ok; auto.
  Qed.
End Gen.
