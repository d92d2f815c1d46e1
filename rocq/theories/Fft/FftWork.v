(** kf_work computes the discrete Fourier transform; kf_factor gives it usable factors. *)
From Coq Require Import Reals ZArith Lia Lra List Bool Ring.
From Verif.Base Require Import Imp Sums RealOps Loops.
From Verif.Fft Require Import Cplx FftModel FftBfly.
Import ListNotations.
Open Scope Z_scope.

(** Factor list p1, m1, p2, m2, ... with p1 m1 = n, p2 m2 = m1, ... *)
Fixpoint chain (n : Z) (facs : list Z) : Prop :=
  match facs with
  | p :: m :: rest => 1 <= p /\ 1 <= m /\ n = p * m /\ (m = 1 \/ chain m rest)
  | _ => False
  end.

Lemma list_ind2 {A} (P : list A -> Prop) :
  P [] -> (forall x, P [x]) -> (forall x y l, P l -> P (x :: y :: l)) -> forall l, P l.
Proof.
  intros H0 H1 H2. fix IH 1. intros [|x [|y l]]; [exact H0|apply H1|apply H2, IH].
Qed.

Section Work.
  Variable st : cfg.
  Let N := nfft st.
  Let s := sg (inverse st).
  Hypothesis Ntw : zlen (twiddles st) = N.
  Hypothesis Npos : 0 < N.
  Hypothesis Htw : forall i, 0 <= i < N -> zn c0 (twiddles st) i = root N (s * i).
  Hypothesis Nsmall : N <= 2 ^ 30.

  Definition work_ok (n off : Z) (f : list cplx) (foff stride fstride L : Z) (F F' : list cplx) : Prop :=
    zlen F' = L /\
    (forall i, 0 <= i -> (i < off \/ off + n <= i) -> zn c0 F' i = zn c0 F i) /\
    (forall k, 0 <= k < n -> zn c0 F' (off + k) =
       csum n (fun j => cmul (zn c0 f (foff + j * stride)) (root N (s * (fstride * k * j))))).

  Lemma kf_work_ok facs : forall n F off f foff fstride istr L,
    chain n facs -> 1 <= fstride -> fstride * n = N -> 0 <= off -> off + n <= L -> zlen F = L ->
    (forall j, 0 <= j < n -> 0 <= foff + j * (fstride * istr) < zlen f) ->
    exists F', kf_work st facs F off f foff fstride istr = OK F' /\
      work_ok n off f foff (fstride * istr) fstride L F F'.
  Proof.
    induction facs as [|x|p m rest IH] using list_ind2; [intros; simpl in *; tauto..|].
    intros n F off f foff fstride istr L (Hp & Hm & -> & Hc) Hfs HN Hoff HL LF Hf.
    cbn [kf_work]. set (S1 := fstride * istr) in *.
    (* the p transforms of size m *)
    assert (Q : exists F1, (if m =? 1
              then for_up 0 p (fun q F => v <- aget f (foff + q * S1) ;; aset F (off + q) v) F
              else for_up 0 p (fun q F => kf_work st rest F (off + q * m) f (foff + q * S1) (fstride * p) istr) F) = OK F1 /\
        zlen F1 = L /\
        (forall i, 0 <= i -> (i < off \/ off + p * m <= i) -> zn c0 F1 i = zn c0 F i) /\
        (forall q u, 0 <= q < p -> 0 <= u < m -> zn c0 F1 (off + (u + q * m)) =
           csum m (fun j => cmul (zn c0 f (foff + (j * p + q) * S1)) (root N (s * (fstride * p * u * j)))))).
    { destruct (Z.eqb_spec m 1) as [->|Nm].
      - match goal with |- context [for_up 0 p ?B F] =>
          destruct (for_up_inv (fun i G => zlen G = L /\
            (forall j, 0 <= j -> (j < off \/ off + i <= j) -> zn c0 G j = zn c0 F j) /\
            (forall q, 0 <= q < i -> zn c0 G (off + q) = zn c0 f (foff + q * S1))) 0 p B F) as (F1 & E & I1 & I2 & I3); [lia| | |] end.
        + splits; auto. intros; lia.
        + intros q G Hq (I1 & I2 & I3). rewrite (aget_OK c0) by (apply Hf; lia). ret. rewrite aset_OK by lia.
          eexists; split; [reflexivity|]. zl. splits; auto.
          * intros j Hj O. rewrite zn_upd by lia. destruct (Z.eqb_spec j (off + q)); [lia|]. apply I2; lia.
          * intros q' Hq'. rewrite zn_upd by lia. destruct (Z.eqb_spec (off + q') (off + q)) as [E|E].
            -- f_equal. f_equal. f_equal. lia.
            -- apply I3; lia.
        + exists F1. split; [exact E|]. splits; auto.
          * intros i Hi O. apply I2; lia.
          * intros q u Hq Hu. assert (u = 0) as -> by lia. change 1 with (0 + 1) at 2. rewrite csum_S, csum_0 by lia.
            rewrite !Z.mul_0_r, root_0. replace (0 + q * 1) with q by lia. rewrite I3 by lia.
            replace ((0 * p + q) * S1) with (q * S1) by lia. ring.
      - destruct Hc as [Hc|Hc]; [lia|].
        match goal with |- context [for_up 0 p ?B F] =>
          destruct (for_up_inv (fun i G => zlen G = L /\
            (forall j, 0 <= j -> (j < off \/ off + i * m <= j) -> zn c0 G j = zn c0 F j) /\
            (forall q u, 0 <= q < i -> 0 <= u < m -> zn c0 G (off + (u + q * m)) =
              csum m (fun j => cmul (zn c0 f (foff + (j * p + q) * S1)) (root N (s * (fstride * p * u * j))))))
            0 p B F) as (F1 & E & I1 & I2 & I3); [lia| | |] end.
        + splits; auto. intros; lia.
        + intros q G Hq (I1 & I2 & I3).
          destruct (IH m G (off + q * m) f (foff + q * S1) (fstride * p) istr L) as (F1 & E & J1 & J2 & J3); auto; try nia.
          { intros j Hj. replace (foff + q * S1 + j * (fstride * p * istr)) with (foff + (j * p + q) * S1) by (unfold S1; ring).
            apply Hf. nia. }
          exists F1. split; [exact E|]. splits; auto.
          * intros j Hj O. rewrite J2 by nia. apply I2; nia.
          * intros q' u Hq' Hu. destruct (Z.eq_dec q' q) as [->|Ne].
            -- replace (off + (u + q * m)) with (off + q * m + u) by lia. rewrite J3 by lia.
               apply csum_ext. intros j Hj. f_equal. f_equal. unfold S1. ring.
            -- rewrite J2 by nia. apply I3; lia.
        + exists F1. split; [exact E|]. splits; auto. }
    destruct Q as (F1 & E1 & L1 & O1 & V1). rewrite E1. ret.
    destruct (bfly_ok st Ntw Npos Htw Nsmall p m fstride off L F1) as (F2 & E2 & L2 & O2 & V2); auto; try (fold N; lia).
    exists F2. split; [exact E2|]. unfold work_ok. splits; auto.
    { intros i Hi O. rewrite O2, O1 by auto. reflexivity. }
    intros k Hk.
    pose proof (Z.div_mod k m ltac:(lia)) as D. pose proof (Z.mod_pos_bound k m ltac:(lia)) as B.
    set (u := k mod m) in *. set (q1 := k / m) in *.
    assert (Hq1 : 0 <= q1 < p) by nia.
    replace (off + k) with (off + (u + q1 * m)) by lia. rewrite V2 by lia. unfold stage_val. fold N s.
    rewrite csum_decim by lia. apply csum_ext. intros q Hq. rewrite V1 by lia.
    rewrite <- csum_scal_r. apply csum_ext. intros j Hj.
    replace (s * (fstride * k * (j * p + q))) with
      (s * (fstride * p * u * j) + s * (fstride * (u + q1 * m) * q) + N * (s * q1 * j)) by (rewrite <- HN, D; ring).
    rewrite root_period, root_add by lia. ring.
  Qed.
End Work.

(** *** kf_factor *)
Definition good_p (n fs p : Z) : Prop := p = 4 \/ 2 <= p <= fs \/ p = n.

Lemma find_p_ok n fs p :
  1 <= n -> 0 <= fs -> good_p n fs p ->
  exists p', find_p (Z.to_nat fs + 8) n fs p = OK p' /\ n mod p' = 0 /\ good_p n fs p' /\ (2 <= n -> 2 <= p') /\ 1 <= p'.
Proof.
  intros Hn Hfs Hp. unfold find_p.
  destruct (while_inv (fun p => good_p n fs p)
    (fun p => if n mod p =? 0 then 0%nat else if p =? 4 then Z.to_nat (fs + 5) else Z.to_nat (fs + 3 - p))
    (fun p => negb (n mod p =? 0)) (fun p => OK (next_p n fs p))) with (fuel := (Z.to_nat fs + 8)%nat) (s := p) as (p' & E & I1 & I2).
  - intros q Hq C. apply negb_true_iff in C. exists (next_p n fs q). split; [reflexivity|].
    rewrite C. apply Z.eqb_neq in C.
    assert (Hq' : q <> n) by (intros ->; rewrite Z_mod_same_full in C; lia).
    unfold next_p.
    assert (Mn : n mod n = 0) by apply Z_mod_same_full.
    destruct Hq as [->|[Hq|Hq]]; [| |lia].
    + cbn [Z.eqb Pos.eqb]. destruct (Z.gtb_spec 2 fs) as [G|G].
      * split; [right; right; auto|]. rewrite Mn. cbn. lia.
      * split; [right; left; lia|]. change (2 =? 4) with false. cbv iota.
        destruct (n mod 2 =? 0); lia.
    + destruct (Z.eqb_spec q 4) as [->|N4].
      * change (2 =? 4) with false. cbv iota. destruct (Z.gtb_spec 2 fs) as [G|G].
        -- split; [right; right; auto|]. rewrite Mn. cbn. lia.
        -- split; [right; left; lia|]. change (2 =? 4) with false; cbv iota; destruct (n mod 2 =? 0); lia.
      * destruct (Z.eqb_spec q 2) as [->|N2].
        -- destruct (Z.gtb_spec 3 fs) as [G|G].
           ++ split; [right; right; auto|]. rewrite Mn. cbn. lia.
           ++ split; [right; left; lia|]. change (3 =? 4) with false. cbv iota. destruct (n mod 3 =? 0); lia.
        -- destruct (Z.gtb_spec (q + 2) fs) as [G|G].
           ++ split; [right; right; auto|]. rewrite Mn. cbn. lia.
           ++ split; [right; left; lia|]. destruct (Z.eqb_spec (q + 2) 4); [lia|]. destruct (n mod (q + 2) =? 0); lia.
  - exact Hp.
  - destruct (n mod p =? 0) eqn:E; [lia|]. destruct (Z.eqb_spec p 4); [lia|].
    destruct Hp as [|[|]]; try lia.
  - exists p'. apply negb_false_iff, Z.eqb_eq in I2. splits; auto.
    + intros. destruct I1 as [->|[|]]; lia.
    + destruct I1 as [->|[|]]; lia.
Qed.

(** [chain] with what is already in the buffer in front. *)
Inductive chain_from : Z -> list Z -> Z -> Prop :=
| cf_nil n : chain_from n [] n
| cf_cons n p m l r : 1 <= p -> 1 < m -> n = p * m -> chain_from m l r -> chain_from n (p :: m :: l) r.

Lemma chain_from_snoc n l r p m : chain_from n l r -> 1 <= p -> 1 < m -> r = p * m -> chain_from n (l ++ [p; m]) m.
Proof.
  induction 1; intros Hp Hm E.
  - cbn. econstructor; eauto. constructor.
  - cbn. econstructor; eauto.
Qed.
Lemma chain_from_last n l r p : chain_from n l r -> 1 <= p -> r = p -> chain n (l ++ [p; 1]).
Proof.
  induction 1; intros Hp E.
  - cbn. subst. splits; try lia.
  - cbn. splits; try lia. right. auto.
Qed.

Lemma kf_factor_loop_ok fs n0 : 0 <= fs -> forall fuel n p buf,
  1 <= n -> (Z.to_nat n < fuel)%nat -> good_p n fs p ->
  chain_from n0 buf n -> (buf = [] \/ 2 <= n) -> n * 2 ^ (zlen buf / 2) < 2 ^ 31 -> (zlen buf) mod 2 = 0 ->
  exists facs, kf_factor_loop fuel fs n p buf = OK facs /\ chain n0 facs /\ zlen facs <= facbuf_len.
Proof.
  intros Hfs. induction fuel as [|fuel IH]; intros n p buf Hn Hfuel Hp Hc Hb Hl Hpar; [lia|].
  cbn [kf_factor_loop].
  destruct (find_p_ok n fs p Hn Hfs Hp) as (p' & E & D & Hp' & P2 & P1). rewrite E. ret. cbv zeta.
  assert (En : n = p' * (n / p')) by (apply Z_div_exact_full_2; lia).
  set (m := n / p') in *.
  assert (Hm : 1 <= m) by nia.
  assert (Hlen : zlen buf / 2 <= 30).
  { pose proof (zlen_nonneg buf). apply Z.lt_succ_r. apply (Z.pow_lt_mono_r_iff 2); [lia|lia|].
    change (Z.succ 30) with 31. nia. }
  assert (Hlen' : zlen buf <= 60) by (pose proof (Z.div_mod (zlen buf) 2 ltac:(lia)); lia).
  unfold facbuf_len at 1. destruct (Z.leb_spec (zlen buf + 2) 64); [|lia].
  destruct (Z.gtb_spec m 1).
  - assert (2 <= n) by nia. specialize (P2 ltac:(lia)).
    apply IH; auto; try nia.
    + destruct Hp' as [|[|]]; [left; auto|right; left; auto|nia].
    + eapply chain_from_snoc; eauto; lia.
    + rewrite zlen_app. change (zlen [p'; m]) with (1 * 2). rewrite Z.div_add by lia.
      rewrite Z.pow_add_r by first [lia | apply Z.div_pos; [apply zlen_nonneg|lia]]. 
      assert (0 <= 2 ^ (zlen buf / 2)) by (apply Z.pow_nonneg; lia). nia.
    + rewrite zlen_app. change (zlen [p'; m]) with (1 * 2). rewrite Z.mod_add by lia. auto.
  - exists (buf ++ [p'; m]). split; [reflexivity|].
    assert (m = 1) as -> by lia. split.
    + eapply chain_from_last; eauto; lia.
    + rewrite zlen_app. change (zlen [p'; 1]) with 2. unfold facbuf_len. lia.
Qed.

Lemma kf_factor_ok n : 1 <= n < 2 ^ 31 ->
  exists facs, kf_factor n = OK facs /\ chain n facs /\ zlen facs <= facbuf_len.
Proof.
  intros Hn. apply kf_factor_loop_ok; try lia; auto.
  - apply Z.sqrt_nonneg.
  - left; reflexivity.
  - constructor.
  - change (2 ^ (zlen (@nil Z) / 2)) with 1. lia.
Qed.
