(** Deciding the properties of a filter pair given in decimals by integer arithmetic. *)
From Coq Require Import List ZArith Reals Lia Lra Bool Psatz.
From Flocq Require Import Core.
From Flocq.Prop Require Import Relative.
From Verif.Base Require Import Imp Sums RealOps Loops Dbl.
From Verif.Wavelet Require Import WaveletModel WaveletSpec WaveletProofs.
Import ListNotations.
Open Scope R_scope.

Fixpoint add (a b : list Z) : list Z := match a, b with [], b => b | a, [] => a | x :: a, y :: b => (x + y)%Z :: add a b end.
Fixpoint conv (h l : list Z) : list Z := match h with [] => [] | a :: h => add (map (Z.mul a) l) (0%Z :: conv h l) end.
Fixpoint alternate (s : bool) (h : list Z) : list Z := match h with [] => [] | a :: h => (if s then a else (- a)%Z) :: alternate (negb s) h end.
Fixpoint deviation (peak d : Z) (c : list Z) : Z :=
  match c with [] => 0%Z | a :: c => ((if Z.odd d then Z.abs (- a - (if d =? peak then 10 ^ 28 else 0)) else 0) + deviation peak (d + 1) c)%Z end.
Fixpoint total (c : list Z) : Z := match c with [] => 0%Z | a :: c => (a + total c)%Z end.
Fixpoint weigh (i : Z) (v : list Z) : list Z := match v with [] => [] | a :: v => (i * a)%Z :: weigh (i + 1) v end.
Fixpoint moments_small (e : Z) (v : list Z) (p n : Z) (order : nat) : bool :=
  match order with O => true | S o => (e * Z.abs (total v) <=? 10 ^ 14 * p)%Z && moments_small e (weigh 0 v) (p * n) n o end.

Lemma zn_add a b d : zn 0%Z (add a b) d = (zn 0%Z a d + zn 0%Z b d)%Z.
Proof.
  revert b d. induction a as [|x a IH]; intros b d; [cbn [add]; rewrite (zn_out _ [] d) by (unfold zlen; cbn; lia); lia|].
  destruct b as [|y b]; cbn [add]; [rewrite (zn_out _ [] d) by (unfold zlen; cbn; lia); lia|].
  rewrite !zn_cons, IH. destruct (d =? 0)%Z, (d <? 0)%Z; lia.
Qed.
Lemma zn_conv h l d : IZR (zn 0%Z (conv h l) d) = rsum (zlen h) (fun j => IZR (zn 0%Z h j) * IZR (zn 0%Z l (d - j))).
Proof.
  revert d. induction h as [|a h IH]; intros d; cbn [conv].
  - rewrite zn_out by (unfold zlen; cbn; lia). now rewrite rsum_0 by (unfold zlen; cbn; lia).
  - rewrite zn_add, plus_IZR. replace (zlen (a :: h)) with (zlen h + 1)%Z by (unfold zlen; cbn [length]; lia).
    pose proof (zlen_nonneg h). rewrite rsum_first by lia. replace (zlen h + 1 - 1)%Z with (zlen h) by lia. f_equal.
    + change (zn 0%Z (a :: h) 0) with a. rewrite Z.sub_0_r. rewrite <- mult_IZR. f_equal.
      destruct (Z_lt_ge_dec d 0) as [L|L]; [rewrite !zn_out by lia; lia|].
      destruct (Z_lt_ge_dec d (zlen l)) as [L'|L']; [|rewrite !zn_out by (rewrite ?zlen_map; lia); lia].
      rewrite (zn_map _ 0%Z 0%Z) by lia. reflexivity.
    + rewrite zn_cons. destruct (Z.eqb_spec d 0); [|destruct (Z.ltb_spec d 0)].
      * symmetry. apply rsum_zero. intros i Hi. rewrite (zn_out _ l) by lia. ring.
      * symmetry. apply rsum_zero. intros i Hi. rewrite (zn_out _ l) by lia. ring.
      * rewrite IH. apply rsum_ext. intros i Hi. rewrite zn_cons. destruct (Z.eqb_spec (i + 1) 0), (Z.ltb_spec (i + 1) 0); try lia.
        replace (i + 1 - 1)%Z with i by lia. replace (d - 1 - i)%Z with (d - (i + 1))%Z by lia. reflexivity.
Qed.

Lemma zlen_alternate s h : zlen (alternate s h) = zlen h.
Proof. unfold zlen. f_equal. revert s. induction h; intros; cbn [alternate length]; [reflexivity|now rewrite IHh]. Qed.
Lemma sg_succ j : sg (j + 1) = - sg j.
Proof. unfold sg. rewrite Z.even_add. destruct (Z.even j); cbn; ring. Qed.
Lemma zn_alternate s h j : IZR (zn 0%Z (alternate s h) j) = (if s then 1 else -1) * sg j * IZR (zn 0%Z h j).
Proof.
  revert s j. induction h as [|a h IH]; intros s j; cbn [alternate].
  - rewrite !zn_out by (unfold zlen; cbn; lia). ring.
  - rewrite !zn_cons. destruct (Z.eqb_spec j 0); [|destruct (Z.ltb_spec j 0)].
    + subst. unfold sg. cbn. destruct s; rewrite ?opp_IZR; ring.
    + ring.
    + rewrite IH. replace (sg j) with (- sg (j - 1)) by (rewrite <- sg_succ; f_equal; lia). destruct s; cbn; ring.
Qed.

Definition E14 : R := IZR (10 ^ 14).
Lemma E14_pos : 0 < E14.
Proof. unfold E14. apply IZR_lt. reflexivity. Qed.
Lemma zn_decimal (l : list Z) i : zn 0 (map decimal l) i = IZR (zn 0%Z l i) / E14.
Proof.
  pose proof E14_pos. destruct (Z_lt_ge_dec i 0) as [L|L]; [|destruct (Z_lt_ge_dec i (zlen l)) as [L'|L']].
  - rewrite !zn_out by (rewrite ?zlen_map; lia). field. lra.
  - rewrite (zn_map _ 0%Z) by lia. reflexivity.
  - rewrite !zn_out by (rewrite ?zlen_map; lia). field. lra.
Qed.

Section Pair.
  Variables (l h : list Z) (n : Z).
  Hypothesis Ll : zlen l = n.
  Hypothesis Lh : zlen h = n.
  Hypothesis Hpos : (1 <= n)%Z.
  Notation rl := (map decimal l).
  Notation rh := (map decimal h).
  Lemma lag_of d : lag rl rh n d = - IZR (zn 0%Z (conv (alternate true h) l) d) / (E14 * E14).
  Proof.
    unfold lag. rewrite zn_conv, zlen_alternate, Lh. pose proof E14_pos. unfold Rdiv. rewrite <- Ropp_mult_distr_l. f_equal.
    rewrite Rmult_comm, <- rsum_scal. apply rsum_ext. intros j Hj. rewrite !zn_decimal, zn_alternate. field. lra.
  Qed.
  Lemma zlen_add a b : zlen (add a b) = Z.max (zlen a) (zlen b).
  Proof.
    revert b. induction a as [|x a IH]; intros b; [cbn [add]; pose proof (zlen_nonneg b); unfold zlen at 2; cbn [length]; lia|].
    destruct b as [|y b]; cbn [add].
    - pose proof (zlen_nonneg (x :: a)). unfold zlen at 3. cbn [length]. lia.
    - specialize (IH b). unfold zlen in *. cbn [length]. lia.
  Qed.
  Lemma zlen_conv g : (zlen (conv g l) <= zlen g + n)%Z.
  Proof.
    induction g as [|a g IH]; cbn [conv]; [unfold zlen; cbn [length]; lia|]. rewrite zlen_add, zlen_map.
    unfold zlen in *. cbn [length]. lia.
  Qed.
  Lemma deviation_sum peak d0 c m : (zlen c <= m)%Z -> (peak < d0 + zlen c)%Z ->
    IZR (deviation peak d0 c) = rsum m (fun i => if Z.odd (d0 + i) then Rabs (- IZR (zn 0%Z c i) - (if (d0 + i =? peak)%Z then E14 * E14 else 0)) else 0).
  Proof.
    revert d0 m. induction c as [|a c IH]; intros d0 m Hm Hp; cbn [deviation].
    - symmetry. apply rsum_zero. intros i Hi. unfold zlen in Hp. cbn [length] in Hp. destruct (Z.odd _), (Z.eqb_spec (d0 + i) peak); try lia; auto.
      rewrite zn_out by (unfold zlen; cbn; lia). rewrite Ropp_0, Rminus_0_r. apply Rabs_R0.
    - assert (Hc : zlen (a :: c) = (zlen c + 1)%Z) by (unfold zlen; cbn [length]; lia). pose proof (zlen_nonneg c).
      rewrite rsum_first by lia. rewrite plus_IZR. f_equal.
      + rewrite Z.add_0_r. change (zn 0%Z (a :: c) 0) with a. destruct (Z.odd d0); auto. rewrite abs_IZR, minus_IZR, opp_IZR.
        destruct (d0 =? peak)%Z; auto. f_equal. f_equal. unfold E14. rewrite <- mult_IZR. reflexivity.
      + rewrite (IH (d0 + 1)%Z (m - 1)%Z) by lia. apply rsum_ext. intros i Hi. replace (d0 + 1 + i)%Z with (d0 + (i + 1))%Z by lia.
        rewrite zn_cons. destruct (Z.eqb_spec (i + 1) 0), (Z.ltb_spec (i + 1) 0); try lia. now replace (i + 1 - 1)%Z with i by lia.
  Qed.
  Lemma defect_of : (n <= zlen (conv (alternate true h) l))%Z ->
    defect rl rh n = IZR (deviation (n - 1) 0 (conv (alternate true h) l)) / (E14 * E14).
  Proof.
    intros HL. pose proof E14_pos. unfold defect.
    pose proof (zlen_conv (alternate true h)) as B. rewrite zlen_alternate in B.
    rewrite (deviation_sum _ _ _ (2 * n)) by lia. unfold Rdiv. rewrite Rmult_comm, <- rsum_scal. apply rsum_ext. intros d Hd. rewrite Z.add_0_l.
    destruct (Z.odd d); [|ring]. rewrite lag_of.
    assert (P : 0 < / (E14 * E14)) by (apply Rinv_0_lt_compat; nra).
    match goal with |- Rabs ?u = _ * Rabs ?v => transitivity (Rabs (/ (E14 * E14) * v)) end.
    - f_equal. destruct (d =? n - 1)%Z; field; lra.
    - rewrite Rabs_mult. rewrite (Rabs_pos_eq (/ _)) by lra. reflexivity.
  Qed.
  Lemma mirror_of : Z.even n = true -> h = alternate false (rev l) -> forall j, (0 <= j < n)%Z -> zn 0 rh j = - (sg j * zn 0 rl (n - 1 - j)).
  Proof.
    intros He Hm j Hj. rewrite !zn_decimal, Hm, zn_alternate, zn_rev by lia. rewrite Ll. pose proof E14_pos. field. lra.
  Qed.
  Lemma total_sum c : IZR (total c) = rsum (zlen c) (fun i => IZR (zn 0%Z c i)).
  Proof.
    induction c as [|a c IH]; cbn [total]; [now rewrite rsum_0 by (unfold zlen; cbn; lia)|].
    assert (Hc : zlen (a :: c) = (zlen c + 1)%Z) by (unfold zlen; cbn [length]; lia). pose proof (zlen_nonneg c).
    rewrite Hc, rsum_first by lia. rewrite plus_IZR, IH. f_equal. replace (zlen c + 1 - 1)%Z with (zlen c) by lia.
    apply rsum_ext. intros i Hi. rewrite zn_cons. destruct (Z.eqb_spec (i + 1) 0), (Z.ltb_spec (i + 1) 0); try lia. now replace (i + 1 - 1)%Z with i by lia.
  Qed.
  Lemma zlen_weigh i v : zlen (weigh i v) = zlen v.
  Proof. unfold zlen. f_equal. revert i. induction v; intros; cbn [weigh length]; auto. Qed.
  Lemma zn_weigh i0 v i : zn 0%Z (weigh i0 v) i = ((i0 + i) * zn 0%Z v i)%Z.
  Proof.
    revert i0 i. induction v as [|a v IH]; intros i0 i; cbn [weigh].
    - rewrite zn_out by (unfold zlen; cbn; lia). lia.
    - rewrite !zn_cons. destruct (Z.eqb_spec i 0), (Z.ltb_spec i 0); try lia. rewrite IH. lia.
  Qed.
  Lemma moments_of e order m0 v p : (0 < e)%Z -> zlen v = n -> (0 <= m0)%Z -> IZR p = IZR n ^ Z.to_nat m0 ->
    (forall i, (0 <= i < n)%Z -> IZR (zn 0%Z v i) = IZR (zn 0%Z h i) * IZR i ^ Z.to_nat m0) ->
    moments_small e v p n order = true -> forall m, (m0 <= m < m0 + Z.of_nat order)%Z -> Rabs (moment rh m) <= / IZR e.
  Proof.
    intros He. revert m0 v p. induction order as [|o IH]; intros m0 v p Hv H0 Hp Hi T m Hm; [lia|]. cbn [moments_small] in T.
    apply andb_true_iff in T. destruct T as [T1 T2]. destruct (Z.eq_dec m m0) as [->|N].
    - clear IH T2. apply Z.leb_le in T1. apply IZR_le in T1. rewrite !mult_IZR in T1. fold E14 in T1. rewrite abs_IZR, total_sum, Hv, Hp in T1.
      assert (N : 0 < IZR n ^ Z.to_nat m0) by (apply pow_lt, IZR_lt; lia). pose proof E14_pos. apply IZR_lt in He.
      unfold moment. rewrite zlen_map, Lh.
      rewrite (rsum_ext n _ (fun i => / (E14 * IZR n ^ Z.to_nat m0) * IZR (zn 0%Z v i))).
      + rewrite rsum_scal, Rabs_mult. rewrite (Rabs_pos_eq (/ _)) by (left; apply Rinv_0_lt_compat; nra).
        apply Rmult_le_reg_l with (E14 * IZR n ^ Z.to_nat m0); [nra|]. rewrite <- Rmult_assoc, Rinv_r by nra.
        apply Rmult_le_reg_l with (IZR e); [lra|]. rewrite Rmult_1_l. eapply Rle_trans; [apply T1|]. right. field. lra.
      + intros i Hn. rewrite Hi by auto. rewrite zn_decimal. unfold Rdiv at 2. rewrite Rpow_mult_distr, pow_inv. field. split; lra.
    - apply (IH (m0 + 1)%Z (weigh 0 v) (p * n)%Z); auto; try lia.
      + now rewrite zlen_weigh.
      + rewrite mult_IZR, Hp. replace (Z.to_nat (m0 + 1)) with (S (Z.to_nat m0)) by lia. cbn [pow]. ring.
      + intros i Hn. rewrite zn_weigh, mult_IZR, Hi by auto. replace (Z.to_nat (m0 + 1)) with (S (Z.to_nat m0)) by lia. cbn [pow]. rewrite Z.add_0_l. ring.
  Qed.
End Pair.

(** Coefficients as stored. *)
Definition U : R := bpow radix2 (-51).
Lemma U_pos : 0 < U.
Proof. apply bpow_gt_0. Qed.
Lemma literal_near z : (Z.abs z <= 2 * 10 ^ 14)%Z -> Rabs (literal z - decimal z) <= U.
Proof.
  intros H. unfold literal, rnd. destruct (Z.eq_dec z 0) as [->|N].
  - unfold decimal, Rdiv. rewrite Rmult_0_l, round_0 by (apply valid_rnd_N). rewrite Rminus_0_r, Rabs_R0. left. apply U_pos.
  - pose proof E14_pos. unfold E14 in *.
    assert (A : Rabs (decimal z) <= 2).
    { unfold decimal, Rdiv. rewrite Rabs_mult, (Rabs_pos_eq (/ _)) by (left; now apply Rinv_0_lt_compat). rewrite <- abs_IZR.
      apply Rmult_le_reg_r with (IZR (10 ^ 14)); auto. rewrite Rmult_assoc, Rinv_l, Rmult_1_r by lra. rewrite <- mult_IZR. apply IZR_le. lia. }
    eapply Rle_trans; [apply relative_error_N_FLT; [reflexivity|]|].
    + apply Rle_trans with (bpow radix2 (-47)); [apply bpow_le; lia|]. unfold decimal, Rdiv. rewrite Rabs_mult, (Rabs_pos_eq (/ _)) by (left; now apply Rinv_0_lt_compat).
      rewrite <- abs_IZR. apply Rmult_le_reg_r with (IZR (10 ^ 14)); auto. rewrite Rmult_assoc, Rinv_l, Rmult_1_r by lra.
      apply Rle_trans with 1.
      * apply Rmult_le_reg_l with (bpow radix2 47); [apply bpow_gt_0|]. rewrite <- Rmult_assoc, <- bpow_plus, Rmult_1_r. change (bpow radix2 (47 + -47)) with 1.
        rewrite Rmult_1_l. rewrite <- IZR_Zpower by lia. apply IZR_le. vm_compute. discriminate.
      * apply IZR_le. lia.
    + change (-53 + 1)%Z with (-52)%Z. unfold U. replace (bpow radix2 (-51)) with (2 * bpow radix2 (-52)) by (change (-51)%Z with (1 + -52)%Z; rewrite bpow_plus; reflexivity).
      change (- (53) + 1)%Z with (-52)%Z. pose proof (bpow_gt_0 radix2 (-52)). pose proof (Rabs_pos (decimal z)). nra.
Qed.
Lemma literal_opp z : literal (- z) = - literal z.
Proof.
  unfold literal, rnd. rewrite <- round_NE_opp. f_equal. unfold decimal. rewrite opp_IZR. unfold Rdiv. ring.
Qed.
Lemma literal_0 : literal 0 = 0.
Proof. unfold literal, rnd, decimal, Rdiv. rewrite Rmult_0_l. apply round_0. apply valid_rnd_N. Qed.
Lemma zn_literal (l : list Z) i : zn 0 (map literal l) i = literal (zn 0%Z l i).
Proof.
  destruct (Z_lt_ge_dec i 0) as [L|L]; [|destruct (Z_lt_ge_dec i (zlen l)) as [L'|L']].
  - rewrite !zn_out by (rewrite ?zlen_map; lia). now rewrite literal_0.
  - rewrite (zn_map _ 0%Z) by lia. reflexivity.
  - rewrite !zn_out by (rewrite ?zlen_map; lia). now rewrite literal_0.
Qed.

Fixpoint all_small (l : list Z) : bool := match l with [] => true | z :: l => (Z.abs z <=? 2 * 10 ^ 14)%Z && all_small l end.
Lemma all_small_at l i : all_small l = true -> (Z.abs (zn 0%Z l i) <= 2 * 10 ^ 14)%Z.
Proof.
  revert i. induction l as [|z l IH]; intros i H; cbn [all_small] in H.
  - rewrite zn_out by (unfold zlen; cbn; lia). lia.
  - apply andb_true_iff in H. destruct H as [H1 H2]. apply Z.leb_le in H1. rewrite zn_cons. destruct (_ =? _)%Z; auto. destruct (_ <? _)%Z; [lia|auto].
Qed.

Section Stored.
  Variables (l h : list Z) (n : Z).
  Hypothesis Ll : zlen l = n.
  Hypothesis Lh : zlen h = n.
  Hypothesis Hpos : (1 <= n)%Z.
  Hypothesis Sl : all_small l = true.
  Hypothesis Sh : all_small h = true.
  Lemma near_at c i : all_small c = true -> Rabs (zn 0 (map literal c) i - zn 0 (map decimal c) i) <= U /\ Rabs (zn 0 (map decimal c) i) <= 2.
  Proof.
    intros S. pose proof (all_small_at c i S) as A. split.
    - rewrite zn_literal, zn_decimal. apply (literal_near _ A).
    - rewrite zn_decimal. pose proof E14_pos. unfold Rdiv. rewrite Rabs_mult, (Rabs_pos_eq (/ _)) by (left; now apply Rinv_0_lt_compat). rewrite <- abs_IZR.
      apply Rmult_le_reg_r with E14; auto. rewrite Rmult_assoc, Rinv_l, Rmult_1_r by lra. unfold E14. rewrite <- mult_IZR. apply IZR_le. lia.
  Qed.
  Lemma U_le_1 : U <= 1.
  Proof. change 1 with (bpow radix2 0). apply bpow_le. lia. Qed.
  Lemma lag_near d : Rabs (lag (map literal l) (map literal h) n d - lag (map decimal l) (map decimal h) n d) <= IZR n * (5 * U).
  Proof.
    unfold lag. replace (- _ - - _) with (- (rsum n (fun j => sg j * zn 0 (map literal h) j * zn 0 (map literal l) (d - j)) -
      rsum n (fun j => sg j * zn 0 (map decimal h) j * zn 0 (map decimal l) (d - j)))) by ring.
    rewrite Rabs_Ropp, <- rsum_minus. eapply Rle_trans; [apply rsum_abs|].
    eapply Rle_trans; [apply rsum_le with (g := fun _ => 5 * U)|rewrite rsum_const by lia; lra].
    intros j Hj. destruct (near_at h j Sh) as [A1 A2]. destruct (near_at l (d - j) Sl) as [B1 B2].
    generalize dependent (zn 0 (map literal h) j). generalize dependent (zn 0 (map decimal h) j).
    generalize dependent (zn 0 (map literal l) (d - j)). generalize dependent (zn 0 (map decimal l) (d - j)). intros b Hb b' Hb' a Ha a' Ha'.
    replace (sg j * a' * b' - sg j * a * b) with (sg j * ((a' - a) * (b' - b) + (a' - a) * b + a * (b' - b))) by ring.
    rewrite Rabs_mult. replace (Rabs (sg j)) with 1 by (unfold sg; destruct (Z.even j); [symmetry; apply Rabs_R1|rewrite Rabs_left by lra; ring]). rewrite Rmult_1_l.
    pose proof U_pos. pose proof U_le_1.
    pose proof (Rabs_pos (a' - a)). pose proof (Rabs_pos (b' - b)). pose proof (Rabs_pos a). pose proof (Rabs_pos b).
    eapply Rle_trans; [apply Rabs_triang|]. eapply Rle_trans; [apply Rplus_le_compat_r, Rabs_triang|]. rewrite !Rabs_mult. nra.
  Qed.
  Lemma defect_near : defect (map literal l) (map literal h) n <= defect (map decimal l) (map decimal h) n + IZR (10 * n * n) * U.
  Proof.
    unfold defect. replace (IZR (10 * n * n) * U) with (rsum (2 * n) (fun _ => IZR n * (5 * U))).
    2: { rewrite rsum_const by lia. rewrite !mult_IZR. ring. }
    rewrite <- rsum_plus. apply rsum_le. intros d Hd. pose proof (lag_near d) as N. pose proof (Rabs_pos (lag (map literal l) (map literal h) n d - lag (map decimal l) (map decimal h) n d)).
    destruct (Z.odd d); [|lra]. set (y := if (d =? n - 1)%Z then 1 else 0).
    replace (lag (map literal l) (map literal h) n d - y) with ((lag (map literal l) (map literal h) n d - lag (map decimal l) (map decimal h) n d) + (lag (map decimal l) (map decimal h) n d - y)) by ring.
    eapply Rle_trans; [apply Rabs_triang|]. lra.
  Qed.
  Lemma mirror_stored : h = alternate false (rev l) -> forall j, (0 <= j < n)%Z -> zn 0 (map literal h) j = - (sg j * zn 0 (map literal l) (n - 1 - j)).
  Proof.
    intros Hm j Hj. rewrite !zn_literal. assert (Q : zn 0%Z h j = (if Z.even j then - zn 0%Z l (n - 1 - j) else zn 0%Z l (n - 1 - j))%Z).
    { apply eq_IZR. rewrite Hm, zn_alternate, zn_rev by lia. rewrite Ll. unfold sg. destruct (Z.even j); rewrite ?opp_IZR; ring. }
    rewrite Q. unfold sg. destruct (Z.even j); rewrite ?literal_opp; ring.
  Qed.
  Lemma moment_near m : Rabs (moment (map literal h) m) <= Rabs (moment (map decimal h) m) + IZR n * U.
  Proof.
    unfold moment. rewrite !zlen_map, Lh.
    replace (rsum n (fun i => zn 0 (map literal h) i * (IZR i / IZR n) ^ Z.to_nat m)) with
      (rsum n (fun i => zn 0 (map decimal h) i * (IZR i / IZR n) ^ Z.to_nat m) + rsum n (fun i => (zn 0 (map literal h) i - zn 0 (map decimal h) i) * (IZR i / IZR n) ^ Z.to_nat m)).
    2: { rewrite <- rsum_plus. apply rsum_ext. intros. ring. }
    eapply Rle_trans; [apply Rabs_triang|]. apply Rplus_le_compat_l. eapply Rle_trans; [apply rsum_abs|].
    eapply Rle_trans; [apply rsum_le with (g := fun _ => U)|rewrite rsum_const by lia; lra].
    intros i Hi. destruct (near_at h i Sh) as [A _]. rewrite Rabs_mult. pose proof U_pos.
    assert (P : 0 <= (IZR i / IZR n) ^ Z.to_nat m <= 1).
    { assert (Q : 0 <= IZR i / IZR n <= 1).
      { assert (0 < IZR n) by (apply IZR_lt; lia). split.
        - apply Rmult_le_pos; [apply IZR_le; lia|left; now apply Rinv_0_lt_compat].
        - apply Rmult_le_reg_r with (IZR n); auto. unfold Rdiv. rewrite Rmult_assoc, Rinv_l, Rmult_1_r, Rmult_1_l by lra. apply IZR_le. lia. }
      generalize dependent (IZR i / IZR n). intros q Hq. induction (Z.to_nat m) as [|k IHk]; cbn [pow]; nra. }
    rewrite (Rabs_pos_eq (_ ^ _)) by lra. pose proof (Rabs_pos (zn 0 (map literal h) i - zn 0 (map decimal h) i)). nra.
  Qed.
  Lemma sum_near : Rabs (rsum n (fun i => zn 0 (map literal l) i) - IZR (total l) / E14) <= IZR n * U.
  Proof.
    rewrite total_sum, Ll. unfold Rdiv. rewrite Rmult_comm, <- rsum_scal, <- rsum_minus. eapply Rle_trans; [apply rsum_abs|].
    eapply Rle_trans; [apply rsum_le with (g := fun _ => U)|rewrite rsum_const by lia; lra].
    intros i Hi. destruct (near_at l i Sl) as [A _]. rewrite zn_decimal in A. unfold Rdiv in A. now rewrite (Rmult_comm (/ E14)).
  Qed.
End Stored.
