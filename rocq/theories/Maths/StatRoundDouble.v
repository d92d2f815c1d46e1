(** round and factorial in IEEE doubles. *)
From Coq Require Import ZArith Reals Lia Lra Psatz List Bool.
From Flocq Require Import Core.
From Flocq.IEEE754 Require Import BinarySingleNaN.
From Verif.Base Require Import Imp Sums RealOps Dbl Double Loops.
From Verif.Maths Require Import DoubleModel DoubleProofs RealModel StatDouble StatDoubleSpec StatDoubleProofs StatNormDouble.
Import ListNotations.
Open Scope R_scope.

Local Instance p53 : Prec_gt_0 53 := eq_refl.
Local Notation u := uro.
Local Notation fmt := (generic_format radix2 (FLT_exp (-1074) 53)).

Lemma fmt_make m e : (Z.abs m < 2 ^ 53)%Z -> (-1074 <= e)%Z -> fmt (IZR m * bpow radix2 e).
Proof. intros Hm He. apply generic_format_FLT. exists (Float radix2 m e); [reflexivity|exact Hm|exact He]. Qed.
(** A double of magnitude at least 2^e is a multiple of 2^(e-52). *)
Lemma fmt_multiple x e : fmt x -> (-1000 <= e)%Z -> bpow radix2 e <= Rabs x -> exists k, x = IZR k * bpow radix2 (e - 52).
Proof.
  intros F He H. unfold generic_format in F. set (M := Ztrunc _) in F. set (c := cexp _ _ _) in F.
  assert (C : (e - 52 <= c)%Z).
  { unfold c, cexp, FLT_exp. assert (e + 1 <= mag radix2 x)%Z; [|lia]. apply mag_ge_bpow. replace (e + 1 - 1)%Z with e by lia. exact H. }
  exists (M * 2 ^ (c - (e - 52)))%Z. rewrite F at 1. unfold F2R. cbn [Fnum Fexp]. rewrite mult_IZR, Rmult_assoc. f_equal.
  change 2%Z with (radix_val radix2) at 1. rewrite IZR_Zpower by lia. rewrite <- bpow_plus. f_equal. lia.
Qed.

Lemma bpow_half : bpow radix2 (-1) = / 2. Proof. reflexivity. Qed.

(** Adding a half does not reach the next integer, except from the double just below 1/2. *)
Lemma half_below x m : fmt x -> (0 <= m <= 4503599627370495)%Z -> IZR m - / 2 <= x < IZR m + / 2 -> 0 <= x -> x <> / 2 - / 18014398509481984 -> rnd (x + / 2) < IZR m + 1.
Proof.
  intros F Hm Hx X0 NE.
  assert (W : exists w, fmt w /\ x + / 2 <= w < IZR m + 1).
  { destruct (Z.eq_dec m 0) as [->|N].
    - destruct (Rle_dec x (/ 4)) as [C|C].
      + exists (IZR 3 * bpow radix2 (-2)). split; [apply fmt_make; lia|]. change (bpow radix2 (-2)) with (/ 4). lra.
      + destruct (fmt_multiple x (-2) F ltac:(lia)) as (k & Hk); [change (bpow radix2 (-2)) with (/ 4); rewrite Rabs_pos_eq; lra|].
        change (bpow radix2 (-2 - 52)) with (/ 18014398509481984) in Hk.
        assert (K1 : (k < 9007199254740992)%Z) by (apply lt_IZR; lra). assert (K2 : (k <> 9007199254740991)%Z) by (intros ->; apply NE; lra).
        assert (K3 : IZR k <= 9007199254740990) by (apply IZR_le; lia).
        exists (IZR 9007199254740991 * bpow radix2 (-53)). split; [apply fmt_make; lia|]. change (bpow radix2 (-53)) with (/ 9007199254740992). lra.
    - set (e := Z.log2 m). pose proof (Z.log2_spec m ltac:(lia)) as [L1 L2]. fold e in L1, L2. pose proof (Z.log2_nonneg m) as E0. fold e in E0.
      assert (E1 : (e <= 51)%Z).
      { assert (e < 52)%Z; [|lia]. apply Z.log2_lt_pow2; lia. }
      assert (B : bpow radix2 e = IZR (2 ^ e)) by (rewrite <- IZR_Zpower by lia; reflexivity).
      destruct (Rle_dec (bpow radix2 e) x) as [C|C].
      + destruct (fmt_multiple x e F ltac:(lia)) as (k & Hk); [rewrite Rabs_pos_eq; lra|].
        set (b := bpow radix2 (e - 52)) in *. assert (BP : 0 < b) by apply bpow_gt_0.
        assert (P : bpow radix2 (52 - e) * b = 1) by (unfold b; rewrite <- bpow_plus; replace (52 - e + (e - 52))%Z with 0%Z by lia; reflexivity).
        assert (P2 : bpow radix2 (51 - e) * b = / 2) by (unfold b; rewrite <- bpow_plus; replace (51 - e + (e - 52))%Z with (-1)%Z by lia; reflexivity).
        rewrite <- (IZR_Zpower radix2 (52 - e)) in P by lia. rewrite <- (IZR_Zpower radix2 (51 - e)) in P2 by lia. change (Z.pow radix2) with (Z.pow 2) in P, P2.
        assert (K : (k < m * 2 ^ (52 - e) + 2 ^ (51 - e))%Z).
        { apply lt_IZR. rewrite plus_IZR, mult_IZR. apply Rmult_lt_reg_r with b; [exact BP|]. rewrite <- Hk.
          replace ((IZR m * IZR (2 ^ (52 - e)) + IZR (2 ^ (51 - e))) * b) with (IZR m * (IZR (2 ^ (52 - e)) * b) + IZR (2 ^ (51 - e)) * b) by ring. rewrite P, P2. lra. }
        assert (K' : IZR k <= IZR m * IZR (2 ^ (52 - e)) + IZR (2 ^ (51 - e)) - 1).
        { rewrite <- mult_IZR, <- plus_IZR, <- minus_IZR. apply IZR_le. lia. }
        exists (IZR ((m + 1) * 2 ^ (52 - e) - 1) * b). split.
        * apply fmt_make; [|lia].
          assert (Q : (2 ^ Z.succ e * 2 ^ (52 - e) = 2 ^ 53)%Z) by (rewrite <- Z.pow_add_r by lia; f_equal; lia).
          assert (Q1 : (0 < 2 ^ (52 - e))%Z) by (apply Z.pow_pos_nonneg; lia).
          assert ((m + 1) * 2 ^ (52 - e) <= 2 ^ Z.succ e * 2 ^ (52 - e))%Z by (apply Z.mul_le_mono_nonneg_r; lia).
          assert (0 < (m + 1) * 2 ^ (52 - e))%Z by (apply Z.mul_pos_pos; lia). lia.
        * rewrite minus_IZR, mult_IZR, plus_IZR.
          replace (((IZR m + 1) * IZR (2 ^ (52 - e)) - 1) * b) with ((IZR m + 1) * (IZR (2 ^ (52 - e)) * b) - b) by ring. rewrite P. split; [|lra].
          pose proof (Rmult_le_compat_r b _ _ (Rlt_le _ _ BP) K') as KK. rewrite <- Hk in KK.
          replace ((IZR m * IZR (2 ^ (52 - e)) + IZR (2 ^ (51 - e)) - 1) * b) with (IZR m * (IZR (2 ^ (52 - e)) * b) + IZR (2 ^ (51 - e)) * b - b) in KK by ring.
          rewrite P, P2 in KK. lra.
      + exists (IZR (2 * m + 1) * bpow radix2 (-1)). split; [apply fmt_make; lia|]. rewrite bpow_half, plus_IZR, mult_IZR.
        assert (IZR (2 ^ e) <= IZR m) by (apply IZR_le; lia). lra. }
  destruct W as (w & Fw & W1 & W2). apply Rle_lt_trans with w; [|exact W2]. rewrite <- (rnd_format w Fw). apply rnd_le. exact W1.
Qed.

Lemma dpoint5_ok : finite dpoint5 /\ dval dpoint5 = / 2.
Proof.
  assert (E : F2R (Float radix2 1 (-1)) = / 2) by (unfold F2R; cbn; lra).
  destruct (dmake_ok 1 (-1)) as [F V].
  - rewrite E. apply (small_huge _ 0); [rewrite Rabs_pos_eq; cbn; lra|lia].
  - split; [exact F|]. unfold dpoint5. rewrite V, E. apply rnd_format. replace (/ 2) with (IZR 1 * bpow radix2 (-1)) by (rewrite bpow_half; lra). apply fmt_make; lia.
Qed.

Lemma floor_half x : finite x -> 0 <= dval x <= 4503599627370495 -> dval x <> / 2 - / 18014398509481984 ->
  finite (dfloor (dadd x dpoint5)) /\ dval (dfloor (dadd x dpoint5)) = IZR (Raux.Zfloor (dval x + / 2)).
Proof.
  intros F H NE. destruct dpoint5_ok as [F5 V5]. destruct (dadd_ok x dpoint5 F F5) as [Fa Va].
  { rewrite V5. apply (small_huge _ 60); [|lia]. change (bpow radix2 60) with 1152921504606846976. rewrite Rabs_pos_eq; lra. }
  rewrite V5 in Va. set (m := Raux.Zfloor (dval x + / 2)). pose proof (Zfloor_lb (dval x + / 2)) as L. pose proof (Zfloor_ub (dval x + / 2)) as U. fold m in L, U.
  assert (M : (0 <= m <= 4503599627370495)%Z).
  { clearbody m. clear NE Va. destruct H as [H1 H2]. split.
    - assert (-1 < m)%Z; [|lia]. apply lt_IZR. change (IZR (-1)) with (-1)%R. lra.
    - assert (m < 4503599627370496)%Z; [|lia]. apply lt_IZR. lra. }
  pose proof (half_below (dval x) m (dval_format x) M ltac:(lra) ltac:(lra) NE) as HB.
  assert (LB : IZR m <= rnd (dval x + / 2)) by (rewrite <- (rnd_int m) by (unfold two53; lia); apply rnd_le; lra).
  assert (MI : IZR m <= 4503599627370495) by (apply IZR_le; lia). assert (M0 : 0 <= IZR m) by (apply IZR_le; lia).
  destruct (dfloor_ok (dadd x dpoint5) Fa) as [Ff Vf]; [rewrite Va, Rabs_pos_eq; lra|]. split; [exact Ff|]. rewrite Vf, Va. f_equal. apply Zfloor_imp. rewrite plus_IZR. lra.
Qed.
Lemma floor_nearest x : 0 <= x -> nearest_away x (Raux.Zfloor (x + / 2)).
Proof.
  intros H. pose proof (Zfloor_lb (x + / 2)) as L. pose proof (Zfloor_ub (x + / 2)) as U. set (r := IZR (Raux.Zfloor (x + / 2))) in *. split; fold r.
  - apply Rabs_le. lra.
  - intros E. destruct (Rle_dec r x) as [C|C]; [rewrite Rabs_left1 in E by lra; lra|]. rewrite !Rabs_pos_eq; lra.
Qed.
Lemma nearest_away_opp x r : nearest_away (- x) r -> nearest_away x (- r).
Proof.
  unfold nearest_away. rewrite opp_IZR. replace (- IZR r - x) with (- (IZR r - - x)) by ring. rewrite !Rabs_Ropp. auto.
Qed.

Theorem round_doubles x : finite x -> Rabs (dval x) <= 4503599627370495 -> Rabs (dval x) <> / 2 - / 18014398509481984 ->
  finite (dround x) /\ exists r, dval (dround x) = IZR r /\ nearest_away (dval x) r.
Proof.
  intros F H NE. unfold dround. rewrite dltb_val by (assumption || reflexivity). change (dval d0) with 0.
  destruct (Rlt_bool_spec (dval x) 0) as [C|C].
  - destruct (dminus_ok x F) as [Fm Vm]. rewrite Rabs_left in H, NE by lra.
    destruct (floor_half (dminus x)) as [Ff Vf]; [exact Fm|rewrite Vm; lra|rewrite Vm; exact NE|].
    destruct (dminus_ok _ Ff) as [Fr Vr]. split; [exact Fr|]. rewrite Vr, Vf, Vm, <- opp_IZR. eexists. split; [reflexivity|]. apply nearest_away_opp, floor_nearest. lra.
  - rewrite Rabs_pos_eq in H, NE by lra. destruct (floor_half x) as [Ff Vf]; auto. split; [exact Ff|]. rewrite Vf. eexists. split; [reflexivity|]. apply floor_nearest. lra.
Qed.

(** ** Where it goes wrong *)
Lemma beqb_val x y : finite x -> finite y -> Beqb x y = true -> dval x = dval y.
Proof. intros Fx Fy H. rewrite Beqb_correct in H by assumption. revert H. case Req_bool_spec; [auto|discriminate]. Qed.
Definition below_half : double := dmake 9007199254740991 (-54).
Definition odd53 : double := dint 4503599627370497.
Lemma make_val m e : (Z.abs m < 2 ^ 53)%Z -> (-1000 <= e <= 900)%Z -> finite (dmake m e) /\ dval (dmake m e) = IZR m * bpow radix2 e.
Proof.
  intros Hm He. assert (E : F2R (Float radix2 m e) = IZR m * bpow radix2 e) by reflexivity.
  assert (B : Rabs (IZR m) <= bpow radix2 53) by (rewrite <- abs_IZR; change (bpow radix2 53) with (IZR (2 ^ 53)); apply IZR_le; lia).
  destruct (dmake_ok m e) as [F V].
  - rewrite E, Rabs_mult, (Rabs_pos_eq (bpow radix2 e)) by apply bpow_ge_0. unfold huge. apply Rle_trans with (bpow radix2 53 * bpow radix2 e).
    + apply Rmult_le_compat_r; [apply bpow_ge_0|exact B].
    + rewrite <- bpow_plus. apply bpow_le. lia.
  - split; [exact F|]. rewrite V, E. apply rnd_format. apply fmt_make; [exact Hm|lia].
Qed.
Theorem round_half_refuted : exists x, finite x /\ 0 < dval x < / 2 /\ dval (dround x) = 1.
Proof.
  exists below_half. destruct (make_val 9007199254740991 (-54)) as [F V]; [lia|lia|].
  split; [exact F|]. split.
  - unfold below_half. rewrite V. change (bpow radix2 (-54)) with (/ 18014398509481984). lra.
  - destruct (dint_ok 1) as [F1 V1]; [reflexivity|]. rewrite <- V1. apply beqb_val; [vm_compute; reflexivity|exact F1|vm_compute; reflexivity].
Qed.
Theorem round_large_refuted : exists x, finite x /\ dval x = 4503599627370497 /\ dval (dround x) = 4503599627370498.
Proof.
  exists odd53. destruct (dint_ok 4503599627370497) as [F V]; [reflexivity|]. split; [exact F|]. split; [exact V|].
  destruct (dint_ok 4503599627370498) as [F1 V1]; [reflexivity|]. rewrite <- V1. apply beqb_val; [vm_compute; reflexivity|exact F1|vm_compute; reflexivity].
Qed.

(** ** factorial *)
Definition fact_close (x : nat) : bool :=
  match dfactorial (Z.of_nat x) with
  | OK (B754_finite false m e _) =>
      let f := fact_Z x in
      if (0 <=? e)%Z then (Z.abs (Zpos m * 2 ^ e - f) * 2 ^ 53 <=? 7 * f)%Z
      else (Z.abs (Zpos m - f * 2 ^ (- e)) * 2 ^ 53 <=? 7 * f * 2 ^ (- e))%Z
  | _ => false
  end.
Definition fact_exact (x : nat) : bool :=
  match dfactorial (Z.of_nat x) with
  | OK (B754_finite false m e _) => if (0 <=? e)%Z then (Zpos m * 2 ^ e =? fact_Z x)%Z else (Zpos m =? fact_Z x * 2 ^ (- e))%Z
  | _ => false
  end.
Lemma close_all : forallb fact_close (seq 0 171) = true. Proof. vm_compute. reflexivity. Qed.
Lemma exact_all : forallb fact_exact (seq 0 23) = true. Proof. vm_compute. reflexivity. Qed.
Lemma fact_pos n : (0 < fact_Z n)%Z. Proof. induction n as [|n IH]; [reflexivity|]. cbn [fact_Z]. lia. Qed.

Lemma close_val x : fact_close x = true -> exists f, dfactorial (Z.of_nat x) = OK f /\ finite f /\ Rabs (dval f - IZR (fact_Z x)) <= 7 * u * IZR (fact_Z x).
Proof.
  unfold fact_close. destruct (dfactorial (Z.of_nat x)) as [f| | |]; try discriminate. destruct f as [| | |s m e Hb]; try discriminate. destruct s; try discriminate.
  intros H. eexists. split; [reflexivity|]. split; [reflexivity|]. pose proof uro_val as U. unfold dval, B2R, F2R. cbn [Fnum Fexp cond_Zopp]. cbv zeta in H.
  assert (P : IZR (2 ^ 53) = 9007199254740992) by reflexivity.
  destruct (Z.leb_spec 0 e) as [E|E].
  - apply Z.leb_le in H. apply IZR_le in H. rewrite !mult_IZR, abs_IZR, minus_IZR, mult_IZR, P in H.
    rewrite <- (IZR_Zpower radix2 e) by exact E. change (Z.pow radix2) with (Z.pow 2). rewrite U. lra.
  - apply Z.leb_le in H. apply IZR_le in H. rewrite !mult_IZR, abs_IZR, minus_IZR, mult_IZR, P in H.
    set (b := IZR (2 ^ (- e))) in *. assert (B : bpow radix2 e * b = 1).
    { unfold b. change 2%Z with (radix_val radix2). rewrite IZR_Zpower by lia. rewrite <- bpow_plus. replace (e + - e)%Z with 0%Z by lia. reflexivity. }
    set (c := bpow radix2 e) in *. assert (C : 0 < c) by apply bpow_gt_0. set (F := IZR (fact_Z x)) in *.
    replace (IZR (Z.pos m) * c - F) with ((IZR (Z.pos m) - F * b) * c) by (transitivity (IZR (Z.pos m) * c - F * (c * b)); [ring|rewrite B; ring]).
    rewrite Rabs_mult, (Rabs_pos_eq c) by lra.
    assert (H' : Rabs (IZR (Z.pos m) - F * b) <= 7 * F * b * / 9007199254740992) by lra.
    apply Rle_trans with (7 * F * b * / 9007199254740992 * c); [apply Rmult_le_compat_r; lra|].
    replace (7 * F * b * / 9007199254740992 * c) with (7 * F * / 9007199254740992 * (c * b)) by ring. rewrite B, U. lra.
Qed.
Lemma exact_val x : fact_exact x = true -> exists f, dfactorial (Z.of_nat x) = OK f /\ dval f = IZR (fact_Z x).
Proof.
  unfold fact_exact. destruct (dfactorial (Z.of_nat x)) as [f| | |]; try discriminate. destruct f as [| | |s m e Hb]; try discriminate. destruct s; try discriminate.
  intros H. eexists. split; [reflexivity|]. unfold dval, B2R, F2R. cbn [Fnum Fexp cond_Zopp].
  destruct (Z.leb_spec 0 e) as [E|E]; apply Z.eqb_eq in H.
  - rewrite <- H, mult_IZR. f_equal. rewrite <- (IZR_Zpower radix2 e) by exact E. reflexivity.
  - rewrite H, mult_IZR, Rmult_assoc. rewrite <- (Rmult_1_r (IZR (fact_Z x))) at 2. f_equal. change 2%Z with (radix_val radix2).
    rewrite IZR_Zpower, <- bpow_plus by lia. replace (- e + e)%Z with 0%Z by lia. reflexivity.
Qed.

Theorem factorial_doubles x : (0 <= x <= 170)%Z ->
  exists f, dfactorial x = OK f /\ finite f /\ Rabs (dval f - IZR (fact_Z (Z.to_nat x))) <= 7 * u * IZR (fact_Z (Z.to_nat x)) /\
    ((x <= 22)%Z -> dval f = IZR (fact_Z (Z.to_nat x))).
Proof.
  intros Hx. pose proof close_all as C. pose proof exact_all as D. rewrite forallb_forall in C, D.
  destruct (close_val (Z.to_nat x)) as (f & E & F & V); [apply C, in_seq; lia|]. rewrite Z2Nat.id in E by lia. exists f. splits; auto.
  intros Hs. destruct (exact_val (Z.to_nat x)) as (f' & E' & V'); [apply D, in_seq; lia|]. rewrite Z2Nat.id in E' by lia. rewrite E in E'. injection E' as <-. exact V'.
Qed.

Lemma inf_times i : (1 <= i <= 2147483647)%Z -> dmul (B754_infinity false) (dint i) = B754_infinity false.
Proof.
  intros Hi. destruct (dint_ok i) as [F V]; [unfold two53; lia|]. assert (P : 0 < IZR i) by (apply IZR_lt; lia).
  destruct (dint i) as [s| | |s m e Hb]; try discriminate.
  - exfalso. change (dval (B754_zero s)) with 0 in V. lra.
  - destruct s; [exfalso|reflexivity]. unfold dval, B2R, F2R in V. cbn [Fnum Fexp cond_Zopp] in V. 
    assert (Q : 0 < bpow radix2 e) by apply bpow_gt_0. assert (N : IZR (- Z.pos m) < 0) by (apply IZR_lt; lia).
    change (IZR (- Z.pos m) * bpow radix2 e = IZR i) in V. revert V N Q P. generalize (IZR (- Z.pos m)) (bpow radix2 e) (IZR i). intros a b c V N Q P. nra.
Qed.
Definition is_inf (r : res double) : bool := match r with OK (B754_infinity false) => true | _ => false end.
Lemma inf_171 : is_inf (for_up 1 172 (fun i f => OK (dmul f (dint i))) (dint 1)) = true.
Proof. vm_compute. reflexivity. Qed.
Lemma is_inf_OK r : is_inf r = true -> r = OK (B754_infinity false).
Proof. destruct r as [[|[|]| |]| | |]; try discriminate. reflexivity. Qed.
Theorem factorial_inf x : (171 <= x < 2147483647)%Z -> dfactorial x = OK (B754_infinity false).
Proof.
  intros Hx. unfold dfactorial. destruct (Z.ltb_spec x 0); [lia|]. rewrite (for_up_split 1 172) by lia. rewrite (is_inf_OK _ inf_171). cbn [bind].
  destruct (for_up_inv (fun _ f => f = B754_infinity false) 172 (x + 1) (fun i f => OK (dmul f (dint i))) (B754_infinity false)) as (s & E & ->); [lia|reflexivity| |exact E].
  intros i s Hi ->. exists (B754_infinity false). split; [|reflexivity]. f_equal. apply inf_times. lia.
Qed.
Lemma factorial_neg x : (x < 0)%Z -> dfactorial x = OK d0.
Proof. intros H. unfold dfactorial. destruct (Z.ltb_spec x 0); [reflexivity|lia]. Qed.
Lemma away_cases : nearest_away (5 / 2) 3 /\ ~ nearest_away (5 / 2) 2 /\ nearest_away (- (5 / 2)) (-3).
Proof.
  unfold nearest_away. splits.
  - replace (3 - 5 / 2) with (/ 2) by lra. rewrite Rabs_pos_eq; lra.
  - intros _. rewrite !Rabs_pos_eq; lra.
  - intros [_ H]. replace (2 - 5 / 2) with (- / 2) in H by lra. rewrite Rabs_Ropp, !Rabs_pos_eq in H by lra. specialize (H eq_refl). lra.
  - replace (-3 - - (5 / 2)) with (- / 2) by lra. rewrite Rabs_Ropp, Rabs_pos_eq; lra.
  - intros _. rewrite !Rabs_left1; lra.
Qed.
