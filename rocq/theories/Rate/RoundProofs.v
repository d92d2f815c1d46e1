(** The recursive filters of Decimator and DecimatorB in IEEE doubles: the rounding errors of
    all operations and of the coefficients act as a bounded disturbance of the difference
    equation, and the stability certificate bounds its effect for all time. *)
From Coq Require Import List ZArith QArith Qreals Reals Lia Lra Psatz Bool.
From Flocq Require Import Core.
From Verif.Base Require Import Imp Sums RealOps Dbl Double.
From Verif.Rate Require Import Df2tSpec Df2tProofs DecimatorModel DecimatorSpec DecimatorBModel
  StableSpec StableProofs.
Import ListNotations.
Open Scope R_scope.

Notation dcontribution := (contribution d0 dadd dsub dmul).
Notation dresponse b a := (iir_response d0 dadd dsub dmul (lead dlit b) (pairs dlit b a)).
Notation rresponse b a := (iir_response 0 Rplus Rminus Rmult (lead Q2R b) (pairs Q2R b a)).

Definition lits {T} (lit : Q -> T) (cs : list (Q * Q)) : list (T * T) := map (fun c => (lit (fst c), lit (snd c))) cs.
Lemma pairs_lits {T} (lit : Q -> T) b a : pairs lit b a = lits lit (combine (tl b) (tl a)).
Proof.
  unfold pairs, lits. generalize (tl b), (tl a). clear. intros b. induction b as [|q b IH]; intros [|p a]; cbn; auto.
  now rewrite IH.
Qed.

Lemma zn_dval (l : list double) t : zn 0 (map dval l) t = dval (zn d0 l t).
Proof.
  destruct (Z.lt_ge_cases t 0); [rewrite !zn_out by (rewrite ?zlen_map; lia); reflexivity|].
  destruct (Z.lt_ge_cases t (zlen l)); [|rewrite !zn_out by (rewrite ?zlen_map; lia); reflexivity].
  apply zn_map. lia.
Qed.

(** Weights of the coefficient pairs, and the disturbance they cause, in units of 2^-53 K. *)
Definition qw (c : Q * Q) : R := Rabs (Q2R (fst c)) + Rabs (Q2R (snd c)) + / 100.
Fixpoint wsum (cs : list (Q * Q)) : R := match cs with [] => 0 | c :: cs => qw c + wsum cs end.
Fixpoint wnoise (cs : list (Q * Q)) : R :=
  match cs with [] => 0 | c :: rest => 3 * qw c + wnoise rest + (qw c + wsum rest) end.
Lemma qw_pos c : 0 < qw c.
Proof. unfold qw. pose proof (Rabs_pos (Q2R (fst c))). pose proof (Rabs_pos (Q2R (snd c))). lra. Qed.
Lemma wsum_nonneg cs : 0 <= wsum cs.
Proof. induction cs as [|c cs IH]; cbn [wsum]; [lra|]. pose proof (qw_pos c). lra. Qed.
Lemma wnoise_nonneg cs : 0 <= wnoise cs.
Proof. induction cs as [|c cs IH]; cbn [wnoise]; [lra|]. pose proof (qw_pos c). pose proof (wsum_nonneg cs). lra. Qed.

Lemma near a b c e : Rabs (a - b) <= e -> Rabs b <= c -> Rabs a <= c + e.
Proof. intros. replace a with (a - b + b) by ring. eapply Rle_trans; [apply Rabs_triang|]. lra. Qed.
Lemma chain a b c e f : Rabs (a - b) <= e -> Rabs (b - c) <= f -> Rabs (a - c) <= e + f.
Proof. intros. replace (a - c) with (a - b + (b - c)) by ring. eapply Rle_trans; [apply Rabs_triang|]. lra. Qed.

Section Scale.
  Context (K : R) (K1 : bpow radix2 (-900) <= K) (K2 : K <= bpow radix2 900).
  Lemma K_pos : 0 < K. Proof. pose proof (bpow_gt_0 radix2 (-900)). lra. Qed.
  Lemma in_range v V : Rabs v <= V * K -> V <= 1000000 -> Rabs v <= huge.
  Proof.
    intros H HV. pose proof K_pos. eapply Rle_trans; [exact H|].
    apply Rle_trans with (bpow radix2 24 * bpow radix2 900).
    - assert (B : bpow radix2 24 = 16777216) by (rewrite bpow_powerRZ; simpl; lra). rewrite B.
      apply Rle_trans with (16777216 * K); [|lra]. apply Rmult_le_compat_r; lra.
    - rewrite <- bpow_plus. unfold huge. apply bpow_le. lia.
  Qed.

  Lemma product x q P : finite x -> Rabs (dval x) <= K -> Rabs (Q2R q) <= P -> P <= 1000 ->
    let m := dmul x (dlit q) in
    finite m /\ Rabs (dval m - dval x * Q2R q) <= uro * 2 * (P + 2 / 1000) * K /\ Rabs (dval m) <= (P + 2 / 1000) * K.
  Proof.
    intros Fx Hx HP HP'. cbn zeta. pose proof K_pos as HK. pose proof uro_pos as U0. pose proof uro_val as UV.
    assert (P0 : 0 <= P) by (pose proof (Rabs_pos (Q2R q)); lra).
    assert (HQ : Rabs (Q2R q) <= huge).
    { eapply Rle_trans; [exact HP|]. apply Rle_trans with (bpow radix2 10); [rewrite bpow_powerRZ; simpl; lra|].
      apply bpow_le. lia. }
    destruct (dnear_ok (Q2R q) HQ) as [Fq Vq]. fold (dlit q) in Fq, Vq.
    assert (E1 : Rabs (dval (dlit q) - Q2R q) <= uro * (P + / 1000)).
    { rewrite Vq. pose proof (rnd_unit (Q2R q) P 1) as E. rewrite !Rmult_1_r in E. apply E; auto.
      change 1 with (bpow radix2 0). apply bpow_le. lia. }
    set (e := uro * (P + / 1000)) in *.
    assert (He : e <= / 10000) by (unfold e; rewrite UV; lra).
    assert (E2 : Rabs (dval (dlit q)) <= P + e) by (eapply near; eauto).
    assert (E3 : Rabs (dval x * dval (dlit q)) <= (P + / 1000) * K).
    { rewrite Rabs_mult. rewrite (Rmult_comm (P + _)). apply Rmult_le_compat; try apply Rabs_pos; lra. }
    destruct (dmul_ok x (dlit q) Fx Fq) as [Fm Vm].
    { eapply in_range; [exact E3|]. lra. }
    assert (E4 := rnd_unit _ _ K K1 E3). rewrite <- Vm in E4.
    assert (E5 : Rabs (dval x * dval (dlit q) - dval x * Q2R q) <= e * K).
    { rewrite <- Rmult_minus_distr_l, Rabs_mult, (Rmult_comm e). apply Rmult_le_compat; try apply Rabs_pos; lra. }
    split; auto. split.
    - pose proof (chain _ _ _ _ _ E4 E5) as E6. eapply Rle_trans; [exact E6|]. unfold e.
      assert (0 <= uro * K) by (apply Rmult_le_pos; lra).
      replace (uro * 2 * (P + 2 / 1000) * K) with (uro * (P + / 1000 + / 1000) * K + uro * (P + / 1000) * K + / 1000 * (uro * K)) by field.
      lra.
    - pose proof (near _ _ _ _ E4 E3) as E6.
      assert (uro * (P + / 1000 + / 1000) * K <= / 1000 * K) by (apply Rmult_le_compat_r; rewrite ?UV; lra). lra.
  Qed.

  Lemma step c x y : finite x -> Rabs (dval x) <= K -> finite y -> Rabs (dval y) <= K -> qw c <= 1000 ->
    let s := dsub (dmul x (dlit (fst c))) (dmul y (dlit (snd c))) in
    finite s /\ Rabs (dval s - (dval x * Q2R (fst c) - dval y * Q2R (snd c))) <= uro * 3 * (qw c - / 1000) * K /\
    Rabs (dval s) <= (qw c - / 1000) * K.
  Proof.
    intros Fx Hx Fy Hy HW. cbn zeta. pose proof K_pos as HK. pose proof uro_pos as U0. pose proof uro_val as UV.
    unfold qw in *. pose proof (Rabs_pos (Q2R (fst c))). pose proof (Rabs_pos (Q2R (snd c))).
    destruct (product x (fst c) _ Fx Hx (Rle_refl _) ltac:(lra)) as (Fm & Em & Bm).
    destruct (product y (snd c) _ Fy Hy (Rle_refl _) ltac:(lra)) as (Fn & En & Bn).
    set (pb := Rabs (Q2R (fst c))) in *. set (pa := Rabs (Q2R (snd c))) in *.
    set (m := dmul x _) in *. set (n := dmul y _) in *.
    assert (B : Rabs (dval m - dval n) <= (pb + pa + 4 / 1000) * K).
    { unfold Rminus. eapply Rle_trans; [apply Rabs_triang|]. rewrite Rabs_Ropp. lra. }
    destruct (dsub_ok m n Fm Fn) as [Fs Vs]; [eapply in_range; [exact B|lra]|].
    assert (E := rnd_unit _ _ K K1 B). rewrite <- Vs in E.
    split; auto. split.
    - assert (E2 : Rabs (dval m - dval n - (dval x * Q2R (fst c) - dval y * Q2R (snd c))) <=
        uro * 2 * (pb + 2 / 1000) * K + uro * 2 * (pa + 2 / 1000) * K).
      { replace (dval m - dval n - _) with ((dval m - dval x * Q2R (fst c)) + - (dval n - dval y * Q2R (snd c))) by ring.
        eapply Rle_trans; [apply Rabs_triang|]. rewrite Rabs_Ropp. lra. }
      eapply Rle_trans; [eapply chain; [exact E|exact E2]|].
      assert (0 <= uro * K) by (apply Rmult_le_pos; lra).
      assert (0 <= uro * K * (pb + pa)) by (apply Rmult_le_pos; lra).
      replace (uro * 3 * (pb + pa + / 100 - / 1000) * K) with (3 * (uro * K * (pb + pa)) + 27 / 1000 * (uro * K)) by field.
      replace (uro * (pb + pa + 4 / 1000 + / 1000) * K + (uro * 2 * (pb + 2 / 1000) * K + uro * 2 * (pa + 2 / 1000) * K))
        with (3 * (uro * K * (pb + pa)) + 13 / 1000 * (uro * K)) by field.
      lra.
    - pose proof (near _ _ _ _ E B) as E6.
      assert (uro * (pb + pa + 4 / 1000 + / 1000) * K <= / 1000 * K) by (apply Rmult_le_compat_r; rewrite ?UV; lra). lra.
  Qed.

  Lemma contribution_error cs x y t : wsum cs <= 1000 ->
    (forall i, (0 <= i <= t)%Z -> finite (zn d0 x i) /\ Rabs (dval (zn d0 x i)) <= K) ->
    (forall i, (0 <= i <= t)%Z -> finite (zn d0 y i) /\ Rabs (dval (zn d0 y i)) <= K) ->
    let s := dcontribution (lits dlit cs) x y t in
    finite s /\ Rabs (dval s) <= wsum cs * K /\
    Rabs (dval s - contribution 0 Rplus Rminus Rmult (lits Q2R cs) (map dval x) (map dval y) t) <= uro * wnoise cs * K.
  Proof.
    intros HW. pose proof K_pos as HK. pose proof uro_pos as U0. pose proof uro_val as UV.
    assert (UK : 0 <= uro * K) by (apply Rmult_le_pos; lra).
    assert (Z0 : forall cs, wsum cs <= 1000 -> finite d0 /\ Rabs (dval d0) <= wsum cs * K /\ Rabs (dval d0 - 0) <= uro * wnoise cs * K).
    { intros l _. change (dval d0) with 0. rewrite Rminus_0_r, Rabs_R0. pose proof (wsum_nonneg l). pose proof (wnoise_nonneg l).
      split; [reflexivity|]. split; [apply Rmult_le_pos; lra|]. apply Rmult_le_pos; [apply Rmult_le_pos|]; lra. }
    revert t HW. induction cs as [|c cs IH]; intros t HW HX HY; cbn zeta.
    - cbn [lits map contribution]. destruct (t <? 0)%Z; apply (Z0 []); auto.
    - cbn [lits map contribution]. destruct (Z.ltb_spec t 0); [apply (Z0 (c :: cs)); auto|].
      destruct (HX t ltac:(lia)) as [Fx Bx]. destruct (HY t ltac:(lia)) as [Fy By].
      cbn [wsum] in HW. pose proof (wsum_nonneg cs) as W0. pose proof (qw_pos c) as Q0. pose proof (wnoise_nonneg cs) as N0.
      destruct (step c _ _ Fx Bx Fy By ltac:(lra)) as (Fs & Es & Bs).
      rewrite !zn_dval. destruct cs as [|c' cs].
      + cbn [map wsum wnoise]. split; auto. split.
        * eapply Rle_trans; [exact Bs|]. apply Rmult_le_compat_r; lra.
        * eapply Rle_trans; [exact Es|]. apply Rmult_le_compat_r; [lra|]. rewrite Rmult_assoc. apply Rmult_le_compat_l; lra.
      + cbn [map]. change ((dlit (fst c'), dlit (snd c')) :: map _ cs) with (lits dlit (c' :: cs)).
        change ((Q2R (fst c'), Q2R (snd c')) :: map _ cs) with (lits Q2R (c' :: cs)).
        set (l := c' :: cs) in *. change (wsum (c :: l)) with (qw c + wsum l).
        change (wnoise (c :: l)) with (3 * qw c + wnoise l + (qw c + wsum l)).
        destruct (IH (t - 1)%Z ltac:(lra)) as (Fr & Br & Er);
          [intros i Hi; apply HX; lia|intros i Hi; apply HY; lia|].
        set (r := dcontribution (lits dlit l) x y (t - 1)) in *.
        set (s := dsub _ _) in *.
        assert (B : Rabs (dval s + dval r) <= (qw c - / 1000 + wsum l) * K) by (eapply Rle_trans; [apply Rabs_triang|]; lra).
        destruct (dadd_ok s r Fs Fr) as [Fa Va]; [eapply in_range; [exact B|lra]|].
        assert (E := rnd_unit _ _ K K1 B). rewrite <- Va in E.
        split; auto. split.
        * pose proof (near _ _ _ _ E B) as E6.
          assert (uro * (qw c - / 1000 + wsum l + / 1000) * K <= / 1000 * K) by (apply Rmult_le_compat_r; rewrite ?UV; lra). lra.
        * set (cr := contribution 0 Rplus Rminus Rmult (lits Q2R l) _ _ _) in *.
          set (sr := dval (zn d0 x t) * Q2R (fst c) - dval (zn d0 y t) * Q2R (snd c)) in *.
          assert (E2 : Rabs (dval s + dval r - (sr + cr)) <= uro * 3 * (qw c - / 1000) * K + uro * wnoise l * K).
          { replace (dval s + dval r - (sr + cr)) with (dval s - sr + (dval r - cr)) by ring.
            eapply Rle_trans; [apply Rabs_triang|]. lra. }
          eapply Rle_trans; [eapply chain; [exact E|exact E2]|].
          replace (uro * (3 * qw c + wnoise l + (qw c + wsum l)) * K) with
            (uro * (qw c - / 1000 + wsum l + / 1000) * K + (uro * 3 * (qw c - / 1000) * K + uro * wnoise l * K) + 3 / 1000 * (uro * K)) by field.
          lra.
  Qed.
End Scale.

Definition wtotal (b a : list Q) : R :=
  3 * (Rabs (Q2R (hd 0%Q b)) + / 100) + wnoise (combine (tl b) (tl a)) + wsum (combine (tl b) (tl a)).

Lemma output_error K b a x y t : bpow radix2 (-900) <= K -> K <= bpow radix2 900 ->
  wsum (combine (tl b) (tl a)) <= 1000 -> Rabs (Q2R (hd 0%Q b)) <= 1000 ->
  dresponse b a x y -> (0 <= t < zlen x)%Z ->
  (forall i, (0 <= i <= t)%Z -> finite (zn d0 x i) /\ Rabs (dval (zn d0 x i)) <= K) ->
  (forall i, (0 <= i < t)%Z -> finite (zn d0 y i) /\ Rabs (dval (zn d0 y i)) <= K) ->
  finite (zn d0 y t) /\
  Rabs (dval (zn d0 y t) - (dval (zn d0 x t) * Q2R (hd 0%Q b) +
    contribution 0 Rplus Rminus Rmult (pairs Q2R b a) (map dval x) (map dval y) (t - 1))) <= uro * wtotal b a * K.
Proof.
  intros K1 K2 HW HB [_ HR] Ht HX HY. rewrite HR by auto. rewrite !pairs_lits. unfold lead.
  pose proof (K_pos K K1) as HK. pose proof uro_pos as U0. pose proof uro_val as UV.
  set (cs := combine (tl b) (tl a)) in *. pose proof (wsum_nonneg cs) as W0.
  destruct (contribution_error K K1 K2 cs x y (t - 1) HW) as (Fr & Br & Er);
    [intros i Hi; apply HX; lia|intros i Hi; apply HY; lia|].
  destruct (HX t ltac:(lia)) as [Fx Bx].
  destruct (product K K1 K2 _ (hd 0%Q b) _ Fx Bx (Rle_refl _) HB) as (Fm & Em & Bm).
  set (r := dcontribution _ _ _ _) in *. set (m := dmul _ _) in *. set (P := Rabs (Q2R (hd 0%Q b))) in *.
  assert (P0 : 0 <= P) by apply Rabs_pos.
  assert (B : Rabs (dval m + dval r) <= (P + 2 / 1000 + wsum cs) * K) by (eapply Rle_trans; [apply Rabs_triang|]; lra).
  destruct (dadd_ok m r Fm Fr) as [Fa Va]; [eapply (in_range K K1 K2); [exact B|lra]|].
  assert (E := rnd_unit _ _ K K1 B). rewrite <- Va in E. split; auto.
  set (cr := contribution 0 Rplus Rminus Rmult _ _ _ _) in *. set (mr := dval (zn d0 x t) * Q2R (hd 0%Q b)) in *.
  assert (E2 : Rabs (dval m + dval r - (mr + cr)) <= uro * 2 * (P + 2 / 1000) * K + uro * wnoise cs * K).
  { replace (dval m + dval r - (mr + cr)) with (dval m - mr + (dval r - cr)) by ring.
    eapply Rle_trans; [apply Rabs_triang|]. lra. }
  eapply Rle_trans; [eapply chain; [exact E|exact E2]|]. unfold wtotal. fold cs P.
  assert (UK : 0 <= uro * K) by (apply Rmult_le_pos; lra).
  replace (uro * (3 * (P + / 100) + wnoise cs + wsum cs) * K) with
    (uro * (P + 2 / 1000 + wsum cs + / 1000) * K + (uro * 2 * (P + 2 / 1000) * K + uro * wnoise cs * K) + 23 / 1000 * (uro * K)) by field.
  lra.
Qed.

(** The weights, computed. *)
Definition zqw (c : Q * Q) : Z := (Z.abs (scaled (fst c)) + Z.abs (scaled (snd c)) + SC / 100)%Z.
Fixpoint zwsum (cs : list (Q * Q)) : Z := match cs with [] => 0 | c :: cs => zqw c + zwsum cs end%Z.
Fixpoint zwnoise (cs : list (Q * Q)) : Z :=
  match cs with [] => 0 | c :: rest => 3 * zqw c + zwnoise rest + (zqw c + zwsum rest) end%Z.
Definition zwtotal (b a : list Q) : Z :=
  (3 * (Z.abs (scaled (hd 0%Q b)) + SC / 100) + zwnoise (combine (tl b) (tl a)) + zwsum (combine (tl b) (tl a)))%Z.

Lemma SC_pos : 0 < IZR SC. Proof. apply IZR_lt. reflexivity. Qed.
Lemma abs_scaled q : exact q = true -> IZR (Z.abs (scaled q)) = IZR SC * Rabs (Q2R q).
Proof. intros H. rewrite abs_IZR, scaled_R, Rabs_mult by auto. f_equal. apply Rabs_pos_eq. left. apply SC_pos. Qed.
Lemma SC_100 : IZR (SC / 100) = IZR SC * / 100.
Proof.
  assert (E : SC = (100 * (SC / 100))%Z) by reflexivity. rewrite E at 2. rewrite mult_IZR.
  generalize (IZR (SC / 100)). intros r. field.
Qed.
Definition exacts (cs : list (Q * Q)) : bool := forallb (fun c => exact (fst c) && exact (snd c)) cs.
Lemma zqw_R c : exact (fst c) = true -> exact (snd c) = true -> IZR (zqw c) = IZR SC * qw c.
Proof. intros H1 H2. unfold zqw, qw. rewrite !plus_IZR, !abs_scaled, SC_100 by auto. ring. Qed.
Lemma zwsum_R cs : exacts cs = true -> IZR (zwsum cs) = IZR SC * wsum cs.
Proof.
  induction cs as [|c cs IH]; intros H; cbn [zwsum wsum]; [ring|]. unfold exacts in H. cbn [forallb] in H.
  apply andb_true_iff in H as [H H2]. apply andb_true_iff in H as [H0 H1].
  rewrite plus_IZR, zqw_R, IH by (unfold exacts; auto). ring.
Qed.
Lemma zwnoise_R cs : exacts cs = true -> IZR (zwnoise cs) = IZR SC * wnoise cs.
Proof.
  induction cs as [|c cs IH]; intros H; cbn [zwnoise wnoise]; [ring|]. unfold exacts in H. cbn [forallb] in H.
  apply andb_true_iff in H as [H H2]. apply andb_true_iff in H as [H0 H1].
  rewrite !plus_IZR, mult_IZR, zqw_R, zwsum_R, IH by (unfold exacts; auto). ring.
Qed.
Lemma zwtotal_R b a : exact (hd 0%Q b) = true -> exacts (combine (tl b) (tl a)) = true ->
  IZR (zwtotal b a) = IZR SC * wtotal b a.
Proof.
  intros H1 H2. unfold zwtotal, wtotal. rewrite !plus_IZR, mult_IZR, plus_IZR, abs_scaled, SC_100, zwsum_R, zwnoise_R by auto. ring.
Qed.

(** The certificate: 1/A has gain GA, and four times the disturbance keeps below 1/den. *)
Definition noise_ok (b a : list Q) (n : nat) (GA den : Z) : bool :=
  exact (hd 0%Q b) && exacts (combine (tl b) (tl a)) && (Z.abs (scaled (hd 0%Q b)) <=? 1000 * SC)%Z &&
  (zwsum (combine (tl b) (tl a)) <=? 1000 * SC)%Z && (1 <=? den)%Z && (0 <=? GA)%Z &&
  dominated (map scaled a) [SC] (cert (map scaled a) n) GA &&
  (4 * GA * zwtotal b a * den <=? 2 ^ 53 * SC)%Z.

Section Filter.
  Context (b a : list Q) (n m : nat) (GA den : Z) (HT : table_ok b a n 3 = true) (HN : noise_ok b a m GA den = true)
    (Hne : a <> []).
  Context (x y : list double) (z : list R) (M : R) (M1 : bpow radix2 (-900) <= M) (M2 : M <= bpow radix2 890)
    (HX : forall t, (0 <= t < zlen x)%Z -> finite (zn d0 x t) /\ Rabs (dval (zn d0 x t)) <= M)
    (HY : dresponse b a x y) (HZ : rresponse b a (map dval x) z).

  Lemma noise_data : wsum (combine (tl b) (tl a)) <= 1000 /\ Rabs (Q2R (hd 0%Q b)) <= 1000 /\ 1 <= IZR den /\ 0 <= IZR GA /\
    dominated (map scaled a) [SC] (cert (map scaled a) m) GA = true /\ IZR GA * (uro * wtotal b a * (4 * M)) <= M / IZR den.
  Proof.
    pose proof HN as HN'. unfold noise_ok in HN'. rewrite !andb_true_iff in HN'. destruct HN' as [[[[[[[H7 H5] H4] H3] H2] H1] H0] H].
    apply Z.leb_le in H, H1, H2, H3, H4.
    pose proof SC_pos as S0. pose proof uro_pos as U0. pose proof uro_val as UV.
    assert (M0 : 0 < M) by (pose proof (bpow_gt_0 radix2 (-900)); lra).
    apply IZR_le in H, H1, H2, H3, H4. rewrite zwsum_R, mult_IZR in H3 by auto.
    rewrite abs_scaled, mult_IZR in H4 by auto.
    rewrite !mult_IZR, zwtotal_R in H by auto. change (IZR (2 ^ 53)) with 9007199254740992 in H.
    split; [apply (Rmult_le_reg_l (IZR SC)); lra|]. split; [apply (Rmult_le_reg_l (IZR SC)); lra|].
    split; auto. split; auto. split; auto. rewrite UV.
    assert (4 * IZR GA * wtotal b a * IZR den <= 9007199254740992).
    { apply (Rmult_le_reg_l (IZR SC)); auto. lra. }
    apply (Rmult_le_reg_r (IZR den)); [lra|]. unfold Rdiv. rewrite (Rmult_assoc M), Rinv_l, Rmult_1_r by lra.
    apply (Rmult_le_reg_l 9007199254740992); [lra|].
    replace (9007199254740992 * (IZR GA * (/ 9007199254740992 * wtotal b a * (4 * M)) * IZR den)) with
      (4 * IZR GA * wtotal b a * IZR den * M) by field.
    apply Rmult_le_compat_r; lra.
  Qed.

  Theorem filter_rounding : forall t, (0 <= t < zlen x)%Z ->
    finite (zn d0 y t) /\ Rabs (dval (zn d0 y t) - zn 0 z t) <= M / IZR den.
  Proof.
    destruct noise_data as (HW & HB & HD & HG & HC & HE).
    assert (M0 : 0 < M) by (pose proof (bpow_gt_0 radix2 (-900)); lra).
    pose proof uro_pos as U0.
    pose proof HT as HT'. unfold table_ok in HT'. rewrite !andb_true_iff in HT'. destruct HT' as [[[[[[HT' EX] ?] ?] ?] ?] ?].
    destruct HY as [LY _]. pose proof HZ as [LZ _]. rewrite zlen_map in LZ.
    assert (BZ : forall t, (0 <= t < zlen x)%Z -> Rabs (zn 0 z t) <= 3 * M).
    { intros t Ht. apply (table_bound b a n 3 HT Hne (map dval x) z M HZ); [lra| |lia].
      intros s Hs. rewrite zlen_map in Hs. rewrite zn_dval. now apply HX. }
    pose proof (response_rapply b a (map dval x) z ltac:(now apply Nat.eqb_eq) ltac:(now apply Qeq_bool_iff) Hne HZ) as RZ.
    rewrite zlen_map in RZ.
    set (d := fun t => dval (zn d0 y t) - zn 0 z t).
    assert (D0 : forall t, (t < 0)%Z -> d t = 0).
    { intros t Ht. unfold d. rewrite !zn_out by lia. change (dval d0) with 0. lra. }
    (* the disturbance *)
    assert (V : forall t, (0 <= t < zlen x)%Z ->
      (forall i, (0 <= i < t)%Z -> finite (zn d0 y i) /\ Rabs (dval (zn d0 y i)) <= 4 * M) ->
      finite (zn d0 y t) /\ Rabs (rapply (map Q2R a) d t) <= uro * wtotal b a * (4 * M)).
    { intros t Ht HI.
      destruct (output_error (4 * M) b a x y t) as [F E]; auto; try lra.
      - apply Rle_trans with (bpow radix2 2 * bpow radix2 890).
        + change (bpow radix2 2) with 4. lra.
        + rewrite <- bpow_plus. apply bpow_le. lia.
      - intros i Hi. destruct (HX i ltac:(lia)). split; auto. lra.
      - split; auto. eapply Rle_trans; [|exact E]. right. f_equal.
        unfold d. rewrite rapply_minus, RZ by lia.
        rewrite contribution_rapply by (rewrite !zlen_map; lia).
        destruct a as [|a0 a']; [congruence|].
        assert (LL : length b = length (a0 :: a')) by now apply Nat.eqb_eq.
        destruct b as [|b0 b']; [discriminate|].
        cbn [length] in LL. injection LL as LL. rewrite pairs_lits. cbn [tl hd].
        assert (M3 : map fst (lits Q2R (combine b' a')) = map Q2R b').
        { clear -LL. unfold lits. revert a' LL. induction b' as [|q b IH]; intros [|p a] H; cbn in *; try lia; [reflexivity|]. f_equal. apply IH. lia. }
        assert (M4 : map snd (lits Q2R (combine b' a')) = map Q2R a').
        { clear -LL. unfold lits. revert a' LL. induction b' as [|q b IH]; intros [|p a] H; cbn in *; try lia; [reflexivity|]. f_equal. apply IH. lia. }
        rewrite M3, M4. cbn [map rapply].
        assert (E1 : Q2R a0 = 1).
        { assert (Q : hd 0%Q (a0 :: a') == 1%Q) by now apply Qeq_bool_iff. cbn [hd] in Q. rewrite (Qeq_eqR _ _ Q). unfold Q2R; cbn; lra. }
        rewrite E1.
        assert (XE : forall p u, rapply p (zn 0 (map dval x)) u = rapply p (fun s => dval (zn d0 x s)) u)
          by (intros; apply rapply_ext; intros; apply zn_dval).
        assert (YE : forall p u, rapply p (zn 0 (map dval y)) u = rapply p (fun s => dval (zn d0 y s)) u)
          by (intros; apply rapply_ext; intros; apply zn_dval).
        rewrite !XE, YE, zn_dval. ring. }
    assert (IND : forall k, (0 <= k)%Z -> forall t, (0 <= t < k)%Z -> (t < zlen x)%Z ->
      finite (zn d0 y t) /\ Rabs (rapply (map Q2R a) d t) <= uro * wtotal b a * (4 * M) /\ Rabs (d t) <= M / IZR den).
    { intros k0 Hk. sum_ind k0; [intros; lia|].
      intros k Hk' IH t Ht Htx. destruct (Z.eq_dec t k) as [->|]; [|apply IH; lia].
      assert (YB : forall i, (0 <= i < k)%Z -> finite (zn d0 y i) /\ Rabs (dval (zn d0 y i)) <= 4 * M).
      { intros i Hi. destruct (IH i Hi ltac:(lia)) as (F & _ & Dd). split; auto.
        specialize (BZ i ltac:(lia)). pose proof (near _ _ _ _ Dd BZ) as B.
        assert (M / IZR den <= M).
        { apply (Rmult_le_reg_r (IZR den)); [lra|]. unfold Rdiv. rewrite Rmult_assoc, Rinv_l, Rmult_1_r by lra.
          rewrite <- (Rmult_1_r M) at 1. apply Rmult_le_compat_l; lra. }
        lra. }
      destruct (V k ltac:(lia) YB) as [F E]. split; auto. split; auto.
      eapply Rle_trans; [|exact HE].
      set (e := uro * wtotal b a * (4 * M)) in *.
      assert (E0 : 0 <= e).
      { eapply Rle_trans; [apply Rabs_pos|exact E]. }
      apply (dominated_bound _ _ _ _ HC (fun t => if (t <? 0)%Z then 0 else if (k <? t)%Z then 0 else rapply (map Q2R a) d t) d (k + 1)%Z e); auto; try lia.
      - intros s Hs. rewrite scaled_map, rapply_scal by auto. cbn [map rapply].
        destruct (Z.ltb_spec s 0).
        + assert (N0 : forall p u, (u < 0)%Z -> rapply p d u = 0).
          { induction p as [|c p IHp]; intros u Hu; cbn [rapply]; [reflexivity|]. rewrite D0, IHp by lia. ring. }
          rewrite N0 by lia. ring.
        + destruct (Z.ltb_spec k s); [lia|]. ring.
      - intros s. destruct (Z.ltb_spec s 0); [rewrite Rabs_R0; auto|].
        destruct (Z.ltb_spec k s); [rewrite Rabs_R0; auto|].
        destruct (Z.eq_dec s k) as [->|]; auto. apply IH; lia. }
    intros t Ht. destruct (IND (t + 1)%Z ltac:(lia) t ltac:(lia) ltac:(lia)) as (F & _ & E). auto.
  Qed.
End Filter.

Lemma noise_8 : noise_ok b_8 a_8 1500 80000 50000000 = true. Proof. vm_compute. reflexivity. Qed.
Lemma noise_4 : noise_ok b_4 a_4 400 1200 8000000000 = true. Proof. vm_compute. reflexivity. Qed.
Lemma noise_2 : noise_ok b_2 a_2 200 120 250000000000 = true. Proof. vm_compute. reflexivity. Qed.
Lemma noise_1 : noise_ok b_1 a_1 1 1 1000000000000 = true. Proof. vm_compute. reflexivity. Qed.
Lemma noise_w : noise_ok bw_b bw_a 20 4 20000000000000 = true. Proof. vm_compute. reflexivity. Qed.
