(** normalise in IEEE doubles. *)
From Coq Require Import ZArith Reals Lia Lra Psatz List Bool.
From Flocq Require Import Core.
From Flocq.IEEE754 Require Import BinarySingleNaN.
From Verif.Base Require Import Imp Sums RealOps Dbl Double Loops.
From Verif.Maths Require Import DoubleModel DoubleProofs RealModel StatDouble StatDoubleSpec StatDoubleProofs.
Import ListNotations.
Open Scope R_scope.

Local Notation u := uro.
Lemma dltb_val x y : finite x -> finite y -> dltb x y = Rlt_bool (dval x) (dval y).
Proof. intros Fx Fy. unfold dltb. apply Bltb_correct; assumption. Qed.
Lemma dneqb_val x y : finite x -> finite y -> dneqb x y = negb (Req_bool (dval x) (dval y)).
Proof. intros Fx Fy. unfold dneqb. f_equal. apply Beqb_correct; assumption. Qed.
Lemma dabs_ok x : finite x -> finite (dabs x) /\ dval (dabs x) = Rabs (dval x).
Proof. intros F. unfold finite, dabs, dval in *. rewrite is_finite_Babs, B2R_Babs. auto. Qed.
Lemma dminus_ok x : finite x -> finite (dminus x) /\ dval (dminus x) = - dval x.
Proof. intros F. unfold finite, dminus, dval in *. rewrite is_finite_Bopp, B2R_Bopp. auto. Qed.

Definition summed_up (f : Z -> double) (i : Z) (s : double) : Prop :=
  summed f i s /\ 0 <= dval s /\ forall j, (0 <= j < i)%Z -> dval (f j) <= dval s.
Lemma sum_up n x : (0 <= n <= 2147483647)%Z -> all_finite n x -> total n (val x) <= cap -> (forall j, (0 <= j < n)%Z -> 0 <= dval (zn d0 x j)) ->
  exists s, for_up 0 n (fun i s => v <- aget x i ;; OK (dadd s v)) d0 = OK s /\ summed_up (zn d0 x) n s.
Proof.
  intros Hn [L F] HA HP. apply (for_up_inv (summed_up (zn d0 x))); [lia| |].
  - split; [split; [reflexivity|split; [reflexivity|lia]]|]. split; [change (dval d0) with 0; lra|lia].
  - intros i s Hi (S & P & M). rewrite (aget_OK d0) by lia. ret. eexists. split; [reflexivity|].
    pose proof (summed_step n (zn d0 x) Hn F HA i s Hi S) as S'. pose proof (summed_small n (zn d0 x) Hn i s ltac:(lia) S) as B.
    split; [exact S'|]. pose proof (HP i Hi) as Pi. destruct S as (Fs & _).
    pose proof (total_S i (val x) ltac:(lia)) as TS. pose proof (total_mono (i + 1) n (val x) ltac:(lia)) as TM. pose proof (total_pos i (val x)) as TP.
    destruct (dadd_ok s (zn d0 x i) Fs (F i Hi)) as [_ V].
    { apply cap_huge. eapply Rle_trans; [apply Rabs_triang|]. pose proof (Rabs_pos (dval (zn d0 x i))). lra. }
    rewrite V. assert (M1 : dval s <= rnd (dval s + dval (zn d0 x i))).
    { rewrite <- (rnd_format (dval s)) at 1 by apply dval_format. apply rnd_le. lra. }
    assert (M2 : dval (zn d0 x i) <= rnd (dval s + dval (zn d0 x i))).
    { rewrite <- (rnd_format (dval (zn d0 x i))) at 1 by apply dval_format. apply rnd_le. lra. }
    split; [lra|]. intros j Hj. destruct (Z.eq_dec j i) as [->|N]; [exact M2|]. pose proof (M j ltac:(lia)). lra.
Qed.
Lemma total_nonneg n f : (0 <= n)%Z -> (forall j, (0 <= j < n)%Z -> 0 <= f j) -> total n f = rsum n f.
Proof. intros Hn H. apply rsum_ext. intros j Hj. apply Rabs_pos_eq, H, Hj. Qed.
Lemma total_ge n f j : (0 <= j < n)%Z -> Rabs (f j) <= total n f.
Proof.
  intros Hj. eapply Rle_trans; [|apply (total_mono (j + 1) n); lia]. rewrite total_S by lia. pose proof (total_pos j f). lra.
Qed.
Lemma zero_total n f : (0 <= n)%Z -> (forall j, (0 <= j < n)%Z -> f j = 0) -> total n f = 0.
Proof.
  intros Hn H. unfold total. rewrite (rsum_ext n _ (fun _ => 0 * 0)).
  - rewrite (rsum_scal n 0 (fun _ => 0)). ring.
  - intros j Hj. rewrite (H j Hj), Rabs_R0. ring.
Qed.

(** Dividing the first n values. *)
Lemma divide_loop n x s : (0 <= n <= zlen x)%Z ->
  for_up 0 n (fun i d => v <- aget d i ;; aset d i (ddiv v s)) x = OK (ztab n (fun j => ddiv (zn d0 x j) s) ++ skipn (Z.to_nat n) x).
Proof.
  intros Hn. apply (for_up_tab n _ (fun j => ddiv (zn d0 x j) s)); [lia|]. intros i t Hi Lt H1 H2. rewrite (aget_OK d0) by lia. ret. rewrite H1 by lia. reflexivity.
Qed.
Lemma divided_get n x g j : (0 <= n <= zlen x)%Z -> (0 <= j)%Z ->
  zn d0 (ztab n g ++ skipn (Z.to_nat n) x) j = if (j <? n)%Z then g j else zn d0 x j.
Proof.
  intros Hn Hj. rewrite zn_app, zlen_ztab, Z.max_r by lia. destruct (Z.ltb_spec j n); [rewrite zn_ztab by lia; reflexivity|].
  rewrite zn_skipn by lia. f_equal. lia.
Qed.

Theorem normalise_sum_doubles n x : (1 <= n <= 2147483647)%Z -> all_finite n x -> total n (val x) <= cap ->
  (forall j, (0 <= j < n)%Z -> 0 <= dval (zn d0 x j)) -> (exists j, (0 <= j < n)%Z /\ 0 < dval (zn d0 x j)) ->
  exists y, dnormalise x n NormaliseUnitSum = OK y /\ zlen y = zlen x /\
    (forall j, (0 <= j < n)%Z -> finite (zn d0 y j) /\ 0 <= dval (zn d0 y j) <= 1 /\
       Rabs (dval (zn d0 y j) - dval (zn d0 x j) / rsum n (val x)) <= 1001 / 1000 * IZR n * u * (dval (zn d0 x j) / rsum n (val x)) + bpow radix2 (-1075)) /\
    (forall j, (n <= j < zlen x)%Z -> zn d0 y j = zn d0 x j) /\
    Rabs (rsum n (val y) - 1) <= 1002 / 1000 * IZR n * u.
Proof.
  intros Hn HF HA HP (j0 & Hj0 & P0). destruct (sum_up n x ltac:(lia) HF HA HP) as (s & E & S). destruct HF as [L F].
  destruct S as ((Fs & _ & D) & S0 & SM). specialize (D ltac:(lia)). pose proof (SM j0 Hj0) as SJ. assert (SP : 0 < dval s) by lra.
  rewrite (total_nonneg n (val x)) in * by (lia || assumption). set (X := rsum n (val x)) in *.
  assert (XP : 0 < X).
  { unfold X. rewrite <- (total_nonneg n (val x)) by (lia || assumption). pose proof (total_ge n (val x) j0 Hj0) as T. cbn beta in T. rewrite Rabs_pos_eq in T; lra. }
  unfold dnormalise. rewrite E. ret. rewrite dneqb_val by (assumption || reflexivity). change (dval d0) with 0. rewrite Req_bool_false by lra. cbn [negb].
  rewrite divide_loop by lia. eexists. split; [reflexivity|]. split; [zl; lia|].
  pose proof uro_pos as U. assert (N1 : 1 <= IZR n) by (apply (IZR_le 1); lia).
  assert (NU : IZR n * u <= / 1000000).
  { assert (IZR n <= 2147483647) by (apply IZR_le; lia). rewrite uro_val. lra. }
  assert (G : forall j, (0 <= j < n)%Z -> finite (ddiv (zn d0 x j) s) /\ 0 <= dval (ddiv (zn d0 x j) s) <= 1 /\
    Rabs (dval (ddiv (zn d0 x j) s) - dval (zn d0 x j) / X) <= 1001 / 1000 * IZR n * u * (dval (zn d0 x j) / X) + bpow radix2 (-1075)).
  { intros j Hj. pose proof (HP j Hj) as Pj. pose proof (SM j Hj) as Mj. set (a := dval (zn d0 x j)) in *.
    assert (Q : 0 <= a / dval s <= 1).
    { assert (0 < / dval s) by (apply Rinv_0_lt_compat; lra). split.
      - apply Rmult_le_pos; lra.
      - apply Rmult_le_reg_r with (dval s); [lra|]. unfold Rdiv. rewrite Rmult_assoc, Rinv_l by lra. lra. }
    destruct (ddiv_ok (zn d0 x j) s (F j Hj)) as [Fq V]; [lra| |].
    { fold a. rewrite Rabs_pos_eq by lra. apply Rle_trans with (bpow radix2 0); [cbn; lra|]. apply bpow_le. lia. }
    fold a in V. split; [exact Fq|]. rewrite V. split.
    - assert (R0 : rnd 0 = 0) by (apply (rnd_int 0); reflexivity). assert (R1 : rnd 1 = 1) by (apply (rnd_int 1); reflexivity).
      split; [rewrite <- R0|rewrite <- R1]; apply rnd_le; lra.
    - pose proof (rnd_error (a / dval s)) as RE. rewrite (Rabs_pos_eq (a / dval s)) in RE by lra.
      set (k := IZR (n - 1) * u) in *. assert (K0 : 0 <= k) by (apply Rmult_le_pos; [apply (IZR_le 0); lia|lra]).
      assert (K1 : k <= / 1000000) by (unfold k; rewrite minus_IZR; lra).
      apply Rabs_le_inv in D.
      (* a/s is within 1.000002 k of a/X, relatively *)
      set (r := a / X). assert (R0 : 0 <= r) by (apply Rmult_le_pos; [lra|apply Rlt_le, Rinv_0_lt_compat; lra]).
      set (q := a / dval s) in *. assert (QS : q * dval s = a) by (unfold q; field; lra). assert (RX : r * X = a) by (unfold r; field; lra).
      assert (SL : dval s >= (1 - k) * X) by lra. assert (SU : dval s <= (1 + k) * X) by lra.
      assert (q1 : q * (1 - k) <= r).
      { apply Rmult_le_reg_r with X; [lra|]. rewrite RX, <- QS. replace (q * (1 - k) * X) with (q * ((1 - k) * X)) by ring. apply Rmult_le_compat_l; lra. }
      assert (q2 : r <= q * (1 + k)).
      { apply Rmult_le_reg_r with X; [lra|]. rewrite RX, <- QS. replace (q * (1 + k) * X) with (q * ((1 + k) * X)) by ring. apply Rmult_le_compat_l; lra. }
      assert (QR : q <= (1 + 2 / 1000000) * r).
      { assert (q * k <= q * / 1000000) by (apply Rmult_le_compat_l; lra). lra. }
      assert (QK : Rabs (q - r) <= k * ((1 + 2 / 1000000) * r)).
      { assert (QQ : q * k <= k * ((1 + 2 / 1000000) * r)) by (rewrite (Rmult_comm q); apply Rmult_le_compat_l; lra). apply Rabs_le. lra. }
      replace (rnd q - r) with ((rnd q - q) + (q - r)) by ring. eapply Rle_trans; [apply Rabs_triang|].
      assert (UQ : u * q <= u * ((1 + 2 / 1000000) * r)) by (apply Rmult_le_compat_l; lra).
      assert (UR : 0 <= u * r) by (apply Rmult_le_pos; lra). assert (NUR : 0 <= IZR n * (u * r)) by (apply Rmult_le_pos; lra).
      assert (KE : k = IZR n * u - u) by (unfold k; rewrite minus_IZR; ring). rewrite KE in QK. lra. }
  split; [|split].
  - intros j Hj. rewrite divided_get by lia. destruct (Z.ltb_spec j n); [|lia]. apply G. exact Hj.
  - intros j Hj. rewrite divided_get by lia. destruct (Z.ltb_spec j n); [lia|]. reflexivity.
  - rewrite (rsum_ext n _ (fun j => dval (ddiv (zn d0 x j) s))).
    2:{ intros j Hj. rewrite divided_get by lia. destruct (Z.ltb_spec j n); [reflexivity|lia]. }
    assert (H1 : rsum n (fun j => / X * dval (zn d0 x j)) = 1) by (rewrite rsum_scal; fold X; field; lra).
    set (c := 1001 / 1000 * IZR n * u).
    assert (H2 : forall m, (0 <= m <= n)%Z -> Rabs (rsum m (fun j => dval (ddiv (zn d0 x j) s)) - rsum m (fun j => / X * dval (zn d0 x j))) <=
      c * rsum m (fun j => / X * dval (zn d0 x j)) + IZR m * bpow radix2 (-1075)).
    { intros m [M0 M1]. revert M1. pattern m. apply natlike_ind; [| |exact M0].
      - intros _. rewrite !rsum_0 by lia. rewrite Rminus_0_r, Rabs_R0. lra.
      - clear m M0. intros m Hm IH HM. unfold Z.succ in *. rewrite !rsum_S by lia. specialize (IH ltac:(lia)). destruct (G m ltac:(lia)) as (_ & _ & Gm).
        fold c in Gm. replace (dval (zn d0 x m) / X) with (/ X * dval (zn d0 x m)) in Gm by (unfold Rdiv; ring). rewrite plus_IZR.
        match goal with |- Rabs (?a + ?b - (?p + ?q)) <= _ => replace (a + b - (p + q)) with ((a - p) + (b - q)) by ring end.
        eapply Rle_trans; [apply Rabs_triang|]. lra. }
    specialize (H2 n ltac:(lia)). rewrite H1 in H2. eapply Rle_trans; [exact H2|].
    assert (TB : bpow radix2 (-1075) <= / 1000 * u).
    { apply Rle_trans with (bpow radix2 (-10) * u); [unfold uro; rewrite <- bpow_plus; apply bpow_le; lia|].
      apply Rmult_le_compat_r; [lra|]. change (bpow radix2 (-10)) with (/ 1024). lra. }
    assert (IZR n * bpow radix2 (-1075) <= IZR n * (/ 1000 * u)) by (apply Rmult_le_compat_l; lra). unfold c. lra.
Qed.

Theorem normalise_sum_zero n x : (0 <= n <= 2147483647)%Z -> all_finite n x -> (forall j, (0 <= j < n)%Z -> dval (zn d0 x j) = 0) ->
  dnormalise x n NormaliseUnitSum = OK x.
Proof.
  intros Hn HF HZ. assert (T0 : total n (val x) = 0) by (apply zero_total; [lia|exact HZ]).
  destruct (sum_doubles n x Hn HF) as (s & E & Fs & S0 & S1); [rewrite T0; apply bpow_ge_0|].
  assert (SZ : dval s = 0).
  { destruct (Z.eq_dec n 0) as [N|N]; [rewrite S0 by exact N; reflexivity|]. specialize (S1 ltac:(lia)). rewrite T0, Rmult_0_r in S1.
    pose proof (rsum_total n (val x) ltac:(lia)) as R. rewrite T0 in R. apply Rabs_le_inv in S1. apply Rabs_le_inv in R. lra. }
  unfold dnormalise. change (for_up 0 n _ d0) with (dsum x n). rewrite E. ret. rewrite dneqb_val by (assumption || reflexivity).
  change (dval d0) with 0. rewrite Req_bool_true by exact SZ. reflexivity.
Qed.

(** ** By the largest magnitude *)
Definition maximal (x : list double) (i : Z) (m : double) : Prop :=
  finite m /\ 0 <= dval m /\ (forall j, (0 <= j < i)%Z -> Rabs (dval (zn d0 x j)) <= dval m) /\
  (dval m = 0 \/ exists j, (0 <= j < i)%Z /\ dval m = Rabs (dval (zn d0 x j))).
Lemma max_loop n x : (0 <= n)%Z -> all_finite n x ->
  exists m, for_up 0 n (fun i m => v <- aget x i ;; OK (if dltb m (dabs v) then dabs v else m)) d0 = OK m /\ maximal x n m.
Proof.
  intros Hn [L F]. apply (for_up_inv (maximal x)); [lia| |].
  - unfold maximal. split; [reflexivity|]. change (dval d0) with 0. split; [lra|]. split; [lia|left; reflexivity].
  - intros i m Hi (Fm & P & M & X). rewrite (aget_OK d0) by lia. ret. eexists. split; [reflexivity|].
    destruct (dabs_ok (zn d0 x i) (F i Hi)) as [Fa Va]. rewrite dltb_val, Va by assumption. pose proof (Rabs_pos (dval (zn d0 x i))).
    destruct (Rlt_bool_spec (dval m) (Rabs (dval (zn d0 x i)))) as [C|C]; unfold maximal.
    + rewrite Va. split; [exact Fa|]. split; [assumption|]. split.
      * intros j Hj. destruct (Z.eq_dec j i) as [->|N]; [lra|]. pose proof (M j ltac:(lia)). lra.
      * right. exists i. split; [lia|reflexivity].
    + split; [exact Fm|]. split; [exact P|]. split.
      * intros j Hj. destruct (Z.eq_dec j i) as [->|N]; [lra|]. apply M. lia.
      * destruct X as [X|(j & Hj & X)]; [left; exact X|right; exists j; split; [lia|exact X]].
Qed.

Theorem normalise_max_doubles n x : (0 <= n)%Z -> all_finite n x ->
  exists y M, dnormalise x n NormaliseUnitMax = OK y /\ zlen y = zlen x /\
    (forall j, (0 <= j < n)%Z -> Rabs (dval (zn d0 x j)) <= M) /\
    (M = 0 -> y = x) /\
    (M <> 0 -> (exists j, (0 <= j < n)%Z /\ Rabs (dval (zn d0 x j)) = M /\ Rabs (dval (zn d0 y j)) = 1) /\
       forall j, (0 <= j < n)%Z -> finite (zn d0 y j) /\ Rabs (dval (zn d0 y j)) <= 1 /\
         Rabs (dval (zn d0 y j) - dval (zn d0 x j) / M) <= u * Rabs (dval (zn d0 x j) / M) + bpow radix2 (-1075)) /\
    (forall j, (n <= j < zlen x)%Z -> zn d0 y j = zn d0 x j).
Proof.
  intros Hn HF. destruct (max_loop n x Hn HF) as (m & E & Fm & P & M & X). destruct HF as [L F].
  unfold dnormalise. rewrite E. ret. rewrite dneqb_val by (assumption || reflexivity). change (dval d0) with 0.
  destruct (Req_bool_spec (dval m) 0) as [Z0|NZ]; cbn [negb].
  - exists x, (dval m). splits; auto. intros; contradiction.
  - rewrite divide_loop by lia. eexists. exists (dval m). split; [reflexivity|]. split; [zl; lia|]. split; [exact M|]. split; [intros; contradiction|].
    assert (MP : 0 < dval m) by lra. assert (R1 : rnd 1 = 1) by (apply (rnd_int 1); reflexivity). assert (Rm1 : rnd (-1) = -1) by (apply (rnd_int (-1)); reflexivity).
    assert (G : forall j, (0 <= j < n)%Z -> finite (ddiv (zn d0 x j) m) /\ dval (ddiv (zn d0 x j) m) = rnd (dval (zn d0 x j) / dval m) /\ Rabs (dval (zn d0 x j) / dval m) <= 1).
    { intros j Hj. assert (Q : Rabs (dval (zn d0 x j) / dval m) <= 1).
      { unfold Rdiv. rewrite Rabs_mult, (Rabs_pos_eq (/ dval m)) by (apply Rlt_le, Rinv_0_lt_compat; exact MP).
        apply Rmult_le_reg_r with (dval m); [exact MP|]. rewrite Rmult_assoc, Rinv_l by lra. pose proof (M j Hj). lra. }
      destruct (ddiv_ok (zn d0 x j) m (F j Hj)) as [Fq V]; [lra| |auto].
      eapply Rle_trans; [exact Q|]. apply Rle_trans with (bpow radix2 0); [cbn; lra|]. apply bpow_le. lia. }
    split; [intros _; split|].
    + destruct X as [X|(j & Hj & X)]; [contradiction|]. exists j. split; [exact Hj|]. split; [auto|].
      rewrite divided_get by lia. destruct (Z.ltb_spec j n); [|lia]. destruct (G j Hj) as (_ & V & _). rewrite V.
      destruct (Rle_dec 0 (dval (zn d0 x j))) as [C|C].
      * rewrite Rabs_pos_eq in X by lra. rewrite <- X. replace (dval m / dval m) with 1 by (field; lra). rewrite R1. apply Rabs_pos_eq. lra.
      * rewrite Rabs_left in X by lra. replace (dval (zn d0 x j)) with (- dval m) by lra. replace (- dval m / dval m) with (-1) by (field; lra).
        rewrite Rm1, Rabs_left; lra.
    + intros j Hj. rewrite divided_get by lia. destruct (Z.ltb_spec j n); [|lia]. destruct (G j Hj) as (Fq & V & Q). rewrite V. split; [exact Fq|]. split.
      * apply Rabs_le. apply Rabs_le_inv in Q. split; [apply Rle_trans with (rnd (-1)); [rewrite Rm1; lra|apply rnd_le; lra]|apply Rle_trans with (rnd 1); [apply rnd_le; lra|rewrite R1; lra]].
      * apply rnd_error.
    + intros j Hj. rewrite divided_get by lia. destruct (Z.ltb_spec j n); [lia|]. reflexivity.
Qed.
