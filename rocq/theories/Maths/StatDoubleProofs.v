(** Sum and mean in IEEE doubles. *)
From Coq Require Import ZArith Reals Lia Lra Psatz List Bool.
From Flocq Require Import Core Plus_error Relative.
From Flocq.IEEE754 Require Import BinarySingleNaN.
From Verif.Base Require Import Imp Sums RealOps Dbl Double Loops.
From Verif.Maths Require Import DoubleModel DoubleProofs RealModel StatDouble StatDoubleSpec.
Import ListNotations.
Open Scope R_scope.

Local Instance p53 : Prec_gt_0 53 := eq_refl.
Local Notation u := uro.
Local Notation fmt := (generic_format radix2 (FLT_exp (-1074) 53)).

Lemma dval_format x : fmt (dval x).
Proof. apply (generic_format_B2R 53 1024). Qed.
Lemma rnd_format v : fmt v -> rnd v = v.
Proof. intros H. apply round_generic; [apply valid_rnd_N|exact H]. Qed.
(** Addition of doubles has a relative error only, and is no worse than dropping an operand. *)
Lemma rnd_plus a b : fmt a -> fmt b -> Rabs (rnd (a + b) - (a + b)) <= u * Rabs (a + b).
Proof.
  intros Ha Hb. destruct (FLT_plus_error_N_ex radix2 (-1074) 53 (fun t => negb (Z.even t)) a b Ha Hb) as (e & He & E).
  change (round radix2 (FLT_exp (-1074) 53) _ (a + b)) with (rnd (a + b)) in E. rewrite E.
  replace ((a + b) * (1 + e) - (a + b)) with (e * (a + b)) by ring. rewrite Rabs_mult. apply Rmult_le_compat_r; [apply Rabs_pos|].
  eapply Rle_trans; [exact He|]. assert (U : u_ro radix2 53 = u) by (unfold u_ro, uro; rewrite !bpow_powerRZ; simpl; lra). rewrite U.
  pose proof uro_pos. apply Rmult_le_reg_r with (1 + u); [lra|]. unfold Rdiv. rewrite Rmult_assoc, Rinv_l by lra. nra.
Qed.
Lemma rnd_nearest v g : fmt g -> Rabs (rnd v - v) <= Rabs (g - v).
Proof.
  intros H. destruct (round_N_pt radix2 (FLT_exp (-1074) 53) (fun t => negb (Z.even t)) v) as [_ N]. apply N. exact H.
Qed.
Lemma rnd_plus_drop a b : fmt a -> Rabs (rnd (a + b) - (a + b)) <= Rabs b.
Proof. intros H. eapply Rle_trans; [apply (rnd_nearest _ a H)|]. replace (a - (a + b)) with (- b) by ring. rewrite Rabs_Ropp. lra. Qed.

Lemma total_S n f : (0 <= n)%Z -> total (n + 1) f = total n f + Rabs (f n).
Proof. intros H. unfold total. now rewrite rsum_S. Qed.
Lemma total_pos n f : 0 <= total n f.
Proof.
  destruct (Z.le_gt_cases 0 n) as [H|H].
  - revert n H. apply natlike_ind; [unfold total; rewrite rsum_0 by lia; lra|]. intros n Hn IH. unfold Z.succ. rewrite total_S by lia. pose proof (Rabs_pos (f n)). lra.
  - unfold total. rewrite rsum_0 by lia. lra.
Qed.
Lemma total_mono n m f : (0 <= n <= m)%Z -> total n f <= total m f.
Proof.
  intros [H0 H]. revert m H. apply (Zlt_lower_bound_ind (fun m => total n f <= total m f)). intros m IH Hm.
  destruct (Z.eq_dec m n) as [->|N]; [lra|]. replace m with ((m - 1) + 1)%Z by lia. rewrite total_S by lia.
  pose proof (IH (m - 1)%Z ltac:(lia)). pose proof (Rabs_pos (f (m - 1)%Z)). lra.
Qed.
Lemma rsum_total n f : (0 <= n)%Z -> Rabs (rsum n f) <= total n f.
Proof.
  intros H. revert n H. apply natlike_ind; [unfold total; rewrite !rsum_0, Rabs_R0 by lia; lra|].
  intros n Hn IH. unfold Z.succ. rewrite total_S, rsum_S by lia. eapply Rle_trans; [apply Rabs_triang|]. lra.
Qed.

(** The error of recursive summation (S. M. Rump, 2012): no second-order term. *)
Lemma sum_step k s x S A : (1 <= k)%R -> fmt s -> fmt x -> 0 <= A -> Rabs S <= A -> Rabs (s - S) <= (k - 1) * u * A ->
  Rabs (rnd (s + x) - (S + x)) <= k * u * (A + Rabs x).
Proof.
  intros Hk Fs Fx HA HS E. pose proof uro_pos as U. pose proof (Rabs_pos x) as X.
  replace (rnd (s + x) - (S + x)) with ((rnd (s + x) - (s + x)) + (s - S)) by ring.
  eapply Rle_trans; [apply Rabs_triang|]. eapply Rle_trans; [apply Rplus_le_compat_l; exact E|].
  assert (UA : 0 <= u * A) by (apply Rmult_le_pos; lra). assert (UX : 0 <= u * Rabs x) by (apply Rmult_le_pos; lra).
  destruct (Rle_dec (Rabs x) (u * A)) as [C|C].
  - pose proof (rnd_plus_drop s x Fs) as D. assert (0 <= k * (u * Rabs x)) by (apply Rmult_le_pos; lra). nra.
  - pose proof (rnd_plus s x Fs Fx) as D.
    assert (B : Rabs (s + x) <= A + (k - 1) * u * A + Rabs x).
    { replace (s + x) with ((s - S) + S + x) by ring. eapply Rle_trans; [apply Rabs_triang|]. apply Rplus_le_compat_r.
      eapply Rle_trans; [apply Rabs_triang|]. lra. }
    assert (D2 : u * Rabs (s + x) <= u * (A + (k - 1) * u * A + Rabs x)) by (apply Rmult_le_compat_l; lra).
    assert (K : (k - 1) * u * (u * A) <= (k - 1) * u * Rabs x) by (apply Rmult_le_compat_l; [apply Rmult_le_pos; lra|lra]).
    nra.
Qed.

(** The largest total of magnitudes considered. *)
Definition cap : R := bpow radix2 999.
Lemma cap_huge v : Rabs v <= 2 * cap -> Rabs v <= huge.
Proof. intros H. unfold huge, cap in *. change (bpow radix2 1000) with (bpow radix2 (1 + 999)). rewrite bpow_plus. exact H. Qed.

Section Sum.
  Context (n : Z) (f : Z -> double) (Hn : (0 <= n <= 2147483647)%Z) (Hf : forall j, (0 <= j < n)%Z -> finite (f j)).
  Notation v := (fun j => dval (f j)).
  Context (HA : total n v <= cap).

  Definition summed (i : Z) (s : double) : Prop :=
    finite s /\ (i = 0%Z -> s = d0) /\ ((1 <= i)%Z -> Rabs (dval s - rsum i v) <= IZR (i - 1) * u * total i v).
  Lemma nu i : (0 <= i <= n)%Z -> IZR (i - 1) * u <= / 1000.
  Proof. intros H. pose proof uro_val as U. assert (IZR (i - 1) <= 2147483647) by (apply IZR_le; lia). rewrite U. lra. Qed.
  Lemma summed_small i s : (0 <= i <= n)%Z -> summed i s -> Rabs (dval s) <= (1 + / 1000) * total i v.
  Proof.
    intros Hi (F & Z0 & E). pose proof (total_pos i v) as T. destruct (Z.eq_dec i 0) as [->|N].
    - rewrite Z0 by reflexivity. change (dval d0) with 0. rewrite Rabs_R0. nra.
    - specialize (E ltac:(lia)). pose proof (rsum_total i v ltac:(lia)). pose proof (nu i Hi).
      assert (IZR (i - 1) * u * total i v <= / 1000 * total i v) by (apply Rmult_le_compat_r; assumption).
      eapply Rle_trans; [eapply near'; [exact E|eassumption]|]. lra.
  Qed.
  Lemma summed_step i s : (0 <= i < n)%Z -> summed i s -> summed (i + 1) (dadd s (f i)).
  Proof.
    intros Hi S. pose proof (summed_small i s ltac:(lia) S) as B. destruct S as (F & Z0 & E).
    pose proof (total_S i v ltac:(lia)) as TS. pose proof (total_mono (i + 1) n v ltac:(lia)) as TM. pose proof (total_pos i v) as TP.
    destruct (dadd_ok s (f i) F (Hf i Hi)) as [F' V].
    - apply cap_huge. eapply Rle_trans; [apply Rabs_triang|]. pose proof (Rabs_pos (dval (f i))). lra.
    - unfold summed. split; [exact F'|]. split; [lia|]. intros _. rewrite V, rsum_S by lia. destruct (Z.eq_dec i 0) as [->|N].
      + rewrite Z0 by reflexivity. change (dval d0) with 0. rewrite Rplus_0_l, (rsum_0 0), Rplus_0_l by lia. rewrite rnd_format by apply dval_format.
        replace (dval (f 0%Z) - dval (f 0%Z)) with 0 by ring. rewrite Rabs_R0. cbn. lra.
      + rewrite TS. replace (i + 1 - 1)%Z with i by lia. apply sum_step; auto using dval_format.
        * apply (IZR_le 1). lia.
        * apply rsum_total. lia.
        * specialize (E ltac:(lia)). rewrite minus_IZR in E. exact E.
  Qed.
End Sum.

Lemma sum_loop n (f : Z -> double) (g : Z -> res double) : (0 <= n <= 2147483647)%Z -> (forall j, (0 <= j < n)%Z -> g j = OK (f j) /\ finite (f j)) ->
  total n (fun j => dval (f j)) <= cap ->
  exists s, for_up 0 n (fun i s => v <- g i ;; OK (dadd s v)) d0 = OK s /\ summed f n s.
Proof.
  intros Hn Hg HA. apply (for_up_inv (summed f)); [lia| |].
  - split; [reflexivity|]. split; [reflexivity|lia].
  - intros i s Hi S. destruct (Hg i Hi) as [E F]. rewrite E. ret. eexists. split; [reflexivity|].
    apply (summed_step n f Hn (fun j Hj => proj2 (Hg j Hj)) HA i s Hi S).
Qed.

Theorem sum_doubles n x : (0 <= n <= 2147483647)%Z -> all_finite n x -> total n (val x) <= cap ->
  exists s, dsum x n = OK s /\ finite s /\ (n = 0%Z -> s = d0) /\ ((1 <= n)%Z -> Rabs (dval s - rsum n (val x)) <= IZR (n - 1) * u * total n (val x)).
Proof.
  intros Hn [L F] HA. apply (sum_loop n (zn d0 x) (aget x) Hn); [|exact HA].
  intros j Hj. split; [apply aget_OK; lia|apply F; exact Hj].
Qed.

Lemma mean_loop n (f : Z -> double) (g : Z -> res double) : (1 <= n <= 2147483647)%Z -> (forall j, (0 <= j < n)%Z -> g j = OK (f j) /\ finite (f j)) ->
  total n (fun j => dval (f j)) <= cap ->
  exists s, for_up 0 n (fun i s => v <- g i ;; OK (dadd s v)) d0 = OK s /\ finite (ddiv s (dint n)) /\
    Rabs (dval (ddiv s (dint n)) - rsum n (fun j => dval (f j)) / IZR n) <= IZR (n + 1) * u * (total n (fun j => dval (f j)) / IZR n) + bpow radix2 (-1075).
Proof.
  intros Hn Hg HA. destruct (sum_loop n f g ltac:(lia) Hg HA) as (s & E & S). exists s. split; [exact E|].
  pose proof (summed_small n f ltac:(lia) n s ltac:(lia) S) as B. destruct S as (F & _ & D). specialize (D ltac:(lia)).
  set (T := total n _) in *. assert (T0 : 0 <= T) by apply total_pos. set (X := rsum n _) in *.
  destruct (dint_ok n) as [Fn Vn]; [unfold two53; lia|]. assert (N1 : 1 <= IZR n) by (apply (IZR_le 1); lia). pose proof uro_pos as U.
  assert (IN : 0 < / IZR n) by (apply Rinv_0_lt_compat; lra). assert (IN1 : / IZR n <= 1) by (rewrite <- Rinv_1; apply Rinv_le_contravar; lra).
  set (r := / IZR n) in *.
  assert (SB : Rabs (dval s / IZR n) <= (1 + / 1000) * T * r).
  { unfold Rdiv. fold r. rewrite Rabs_mult, (Rabs_pos_eq r) by lra. apply Rmult_le_compat_r; lra. }
  destruct (ddiv_ok s (dint n) F) as [F' V]; [rewrite Vn; lra| |].
  { rewrite Vn. apply cap_huge. eapply Rle_trans; [exact SB|].
    assert (T * r <= T * 1) by (apply Rmult_le_compat_l; lra). lra. }
  split; [exact F'|]. rewrite V, Vn. pose proof (rnd_error (dval s / IZR n)) as RE.
  assert (SB2 : Rabs (dval s / IZR n) <= (T + IZR (n - 1) * u * T) * r).
  { unfold Rdiv. fold r. rewrite Rabs_mult, (Rabs_pos_eq r) by lra. apply Rmult_le_compat_r; [lra|]. eapply near'; [exact D|]. apply rsum_total. lia. }
  assert (DD : Rabs (dval s / IZR n - X / IZR n) <= IZR (n - 1) * u * T * r).
  { unfold Rdiv. fold r. rewrite <- Rmult_minus_distr_r, Rabs_mult, (Rabs_pos_eq r) by lra. apply Rmult_le_compat_r; lra. }
  replace (rnd (dval s / IZR n) - X / IZR n) with ((rnd (dval s / IZR n) - dval s / IZR n) + (dval s / IZR n - X / IZR n)) by ring.
  eapply Rle_trans; [apply Rabs_triang|]. eapply Rle_trans; [apply Rplus_le_compat; [exact RE|exact DD]|].
  assert (UB : u * Rabs (dval s / IZR n) <= u * ((T + IZR (n - 1) * u * T) * r)) by (apply Rmult_le_compat_l; lra).
  unfold Rdiv at 2. fold r. rewrite plus_IZR. rewrite minus_IZR in *.
  assert (NU : (IZR n - 1) * u <= 1) by (pose proof (nu n ltac:(lia) n ltac:(lia)) as Q; rewrite minus_IZR in Q; lra).
  set (q := T * r) in *. assert (Q0 : 0 <= q) by (apply Rmult_le_pos; lra).
  replace (u * ((T + (IZR n - 1) * u * T) * r)) with (u * q + ((IZR n - 1) * u) * (u * q)) in UB by (unfold q; ring).
  assert (UQ : 0 <= u * q) by (apply Rmult_le_pos; lra).
  assert (((IZR n - 1) * u) * (u * q) <= 1 * (u * q)) by (apply Rmult_le_compat_r; assumption).
  replace ((IZR n - 1) * u * T * r) with ((IZR n - 1) * (u * q)) by (unfold q; ring).
  replace ((IZR n + 1) * u * q) with ((IZR n - 1) * (u * q) + 2 * (u * q)) by ring. lra.
Qed.

Theorem mean_doubles n x : (0 <= n <= 2147483647)%Z -> all_finite n x -> total n (val x) <= cap ->
  exists m, dmean x n = OK m /\ finite m /\ (n = 0%Z -> m = d0) /\
    ((1 <= n)%Z -> Rabs (dval m - rsum n (val x) / IZR n) <= IZR (n + 1) * u * (total n (val x) / IZR n) + bpow radix2 (-1075)).
Proof.
  intros Hn [L F] HA. unfold dmean. destruct (Z.eqb_spec n 0) as [->|N].
  - exists d0. splits; auto; [reflexivity|lia].
  - destruct (mean_loop n (zn d0 x) (aget x) ltac:(lia)) as (s & E & Fm & V); [|exact HA|].
    + intros j Hj. split; [apply aget_OK; lia|apply F; exact Hj].
    + unfold dsum. rewrite E. ret. eexists. split; [reflexivity|]. split; [exact Fm|]. split; [lia|]. intros _. exact V.
Qed.

Theorem mean_range_doubles start n x : (0 <= start)%Z -> (0 <= n <= 2147483647)%Z -> (start + n <= zlen x)%Z ->
  (forall j, (start <= j < start + n)%Z -> finite (zn d0 x j)) -> total n (fun j => dval (zn d0 x (start + j))) <= cap ->
  exists m, dmean_range x start n = OK m /\ finite m /\ (n = 0%Z -> m = d0) /\
    ((1 <= n)%Z -> Rabs (dval m - rsum n (fun j => dval (zn d0 x (start + j))) / IZR n) <=
       IZR (n + 1) * u * (total n (fun j => dval (zn d0 x (start + j))) / IZR n) + bpow radix2 (-1075)).
Proof.
  intros Hs Hn L F HA. unfold dmean_range. destruct (Z.eqb_spec n 0) as [->|N].
  - exists d0. splits; auto; [reflexivity|lia].
  - destruct (mean_loop n (fun j => zn d0 x (start + j)) (fun j => aget x (start + j)) ltac:(lia)) as (s & E & Fm & V); [|exact HA|].
    + intros j Hj. split; [apply aget_OK; lia|apply F; lia].
    + rewrite E. ret. eexists. split; [reflexivity|]. split; [exact Fm|]. split; [lia|]. intros _. exact V.
Qed.
