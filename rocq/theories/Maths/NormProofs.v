(** Norms and power means. *)
From Coq Require Import List ZArith Reals Lia Lra Bool.
From Verif.Base Require Import Imp Sums RealOps Loops.
From Verif.Maths Require Import NormModel NormSpec.
Import ListNotations.
Open Scope Z_scope.

Lemma rpower_root x p : (0 < x)%R -> 1 <= p -> (Rpower x (1 / IZR p) ^ Z.to_nat p = x)%R.
Proof.
  intros Hx Hp. rewrite <- Rpower_pow by apply exp_pos. rewrite Rpower_mult.
  replace (1 / IZR p * INR (Z.to_nat p))%R with 1%R.
  - now apply Rpower_1.
  - rewrite INR_IZR_INZ, Z2Nat.id by lia. field. apply not_0_IZR. lia.
Qed.

Lemma cpow_root x p : (0 <= x)%R -> 1 <= p -> (0 <= cpow x (1 / IZR p) /\ cpow x (1 / IZR p) ^ Z.to_nat p = x)%R.
Proof.
  intros Hx Hp. unfold cpow. destruct (Reqb_spec x 0) as [->|N].
  - destruct (Reqb_spec (1 / IZR p) 0) as [E|_].
    + exfalso. assert (0 < IZR p)%R by (apply IZR_lt; lia). assert (0 < 1 / IZR p)%R by (apply Rdiv_lt_0_compat; lra). lra.
    + split; [lra|]. apply pow_i. lia.
  - split; [apply Rlt_le, exp_pos|]. apply rpower_root; [lra|lia].
Qed.

Lemma pow_inj a b k : (0 <= a)%R -> (0 <= b)%R -> (0 < k)%nat -> (a ^ k = b ^ k)%R -> a = b.
Proof.
  intros Ha Hb Hk E. destruct (Rtotal_order a b) as [H|[H|H]]; [|auto|].
  - exfalso. assert (a ^ k < b ^ k)%R; [|lra]. clear E. induction k as [|k IH]; [lia|]. destruct k as [|k]; [cbn; lra|].
    specialize (IH ltac:(lia)). change (a * a ^ S k < b * b ^ S k)%R.
    assert (0 <= a ^ S k)%R by (apply pow_le; lra). nra.
  - exfalso. assert (b ^ k < a ^ k)%R; [|lra]. clear E. induction k as [|k IH]; [lia|]. destruct k as [|k]; [cbn; lra|].
    specialize (IH ltac:(lia)). change (b * b ^ S k < a * a ^ S k)%R.
    assert (0 <= b ^ S k)%R by (apply pow_le; lra). nra.
Qed.

Lemma norm_unique n p f N M : 1 <= p -> is_lp_norm n p f N -> is_lp_norm n p f M -> N = M.
Proof. intros Hp (A & B) (C & D). apply (pow_inj _ _ (Z.to_nat p)); auto; [lia|]. lra. Qed.

Lemma mean_unique n p f N M : 1 <= p -> 1 <= n -> is_power_mean n p f N -> is_power_mean n p f M -> N = M.
Proof.
  intros Hp Hn (A & B) (C & D). apply (pow_inj _ _ (Z.to_nat p)); auto; [lia|].
  assert (0 < IZR n)%R by (apply IZR_lt; lia). nra.
Qed.

Lemma powers_nonneg n p f : (0 <= rsum n (fun i => Rabs (f i) ^ p))%R.
Proof. apply rsum_nonneg. intros. apply pow_le, Rabs_pos. Qed.

Theorem alpha_norm_ok d n alpha : 1 <= alpha -> 1 <= n <= zlen d ->
  exists N, getAlphaNorm d n alpha = OK N /\ is_power_mean n alpha (zn 0%R d) N.
Proof.
  intros Ha Hn. unfold getAlphaNorm.
  rewrite (for_up_fsum 0%R Rplus n _ (fun i => (Rabs (zn 0 d i) ^ Z.to_nat alpha)%R)).
  2: lia.
  2:{ intros i acc Hi. rewrite (aget_OK 0%R) by lia. reflexivity. }
  ret. fold (rsum n (fun i => (Rabs (zn 0 d i) ^ Z.to_nat alpha)%R)).
  assert (P : (0 < IZR n)%R) by (apply IZR_lt; lia).
  destruct (cpow_root (rsum n (fun i => (Rabs (zn 0 d i) ^ Z.to_nat alpha)) / IZR n)%R alpha) as (A & B); [|lia|].
  { apply Rmult_le_pos; [apply powers_nonneg|]. apply Rlt_le, Rinv_0_lt_compat. auto. }
  eexists; split; [reflexivity|]. split; [exact A|]. rewrite B. field. lra.
Qed.

(** Homogeneity. *)
Lemma mean_scale n p f N c : is_power_mean n p f N -> is_power_mean n p (fun i => c * f i)%R (Rabs c * N)%R.
Proof.
  intros (A & B). split; [apply Rmult_le_pos; auto; apply Rabs_pos|].
  rewrite (rsum_ext n _ (fun i => (Rabs c ^ Z.to_nat p * Rabs (f i) ^ Z.to_nat p)%R)) by (intros; rewrite Rabs_mult, Rpow_mult_distr; reflexivity).
  rewrite rsum_scal, <- B, Rpow_mult_distr. ring.
Qed.
Lemma norm_scale n p f N c : is_lp_norm n p f N -> is_lp_norm n p (fun i => c * f i)%R (Rabs c * N)%R.
Proof.
  intros (A & B). split; [apply Rmult_le_pos; auto; apply Rabs_pos|].
  rewrite (rsum_ext n _ (fun i => (Rabs c ^ Z.to_nat p * Rabs (f i) ^ Z.to_nat p)%R)) by (intros; rewrite Rabs_mult, Rpow_mult_distr; reflexivity).
  rewrite rsum_scal, <- B, Rpow_mult_distr. ring.
Qed.

Lemma pow_zero a k : (a ^ k = 0)%R -> a = 0%R.
Proof. intros H. destruct (Req_dec a 0) as [|N]; auto. exfalso. apply (pow_nonzero a k N H). Qed.

Lemma sum_pow_zero n f k : rsum n (fun i => (Rabs (f i) ^ k)%R) = 0%R -> forall i, 0 <= i < n -> f i = 0%R.
Proof.
  intros H i Hi. assert (T : (Rabs (f i) ^ k <= rsum n (fun i => Rabs (f i) ^ k))%R).
  { apply (rsum_term n (fun i => (Rabs (f i) ^ k)%R)); auto. intros. apply pow_le, Rabs_pos. }
  rewrite H in T. assert (Q : (0 <= Rabs (f i) ^ k)%R) by apply pow_le, Rabs_pos.
  assert (Z0 : (Rabs (f i) ^ k = 0)%R) by lra. apply pow_zero in Z0. destruct (Req_dec (f i) 0) as [|N]; auto. exfalso. now apply (Rabs_no_R0 (f i)).
Qed.

Lemma mean_zero_iff n p f N : 1 <= p -> 1 <= n -> is_power_mean n p f N -> (N = 0%R <-> forall i, 0 <= i < n -> f i = 0%R).
Proof.
  intros Hp Hn (A & B). split.
  - intros ->. rewrite pow_i, Rmult_0_r in B by lia. apply (sum_pow_zero n f (Z.to_nat p)). auto.
  - intros H. rewrite rsum_zero in B by (intros; rewrite H, Rabs_R0 by auto; apply pow_i; lia).
    apply (pow_zero _ (Z.to_nat p)). apply Rmult_integral in B. destruct B as [B|B]; auto. exfalso. apply (not_0_IZR n); [lia|auto].
Qed.

(** A power mean lies below every bound on the absolute values. *)
Lemma mean_le_bound n p f N M : 1 <= p -> 1 <= n -> is_power_mean n p f N -> (forall i, 0 <= i < n -> (Rabs (f i) <= M)%R) -> (N <= M)%R.
Proof.
  intros Hp Hn (A & B) H. assert (M0 : (0 <= M)%R) by (eapply Rle_trans; [apply Rabs_pos|apply (H 0); lia]).
  destruct (Rle_or_lt N M) as [|L]; auto. exfalso.
  assert (S : (rsum n (fun i => Rabs (f i) ^ Z.to_nat p) <= rsum n (fun _ => M ^ Z.to_nat p))%R).
  { apply rsum_le. intros i Hi. apply pow_incr. split; [apply Rabs_pos|auto]. }
  rewrite rsum_const in S by lia. rewrite <- B in S. assert (0 < IZR n)%R by (apply IZR_lt; lia).
  assert (E : (N ^ Z.to_nat p = M ^ Z.to_nat p)%R).
  { apply Rle_antisym; [apply Rmult_le_reg_l with (IZR n); auto|]. apply pow_incr. lra. }
  apply pow_inj in E; auto; [lra|lia].
Qed.

(** *** p-norms *)
Theorem lp_norm_ok d p : 1 <= p -> exists N, getLpNorm d p = OK N /\ is_lp_norm (zlen d) p (zn 0%R d) N.
Proof.
  intros Hp. pose proof (zlen_nonneg d). unfold getLpNorm.
  rewrite (for_up_fsum 0%R Rplus (zlen d) _ (fun i => (Rabs (zn 0 d i) ^ Z.to_nat p)%R)).
  2: lia.
  2:{ intros i acc Hi. rewrite (aget_OK 0%R) by lia. ret. unfold cpown. now rewrite RPow_abs. }
  ret. fold (rsum (zlen d) (fun i => (Rabs (zn 0 d i) ^ Z.to_nat p)%R)).
  destruct (cpow_root (rsum (zlen d) (fun i => (Rabs (zn 0 d i) ^ Z.to_nat p)))%R p) as (A & B); [apply powers_nonneg|lia|].
  eexists; split; [reflexivity|]. split; auto.
Qed.

Theorem normalise_lp_ok d p threshold : 1 <= p -> 1 <= zlen d -> (0 < threshold)%R ->
  exists N out, is_lp_norm (zlen d) p (zn 0%R d) N /\ normaliseLp d p threshold = OK out /\ zlen out = zlen d /\
    is_lp_norm (zlen d) p (zn 0%R out) 1 /\
    ((threshold <= N)%R -> forall i, 0 <= i < zlen d -> zn 0%R d i = (N * zn 0 out i)%R) /\
    ((N < threshold)%R -> exists v, (0 < v)%R /\ forall i, 0 <= i < zlen d -> zn 0%R out i = v).
Proof.
  intros Hp Hn Ht. unfold normaliseLp. destruct (Z.eqb_spec (zlen d) 0); [lia|]. destruct (Z.eqb_spec p 0); [lia|]. cbn [orb].
  destruct (lp_norm_ok d p Hp) as (N & -> & HN). ret. exists N.
  assert (P : (0 < IZR (zlen d))%R) by (apply IZR_lt; lia).
  destruct (Rltb_spec N threshold) as [L|L].
  - eexists. split; [exact HN|]. split; [reflexivity|]. split; [zl; lia|].
    destruct (cpow_root (IZR (zlen d)) p) as (A & B); [lra|lia|]. set (r := cpow _ _) in *.
    assert (r0 : (0 < r)%R).
    { destruct (Req_dec r 0) as [E|]; [|lra]. rewrite E, pow_i in B by lia. lra. }
    assert (V : forall i, 0 <= i < zlen d -> zn 0%R (repeat (1 / r)%R (Z.to_nat (zlen d))) i = (1 / r)%R) by (intros; rewrite zn_repeat_in by lia; reflexivity).
    assert (r1 : (0 < 1 / r)%R) by (apply Rdiv_lt_0_compat; lra).
    splits.
    + split; [lra|]. rewrite pow1. rewrite (rsum_ext (zlen d) _ (fun _ => (/ IZR (zlen d))%R)).
      * rewrite rsum_const by lia. field. lra.
      * intros i Hi. rewrite V by auto. rewrite Rabs_pos_eq by lra. unfold Rdiv. rewrite Rmult_1_l, pow_inv, B. reflexivity.
    + intros; lra.
    + intros _. exists (1 / r)%R. auto.
  - destruct HN as (A & B).
    match goal with |- context [for_up 0 (zlen d) ?b ?l] =>
      assert (FE : for_up 0 (zlen d) b l = OK (ztab (zlen d) (fun i => zn 0 d i / N)%R ++ skipn (Z.to_nat (zlen d)) l)) end.
    { apply for_up_tab; [zl; lia|]. intros i s Hi Ls _ _. rewrite (aget_OK 0%R) by lia. reflexivity. }
    rewrite FE. clear FE. eexists. split; [split; eauto|]. split; [reflexivity|].
    assert (SK : skipn (Z.to_nat (zlen d)) (repeat 0%R (Z.to_nat (zlen d))) = []) by (apply skipn_all2; rewrite repeat_length; lia).
    rewrite SK, app_nil_r. split; [zl; lia|].
    assert (V : forall i, 0 <= i < zlen d -> zn 0%R (ztab (zlen d) (fun i => zn 0 d i / N)%R) i = (zn 0 d i / N)%R) by (intros; now rewrite zn_ztab).
    splits.
    + split; [lra|]. rewrite pow1. rewrite (rsum_ext (zlen d) _ (fun i => (/ N ^ Z.to_nat p * Rabs (zn 0 d i) ^ Z.to_nat p)%R)).
      * rewrite rsum_scal, <- B. field. apply pow_nonzero. lra.
      * intros i Hi. rewrite V by auto. unfold Rdiv. rewrite Rabs_mult, Rpow_mult_distr, (Rabs_pos_eq (/ N)).
        -- rewrite pow_inv. ring.
        -- apply Rlt_le, Rinv_0_lt_compat. lra.
    + intros _ i Hi. rewrite V by auto. field. lra.
    + intros; lra.
Qed.

(** No elements, or p = 0: the data unchanged. *)
Lemma normalise_lp_none d p threshold : zlen d = 0 \/ p = 0 -> normaliseLp d p threshold = OK d.
Proof. intros [H|H]; unfold normaliseLp; [rewrite H|subst p; rewrite Z.eqb_refl, orb_true_r]; reflexivity. Qed.
