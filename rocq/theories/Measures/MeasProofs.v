From Coq Require Import Reals ZArith Lia Lra List Bool Psatz.
From Verif.Base Require Import Imp Sums RealOps Arith Loops.
From Verif.Key Require Import KeyReal.
From Verif.Measures Require Import MeasModel MeasSpec.
Import ListNotations.
Open Scope Z_scope.

(** ** Autocorrelation *)
Lemma eps_pos : (0 < EPS)%R.
Proof. unfold EPS. lra. Qed.

Lemma for_up_shift {St} lo hi (f : Z -> St -> res St) s : lo <= hi ->
  for_up lo hi f s = for_up 0 (hi - lo) (fun k => f (lo + k)) s.
Proof.
  intros H. unfold for_up. replace (hi - lo - 0) with (hi - lo) by lia. generalize (Z.to_nat (hi - lo)) as n. intros n.
  assert (G : forall a s, for_n n (lo + a) 1 f s = for_n n a 1 (fun k => f (lo + k)) s).
  { clear s. induction n as [|n IH]; intros a s; cbn [for_n]; [reflexivity|].
    destruct (f (lo + a) s); cbn [bind]; auto. rewrite <- IH. f_equal. lia. }
  rewrite <- G. f_equal. lia.
Qed.

Theorem autocorrelation_value src dst n : 0 <= n <= zlen src -> n <= zlen dst ->
  exists dst', doAutoUnBiased src dst n = OK dst' /\ zlen dst' = zlen dst /\
    (forall i, 0 <= i < n -> zn 0%R dst' i = if Rle_dec (autocorr n (zn 0%R src) i) 0 then EPS else autocorr n (zn 0%R src) i) /\
    (forall i, 0 <= i < n -> (0 < zn 0%R dst' i)%R /\ (autocorr n (zn 0%R src) i <= zn 0%R dst' i)%R) /\
    (forall i, n <= i -> zn 0%R dst' i = zn 0%R dst i).
Proof.
  intros Hn Hd. unfold doAutoUnBiased.
  set (g := fun i => if Rle_dec (autocorr n (zn 0%R src) i) 0 then EPS else autocorr n (zn 0%R src) i).
  rewrite (for_up_tab n _ g); [|lia|].
  2:{ intros i s Hi Ls _ _. rewrite for_up_shift by lia.
      rewrite (for_up_fsum 0%R Rplus (n - i) _ (fun k => (zn 0 src k * zn 0 src (k + i)%Z)%R)); [|lia|].
      2:{ intros k acc Hk. rewrite (aget_OK 0%R) by lia. ret. rewrite (aget_OK 0%R) by lia. ret.
          replace (i + k - i) with k by lia. now rewrite (Z.add_comm i k). }
      ret. reflexivity. }
  eexists; split; [reflexivity|].
  assert (V : forall i, 0 <= i < n -> zn 0%R (ztab n g ++ skipn (Z.to_nat n) dst) i = g i).
  { intros k Hk. rewrite zn_app. zl. rewrite Z.max_r by lia. destruct (Z.ltb_spec k n); [|lia]. now rewrite zn_ztab by lia. }
  splits; auto.
  - zl; lia.
  - intros i Hi. rewrite V by auto. unfold g. pose proof eps_pos. destruct (Rle_dec (autocorr n (zn 0%R src) i) 0); lra.
  - intros k Hk. rewrite zn_app. zl. rewrite Z.max_r by lia. destruct (Z.ltb_spec k n); [lia|].
    rewrite zn_skipn by lia. f_equal. lia.
Qed.

(** ** Cosine distance *)
Section Sym.
  Context {T : Type} (A : arith T) (fabs : T -> T) (small : T).
  Hypothesis mul_comm : forall x y, a_mul A x y = a_mul A y x.

  Theorem cosine_sym v1 v2 : cosine A fabs small v1 v2 = cosine A fabs small v2 v1.
  Proof.
    unfold cosine. rewrite (Z.eqb_sym (zlen v2)). destruct (Z.eqb_spec (zlen v1) (zlen v2)) as [E|]; [|reflexivity]. cbn [negb].
    rewrite <- E.
    assert (G : forall k i s d1 d2 s' d1' d2', s = s' -> d1 = d2' -> d2 = d1' ->
      match for_n k i 1 (fun i '(s, d1, d2) => a <- aget v1 i ;; b <- aget v2 i ;;
        OK (a_add A s (a_mul A a b), a_add A d1 (a_mul A a a), a_add A d2 (a_mul A b b))) (s, d1, d2),
      for_n k i 1 (fun i '(s, d1, d2) => a <- aget v2 i ;; b <- aget v1 i ;;
        OK (a_add A s (a_mul A a b), a_add A d1 (a_mul A a a), a_add A d2 (a_mul A b b))) (s', d1', d2') with
      | OK (x, y, z), OK (x', y', z') => x = x' /\ y = z' /\ z = y'
      | OK _, _ => False | _, OK _ => False
      | UB, UB => True | Throw, Throw => True | Diverge, Diverge => True | _, _ => False
      end).
    { induction k as [|k IH]; intros i s d1 d2 s' d1' d2' -> -> ->; cbn [for_n]; [auto|].
      unfold aget. destruct (i <? 0); [exact I|]. destruct (nth_error v1 (Z.to_nat i)) as [a|], (nth_error v2 (Z.to_nat i)) as [b|]; cbn [bind]; auto.
      apply IH; auto. now rewrite (mul_comm a b). }
    unfold for_up. specialize (G (Z.to_nat (zlen v1 - 0)) 0 (a_of A 0) (a_of A 0) (a_of A 0) _ _ _ eq_refl eq_refl eq_refl).
    match type of G with match ?a with _ => _ end => destruct a as [((x & y) & z)| | |] end;
    match type of G with match ?a with _ => _ end => destruct a as [((x' & y') & z')| | |] end; try contradiction; auto.
    destruct G as (-> & -> & ->). cbn [bind]. now rewrite (mul_comm y').
  Qed.

  Theorem cosine_mismatch v1 v2 : length v1 <> length v2 -> cosine A fabs small v1 v2 = OK (a_of A 1).
  Proof. intros H. unfold cosine. destruct (Z.eqb_spec (zlen v1) (zlen v2)) as [E|]; [unfold zlen in E; lia|reflexivity]. Qed.
End Sym.

Lemma dot_self_nonneg n x : (0 <= dot n x x)%R.
Proof. apply rsum_nonneg. intros. nra. Qed.
Lemma norm_mul n x y : (norm n x * norm n y = sqrt (Rabs (dot n x x * dot n y y)))%R.
Proof.
  pose proof (dot_self_nonneg n x). pose proof (dot_self_nonneg n y). unfold norm.
  rewrite Rabs_pos_eq by nra. now rewrite sqrt_mult.
Qed.
Lemma dot_bound n x y : (Rabs (dot n x y) <= norm n x * norm n y)%R.
Proof.
  rewrite norm_mul. pose proof (cauchy_schwarz n x y) as C.
  rewrite <- sqrt_Rsqr_abs. apply sqrt_le_1_alt. unfold Rsqr, dot. 
  eapply Rle_trans; [exact C|]. apply Rle_abs.
Qed.

Lemma small_pos : (0 < small)%R.
Proof. unfold small. lra. Qed.

Theorem cosine_value v w : zlen v = zlen w ->
  let n := zlen v in cosine_distance v w = OK (1 - dot n (zn 0%R v) (zn 0%R w) / (norm n (zn 0%R v) * norm n (zn 0%R w) + small))%R.
Proof.
  intros E n. unfold cosine_distance, cosine. rewrite (proj2 (Z.eqb_eq _ _) E). cbn [negb].
  match goal with |- context [for_up 0 ?h ?B ?S0] =>
    destruct (for_up_inv (fun i (x : R * R * R) => x = (dot i (zn 0%R v) (zn 0%R w), dot i (zn 0%R v) (zn 0%R v), dot i (zn 0%R w) (zn 0%R w))) 0 h B S0)
      as (x & Ex & ->); [apply zlen_nonneg| | |rewrite Ex] end.
  - unfold dot. rewrite !rsum_0 by lia. reflexivity.
  - intros i s Hi ->. rewrite (aget_OK 0%R) by lia. ret. rewrite (aget_OK 0%R) by lia. ret. eexists; split; [reflexivity|].
    unfold dot. rewrite !rsum_S by lia. reflexivity.
  - ret. cbn [Rarith a_add a_sub a_of a_div a_sqrt a_mul]. fold n. now rewrite norm_mul.
Qed.

(** Strictly between 0 and 2. *)
Theorem cosine_range v w : exists d, cosine_distance v w = OK d /\ (0 < d < 2)%R.
Proof.
  destruct (Z.eq_dec (zlen v) (zlen w)) as [E|Ne].
  - rewrite cosine_value by auto. cbv zeta. set (n := zlen v). eexists; split; [reflexivity|].
    pose proof (dot_bound n (zn 0%R v) (zn 0%R w)) as B. pose proof small_pos as P.
    set (a := dot n _ _) in *. set (b := (norm n (zn 0%R v) * norm n (zn 0%R w))%R) in *.
    pose proof (Rabs_pos a). assert (Q : (0 < b + small)%R) by lra.
    assert (B' : (- (b + small) < a < b + small)%R) by (destruct (Rabs_def2 a (b + small)); lra).
    assert (F : (- 1 < a / (b + small) < 1)%R).
    { split.
      - apply Rmult_lt_reg_r with (b + small)%R; auto. unfold Rdiv. rewrite Rmult_assoc, Rinv_l by lra. lra.
      - apply Rmult_lt_reg_r with (b + small)%R; auto. unfold Rdiv. rewrite Rmult_assoc, Rinv_l by lra. lra. }
    lra.
  - unfold cosine_distance. rewrite cosine_mismatch by (unfold zlen in Ne; lia). eexists; split; [reflexivity|]. cbn. lra.
Qed.

Lemma dot_scale n c x y : (forall i, 0 <= i < n -> y i = (c * x i)%R) -> dot n x y = (c * dot n x x)%R /\ dot n y y = (c * c * dot n x x)%R.
Proof.
  intros H. unfold dot. rewrite <- !rsum_scal. split; apply rsum_ext; intros i Hi; rewrite H by auto; ring.
Qed.

(** Vectors in the same direction: only the regularisation is left. *)
Theorem cosine_proportional v w c : zlen v = zlen w -> (0 <= c)%R -> (forall i, 0 <= i < zlen v -> zn 0%R w i = (c * zn 0 v i)%R) ->
  let e := (c * dot (zlen v) (zn 0%R v) (zn 0%R v))%R in cosine_distance v w = OK (small / (e + small))%R.
Proof.
  intros E Hc Hp e. rewrite cosine_value by auto. cbv zeta. f_equal.
  destruct (dot_scale (zlen v) c (zn 0%R v) (zn 0%R w) Hp) as (D1 & D2).
  assert (N : (norm (zlen v) (zn 0%R v) * norm (zlen v) (zn 0%R w) = e)%R).
  { rewrite norm_mul, D2. pose proof (dot_self_nonneg (zlen v) (zn 0%R v)) as P. set (a := dot _ _ _) in *.
    replace (a * (c * c * a))%R with ((c * a) * (c * a))%R by ring. rewrite Rabs_pos_eq by nra. rewrite sqrt_square by nra. reflexivity. }
  rewrite N, D1. fold e. pose proof small_pos. pose proof (dot_self_nonneg (zlen v) (zn 0%R v)).
  assert (0 <= e)%R by (unfold e; nra). field. lra.
Qed.

(** ** Kullback-Leibler divergences *)
Definition reg (x : R) : R := (x + small)%R.
Definition gterm (a b x y : R) : R :=
  (reg a / reg b + reg b / reg a + reg (x - y) * (1 / reg a + 1 / reg b) * reg (x - y) - 2)%R.

Lemma gaussian_value m1 v1 m2 v2 : let n := zlen m1 in n <= zlen v1 -> n <= zlen m2 -> n <= zlen v2 ->
  distanceGaussian m1 v1 m2 v2 = OK (rsum n (fun k => gterm (zn 0 v1 k) (zn 0 v2 k) (zn 0 m1 k) (zn 0 m2 k)) / 2)%R.
Proof.
  intros n L1 L2 L3. unfold distanceGaussian. fold n.
  match goal with |- context [for_up 0 ?h ?B ?S0] =>
    destruct (for_up_inv (fun i x => x = (-2 * IZR n + (2 * IZR i + rsum i (fun k => gterm (zn 0 v1 k) (zn 0 v2 k) (zn 0 m1 k) (zn 0 m2 k))))%R) 0 h B S0)
      as (x & Ex & ->); [apply zlen_nonneg| | |rewrite Ex] end.
  - rewrite rsum_0 by lia. ring.
  - intros i s Hi ->. fold n in Hi. rewrite !(aget_OK 0%R) by (fold n; lia). ret. ret. ret. ret.
    eexists; split; [reflexivity|]. rewrite rsum_S by lia. rewrite plus_IZR. unfold gterm, reg. cbv zeta. ring.
  - ret. f_equal. lra.
Qed.

Lemma ln_quot x y : (0 < x)%R -> (0 < y)%R -> (ln (x / y) = ln x - ln y)%R.
Proof. intros Hx Hy. unfold Rdiv. rewrite ln_mult, ln_Rinv by (auto using Rinv_0_lt_compat). ring. Qed.

Lemma ratio_ge a b : (0 < a)%R -> (0 < b)%R -> (2 <= a / b + b / a)%R.
Proof.
  intros Ha Hb. replace (a / b + b / a)%R with (2 + (a - b) * (a - b) / (a * b))%R by (field; split; lra).
  assert (0 <= (a - b) * (a - b) / (a * b))%R; [|lra].
  apply Rmult_le_pos; [apply Rle_0_sqr|]. apply Rlt_le, Rinv_0_lt_compat. nra.
Qed.

Lemma gterm_nonneg a b x y : (0 <= a)%R -> (0 <= b)%R -> (0 <= gterm a b x y)%R.
Proof.
  intros Ha Hb. pose proof small_pos. assert (A : (0 < reg a)%R) by (unfold reg; lra). assert (B : (0 < reg b)%R) by (unfold reg; lra).
  unfold gterm. pose proof (ratio_ge _ _ A B) as Q. set (u := reg (x - y)).
  assert (0 < 1 / reg a)%R by (unfold Rdiv; rewrite Rmult_1_l; now apply Rinv_0_lt_compat).
  assert (0 < 1 / reg b)%R by (unfold Rdiv; rewrite Rmult_1_l; now apply Rinv_0_lt_compat).
  assert (0 <= u * (1 / reg a + 1 / reg b) * u)%R by nra. lra.
Qed.

Section Gauss.
  Variables (m1 v1 m2 v2 : list R).
  Let n := zlen m1.
  Hypotheses (L1 : zlen v1 = n) (L2 : zlen m2 = n) (L3 : zlen v2 = n).
  Hypotheses (P1 : forall k, 0 <= k < n -> (0 <= zn 0 v1 k)%R) (P2 : forall k, 0 <= k < n -> (0 <= zn 0 v2 k)%R).

  (** It is the sum of the divergences, both ways, of the regularised distributions. *)
  Theorem gaussian_is_kl : distanceGaussian m1 v1 m2 v2 = OK (rsum n (fun k =>
    kl_normal (zn 0 m1 k + small) (zn 0 v1 k + small) (zn 0 m2 k) (zn 0 v2 k + small) +
    kl_normal (zn 0 m2 k) (zn 0 v2 k + small) (zn 0 m1 k + small) (zn 0 v1 k + small)))%R.
  Proof.
    rewrite gaussian_value by (fold n; lia). fold n. f_equal. unfold Rdiv at 1. rewrite Rmult_comm, <- rsum_scal.
    apply rsum_ext. intros k Hk. pose proof small_pos. specialize (P1 k Hk). specialize (P2 k Hk).
    unfold kl_normal, gterm, reg. rewrite !ln_quot by lra. field. split; lra.
  Qed.

  Theorem gaussian_nonneg : exists d, distanceGaussian m1 v1 m2 v2 = OK d /\ (0 <= d)%R.
  Proof.
    rewrite gaussian_value by (fold n; lia). eexists; split; [reflexivity|]. fold n.
    assert (0 <= rsum n (fun k => gterm (zn 0 v1 k) (zn 0 v2 k) (zn 0 m1 k) (zn 0 m2 k)))%R; [|lra].
    apply rsum_nonneg. intros. apply gterm_nonneg; auto.
  Qed.

  (** The two orders differ by the regularisation of the difference of the means only. *)
  Theorem gaussian_sym_defect : exists d e, distanceGaussian m1 v1 m2 v2 = OK d /\ distanceGaussian m2 v2 m1 v1 = OK e /\
    (d - e = rsum n (fun k => 2 * small * (zn 0 m1 k - zn 0 m2 k) * (1 / (zn 0 v1 k + small) + 1 / (zn 0 v2 k + small))))%R.
  Proof.
    rewrite !gaussian_value by (fold n; rewrite ?L2; lia). do 2 eexists; split; [reflexivity|]. split; [reflexivity|].
    rewrite L2. fold n. unfold Rdiv at 1 2. rewrite <- Rmult_minus_distr_r, <- rsum_minus, Rmult_comm, <- rsum_scal.
    apply rsum_ext. intros k Hk. unfold gterm, reg. pose proof small_pos. specialize (P1 k Hk). specialize (P2 k Hk).
    field. split; lra.
  Qed.
End Gauss.

(** On identical arguments. *)
Theorem gaussian_self m v : zlen v = zlen m -> (forall k, 0 <= k < zlen m -> (0 <= zn 0 v k)%R) ->
  distanceGaussian m v m v = OK (rsum (zlen m) (fun k => small * small / (zn 0 v k + small)))%R.
Proof.
  intros L P. rewrite gaussian_value by lia. f_equal. unfold Rdiv at 1. rewrite Rmult_comm, <- rsum_scal. apply rsum_ext.
  intros k Hk. pose proof small_pos. specialize (P k Hk). unfold gterm, reg. field. lra.
Qed.

Section DistSym.
  Context {T : Type} (A : arith T) (lg : T -> T) (sm : T).
  Hypothesis add_comm : forall x y, a_add A x y = a_add A y x.
  Lemma dist_one_no_throw d1 d2 : dist_one A lg sm d1 d2 = UB \/ exists v, dist_one A lg sm d1 d2 = OK v.
  Proof.
    unfold dist_one, for_up.
    assert (G : forall k i s, let r := for_n k i 1 (fun i d => a <- aget d1 i ;; b <- aget d2 i ;;
      OK (a_add A d (a_mul A a (lg (a_div A (a_add A a sm) (a_add A b sm)))))) s in r = UB \/ exists v, r = OK v).
    { induction k as [|k IH]; intros i s; cbv zeta; cbn [for_n]; [eauto|].
      unfold aget. destruct (i <? 0); [auto|]. destruct (nth_error d1 (Z.to_nat i)); [|auto].
      destruct (nth_error d2 (Z.to_nat i)); [|auto]. cbn [bind]. apply IH. }
    apply G.
  Qed.
  Theorem dist_sym d1 d2 : dist_gen A lg sm d1 d2 true = dist_gen A lg sm d2 d1 true.
  Proof.
    unfold dist_gen. destruct (dist_one_no_throw d1 d2) as [->|(x & ->)], (dist_one_no_throw d2 d1) as [->|(y & ->)]; cbn [bind]; auto.
    now rewrite add_comm.
  Qed.
End DistSym.

Lemma ln10_pos : (0 < ln 10)%R.
Proof. rewrite <- ln_1. apply ln_increasing; lra. Qed.

Lemma dist_value p q : zlen p <= zlen q ->
  dist_one Rarith log10 small p q = OK (rsum (zlen p) (fun i => zn 0 p i * log10 (reg (zn 0 p i) / reg (zn 0 q i))))%R.
Proof.
  intros L. unfold dist_one. apply (for_up_fsum 0%R Rplus); [apply zlen_nonneg|]. intros i acc Hi.
  rewrite (aget_OK 0%R) by lia. ret. rewrite (aget_OK 0%R) by lia. reflexivity.
Qed.

Section Dist.
  Variables (p q : list R).
  Let n := zlen p.
  Hypotheses (Lq : zlen q = n).
  Hypotheses (Pp : forall i, 0 <= i < n -> (0 <= zn 0 p i)%R) (Pq : forall i, 0 <= i < n -> (0 <= zn 0 q i)%R).

  Lemma pos i : 0 <= i < n -> (0 < reg (zn 0 p i))%R /\ (0 < reg (zn 0 q i))%R.
  Proof. intros Hi. pose proof small_pos. specialize (Pp i Hi). specialize (Pq i Hi). unfold reg. lra. Qed.

  Theorem dist_symmetrised_nonneg : exists d, distanceDistribution p q true = OK d /\ (0 <= d)%R /\
    (d = 0%R <-> forall i, 0 <= i < n -> zn 0%R p i = zn 0%R q i).
  Proof.
    unfold distanceDistribution, dist_gen. rewrite !dist_value by lia. ret. ret. eexists; split; [reflexivity|].
    cbn [a_add Rarith]. rewrite Lq. fold n. rewrite <- rsum_plus.
    set (t := fun i => (zn 0 p i * log10 (reg (zn 0 p i) / reg (zn 0 q i)) + zn 0 q i * log10 (reg (zn 0 q i) / reg (zn 0 p i)))%R).
    assert (T : forall i, 0 <= i < n -> t i = ((zn 0 p i - zn 0 q i) * (ln (reg (zn 0 p i)) - ln (reg (zn 0 q i))) / ln 10)%R).
    { intros i Hi. destruct (pos i Hi) as (A & B). unfold t, log10. rewrite !ln_quot by auto. pose proof ln10_pos. field. lra. }
    assert (N : forall i, 0 <= i < n -> (0 <= t i)%R /\ (t i = 0%R -> zn 0%R p i = zn 0%R q i)).
    { intros i Hi. rewrite T by auto. destruct (pos i Hi) as (A & B). pose proof ln10_pos as L10.
      assert (I : (0 < / ln 10)%R) by now apply Rinv_0_lt_compat.
      destruct (Rtotal_order (zn 0%R p i) (zn 0%R q i)) as [H|[H|H]].
      - assert (ln (reg (zn 0%R p i)) < ln (reg (zn 0%R q i)))%R by (apply ln_increasing; auto; unfold reg; lra).
        assert (0 < (zn 0 p i - zn 0 q i) * (ln (reg (zn 0 p i)) - ln (reg (zn 0 q i))))%R by nra.
        unfold Rdiv. split; [nra|]. intros Z0. nra.
      - rewrite H. split; [unfold Rdiv; nra|auto].
      - assert (ln (reg (zn 0%R q i)) < ln (reg (zn 0%R p i)))%R by (apply ln_increasing; auto; unfold reg; lra).
        assert (0 < (zn 0 p i - zn 0 q i) * (ln (reg (zn 0 p i)) - ln (reg (zn 0 q i))))%R by nra.
        unfold Rdiv. split; [nra|]. intros Z0. nra. }
    fold t. split; [apply rsum_nonneg; intros i Hi; now apply N|]. split.
    - intros Z0 i Hi. apply N; auto.
      pose proof (rsum_term n t i (fun i Hi => proj1 (N i Hi)) Hi) as Q. pose proof (proj1 (N i Hi)).
      change (rsum n t = 0%R) in Z0. lra.
    - intros E. rewrite (rsum_ext n t (fun _ => 0%R)).
      + now apply rsum_zero.
      + intros i Hi. rewrite T, E by auto. unfold Rdiv. ring.
  Qed.

  Lemma ln_lower x : (0 < x)%R -> (1 - / x <= ln x)%R.
  Proof.
    intros Hx. assert (0 < / x)%R by now apply Rinv_0_lt_compat.
    assert (Q : (ln (/ x) <= / x - 1)%R).
    { pose proof (exp_ineq1_le (ln (/ x))) as E. rewrite exp_ln in E by auto. lra. }
    rewrite ln_Rinv in Q by auto. lra.
  Qed.

  (** Not symmetrised: the divergence itself, up to the regularisation, so nonnegative up to n times 1e-20
      when the sums agree. *)
  Theorem dist_lower : rsum n (zn 0%R p) = rsum n (zn 0%R q) ->
    exists d, distanceDistribution p q false = OK d /\ (- (IZR n * small / ln 10) <= d)%R.
  Proof.
    intros S. unfold distanceDistribution, dist_gen. rewrite dist_value by lia. ret. eexists; split; [reflexivity|]. fold n.
    pose proof ln10_pos as L10. pose proof small_pos as SP.
    assert (I : (0 < / ln 10)%R) by now apply Rinv_0_lt_compat.
    assert (T : forall i, 0 <= i < n -> ((zn 0 p i - zn 0 q i) - small <= zn 0 p i * ln (reg (zn 0 p i) / reg (zn 0 q i)))%R).
    { intros i Hi. destruct (pos i Hi) as (A & B). specialize (Pp i Hi). specialize (Pq i Hi).
      set (a := zn 0%R p i) in *. set (b := zn 0%R q i) in *.
      pose proof (ln_lower (reg a / reg b) ltac:(now apply Rdiv_lt_0_compat)) as Q.
      assert (E : (/ (reg a / reg b) = reg b / reg a)%R) by (field; lra). rewrite E in Q.
      assert (M : (a * (1 - reg b / reg a) <= a * ln (reg a / reg b))%R) by (apply Rmult_le_compat_l; auto).
      assert (F : (a * (1 - reg b / reg a) = (a - b) - small * ((a - b) / reg a))%R) by (unfold reg; field; unfold reg in A; lra).
      assert (G : ((a - b) / reg a <= 1)%R).
      { apply Rmult_le_reg_r with (reg a); auto. unfold Rdiv. rewrite Rmult_assoc, Rinv_l by lra. unfold reg. lra. }
      nra. }
    assert (Q : (- (IZR n * small) <= rsum n (fun i => zn 0 p i * ln (reg (zn 0 p i) / reg (zn 0 q i))))%R).
    { eapply Rle_trans; [|apply rsum_le; exact T]. rewrite rsum_minus, rsum_minus, rsum_const by apply zlen_nonneg. rewrite S. lra. }
    rewrite (rsum_ext n (fun i => zn 0 p i * log10 (reg (zn 0 p i) / reg (zn 0 q i)))%R (fun i => / ln 10 * (zn 0 p i * ln (reg (zn 0 p i) / reg (zn 0 q i))))%R).
    2:{ intros i Hi. unfold log10. field. lra. }
    rewrite rsum_scal. unfold Rdiv. nra.
  Qed.
End Dist.

(** Witnesses: one dimension, variance 1. *)
Theorem gaussian_not_symmetric : exists m1 v1 m2 v2 d e, distanceGaussian m1 v1 m2 v2 = OK d /\ distanceGaussian m2 v2 m1 v1 = OK e /\
  zlen m1 = 1 /\ zlen v1 = 1 /\ zlen m2 = 1 /\ zlen v2 = 1 /\ (0 < zn 0 v1 0)%R /\ (0 < zn 0 v2 0)%R /\ d <> e.
Proof.
  destruct (gaussian_sym_defect [1%R] [1%R] [0%R] [1%R]) as (d & e & E1 & E2 & D); try reflexivity.
  1,2: intros k Hk; change (zlen [1%R]) with 1 in Hk; replace k with 0 by lia; cbn; lra.
  exists [1%R], [1%R], [0%R], [1%R], d, e. splits; auto; try (cbn; lra). intros ->.
  change (zlen [1%R]) with (0 + 1) in D. rewrite rsum_S, rsum_0 in D by lia. cbn in D. pose proof small_pos as P.
  assert (Q : (0 < 1 / (1 + small))%R) by (apply Rdiv_lt_0_compat; lra). nra.
Qed.
Theorem gaussian_not_zero : exists m v d, distanceGaussian m v m v = OK d /\ zlen m = 1 /\ zlen v = 1 /\ (0 < zn 0 v 0)%R /\ d <> 0%R.
Proof.
  exists [0%R], [1%R]. rewrite gaussian_self; [|reflexivity|].
  2:{ intros k Hk. change (zlen [0%R]) with 1 in Hk. replace k with 0 by lia. cbn. lra. }
  eexists; splits; try reflexivity; try (cbn; lra). change (zlen [0%R]) with (0 + 1). rewrite rsum_S, rsum_0 by lia. cbn. pose proof small_pos as P.
  assert (Q : (0 < small * small / (1 + small))%R) by (apply Rdiv_lt_0_compat; nra). lra.
Qed.
