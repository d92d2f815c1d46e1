(** [cluster_melt] over the reals. *)
From Coq Require Import List ZArith Reals Lia Lra Bool.
From Verif.Base Require Import Imp Sums Arith RealOps Loops Matrix.
From Verif.Seg Require Import MeltModel MeltSpec MeltLoops.
Import ListNotations.
Open Scope Z_scope.

(** Divergence. *)
Lemma ln_ge x : (0 < x -> 1 - 1 / x <= ln x)%R.
Proof.
  intros H. assert (0 < / x)%R by now apply Rinv_0_lt_compat.
  pose proof (exp_ineq1_le (ln (/ x))) as E. rewrite exp_ln in E by auto. rewrite ln_Rinv in E by auto. unfold Rdiv. lra.
Qed.
Lemma ln_gt x : (0 < x -> x <> 1 -> 1 - 1 / x < ln x)%R.
Proof.
  intros H N. assert (0 < / x)%R by now apply Rinv_0_lt_compat.
  assert (ln (/ x) <> 0)%R.
  { intros E. apply N. rewrite ln_Rinv in E by auto. apply ln_inv; try lra. rewrite ln_1. lra. }
  pose proof (exp_ineq1 (ln (/ x)) ltac:(auto)) as E. rewrite exp_ln in E by auto. rewrite ln_Rinv in E by auto. unfold Rdiv. lra.
Qed.
Lemma xln_ge x q : (0 <= x -> 0 <= q -> (x > 0 -> q > 0) -> x - q <= xln x q)%R.
Proof.
  intros Hx Hq Q. unfold xln. destruct (Rltb_spec 0 x) as [P|P]; [|lra].
  specialize (Q P). pose proof (ln_ge (x / q) ltac:(apply Rdiv_lt_0_compat; lra)) as L.
  apply Rmult_le_compat_l with (r := x) in L; [|lra]. replace (x * (1 - 1 / (x / q)))%R with (x - q)%R in L by (field; lra). lra.
Qed.
Lemma xln_le x y : (0 <= x -> 0 <= y -> xln x ((x + y) / 2) <= x * ln 2)%R.
Proof.
  intros Hx Hy. unfold xln. destruct (Rltb_spec 0 x) as [P|P].
  - apply Rmult_le_compat_l; [lra|]. assert (x / ((x + y) / 2) <= 2)%R.
    { apply Rmult_le_reg_r with ((x + y) / 2)%R; [lra|]. unfold Rdiv at 1. rewrite Rmult_assoc, Rinv_l by lra. lra. }
    destruct (Req_dec (x / ((x + y) / 2)) 2) as [->|N]; [lra|]. apply Rlt_le, ln_increasing; [apply Rdiv_lt_0_compat|]; lra.
  - assert (x = 0)%R by lra. subst. lra.
Qed.
Lemma from_mean_sym x y : from_mean x y = from_mean y x.
Proof. unfold from_mean. rewrite (Rplus_comm y x). lra. Qed.
Lemma from_mean_nonneg x y : (0 <= x -> 0 <= y -> 0 <= from_mean x y)%R.
Proof.
  intros Hx Hy. unfold from_mean. pose proof (xln_ge x ((x + y) / 2) Hx ltac:(lra) ltac:(lra)).
  pose proof (xln_ge y ((x + y) / 2) Hy ltac:(lra) ltac:(lra)). lra.
Qed.
Lemma from_mean_le x y : (0 <= x -> 0 <= y -> from_mean x y <= (x + y) * ln 2)%R.
Proof.
  intros Hx Hy. unfold from_mean. pose proof (xln_le x y Hx Hy). pose proof (xln_le y x Hy Hx). rewrite (Rplus_comm y x) in *. lra.
Qed.
Lemma from_mean_zero x y : (0 <= x -> 0 <= y -> from_mean x y = 0 -> x = y)%R.
Proof.
  intros Hx Hy E. unfold from_mean in E.
  pose proof (xln_ge x ((x + y) / 2) Hx ltac:(lra) ltac:(lra)) as A.
  pose proof (xln_ge y ((x + y) / 2) Hy ltac:(lra) ltac:(lra)) as B.
  assert (S : forall u q, (0 < u -> 0 < q -> xln u q <= u - q -> u = q)%R).
  { intros u q Hu Hq H. unfold xln in H. destruct (Rltb_spec 0 u) as [P|P]; [|lra].
    destruct (Req_dec (u / q) 1) as [N|N].
    - apply Rmult_eq_compat_r with (r := q) in N. unfold Rdiv in N. rewrite Rmult_assoc, Rinv_l in N by lra. lra.
    - pose proof (ln_gt (u / q) ltac:(apply Rdiv_lt_0_compat; lra) N) as L.
      apply Rmult_lt_compat_l with (r := u) in L; [|lra]. replace (u * (1 - 1 / (u / q)))%R with (u - q)%R in L by (field; lra). lra. }
  destruct (Req_dec x 0) as [Zx|Nx], (Req_dec y 0) as [Zy|Ny]; try lra.
  - pose proof (S y ((x + y) / 2)%R ltac:(lra) ltac:(lra) ltac:(lra)). lra.
  - pose proof (S x ((x + y) / 2)%R ltac:(lra) ltac:(lra) ltac:(lra)). lra.
  - pose proof (S x ((x + y) / 2)%R ltac:(lra) ltac:(lra) ltac:(lra)). lra.
Qed.
Lemma from_mean_same x : (0 <= x -> from_mean x x = 0)%R.
Proof.
  intros H. unfold from_mean, xln. destruct (Rltb_spec 0 x) as [P|P]; [|lra].
  replace (x / ((x + x) / 2))%R with 1%R by (field; lra). rewrite ln_1. lra.
Qed.

(** The loop of kldist over R. *)
Lemma kl_divergence m x y : (forall i, 0 <= i < m -> (0 <= x i)%R /\ (0 <= y i)%R) -> kl Rarith ln m x y = divergence m x y.
Proof.
  intros P. unfold kl, divergence.
  assert (G : forall d, 0 <= d -> d <= m -> pure_up 0 d (kl_step Rarith ln x y) (IZR 0) = rsum d (fun i => from_mean (x i) (y i))).
  { apply (natlike_ind (fun d => d <= m -> pure_up 0 d (kl_step Rarith ln x y) (IZR 0) = rsum d (fun i => from_mean (x i) (y i)))).
    - intros _. rewrite pure_up_empty, rsum_0 by lia. reflexivity.
    - intros d Hd IH Hb. unfold Z.succ. rewrite pure_up_snoc, rsum_S by lia. rewrite IH by lia.
      destruct (P d ltac:(lia)) as [Px Py]. unfold kl_step. cbn [Rarith a_lt a_of a_add a_mul a_div].
      unfold from_mean, xln. destruct (Rltb_spec 0 ((x d + y d) / 2)) as [Q|Q].
      + destruct (Rltb_spec 0 (x d)), (Rltb_spec 0 (y d)); lra.
      + destruct (Rltb_spec 0 (x d)), (Rltb_spec 0 (y d)); lra. }
  destruct (Z.le_gt_cases 0 m).
  - apply (G m); lia.
  - rewrite pure_up_empty, rsum_0 by lia. reflexivity.
Qed.

Lemma rsum_window n lo hi : 0 <= lo -> lo <= hi + 1 -> hi < n ->
  rsum n (fun b => if (lo <=? b) && (b <=? hi) then 1%R else 0%R) = IZR (hi - lo + 1).
Proof.
  intros H0 H1 H2.
  assert (G : forall d, 0 <= d -> rsum d (fun b => if (lo <=? b) && (b <=? hi) then 1%R else 0%R) = IZR (Z.max 0 (Z.min d (hi + 1) - lo))).
  { apply natlike_ind.
    - rewrite rsum_0 by lia. f_equal. lia.
    - intros d Hd IH. unfold Z.succ. rewrite rsum_S by lia. rewrite IH.
      destruct (Z.leb_spec lo d), (Z.leb_spec d hi); cbn [andb]; rewrite ?Rplus_0_r; rewrite <- ?plus_IZR; f_equal; lia. }
  rewrite G by lia. f_equal. lia.
Qed.
Lemma nbr_others n limit c i j : 0 <= i < n -> 0 <= limit -> IZR (nbr n limit c i j) = others n limit c i (j + 1).
Proof.
  intros Hi Hl. unfold nbr. set (b0 := Z.max 0 (i - limit)). set (b1 := Z.min (n - 1) (i + limit)).
  assert (G : forall d, 0 <= d -> IZR (pure_up b0 (b0 + d) (fun b v => if c b =? j + 1 then v - 1 else v) (b1 - b0 + 1)) =
    (IZR (b1 - b0 + 1) - rsum (b0 + d) (fun b => if (b0 <=? b) && (c b =? j + 1)%Z then 1 else 0))%R).
  { apply natlike_ind.
    - rewrite pure_up_empty by lia. rewrite rsum_zero; [lra|]. intros b Hb. destruct (Z.leb_spec b0 b); [lia|reflexivity].
    - intros d Hd IH. replace (b0 + Z.succ d) with (b0 + d + 1) by lia. rewrite pure_up_snoc, rsum_S by lia.
      destruct (Z.leb_spec b0 (b0 + d)); [|lia]. cbn [andb]. destruct (Z.eqb_spec (c (b0 + d)) (j + 1)).
      + rewrite minus_IZR, IH. lra.
      + rewrite IH. lra. }
  replace (b1 + 1) with (b0 + (b1 + 1 - b0)) by lia. rewrite G by lia. replace (b0 + (b1 + 1 - b0)) with (b1 + 1) by lia.
  rewrite <- (rsum_window n b0 b1) by lia. unfold others.
  replace (rsum (b1 + 1) (fun b => if (b0 <=? b) && (c b =? j + 1) then 1%R else 0%R))
    with (rsum n (fun b => if (b0 <=? b) && (b <=? b1) && (c b =? j + 1) then 1%R else 0%R)).
  - rewrite <- rsum_minus. apply rsum_ext. intros b Hb.
    replace (Z.abs (b - i) <=? limit) with ((b0 <=? b) && (b <=? b1)).
    + destruct (b0 <=? b), (b <=? b1), (c b =? j + 1); cbn; lra.
    + destruct (Z.leb_spec b0 b), (Z.leb_spec b b1), (Z.leb_spec (Z.abs (b - i)) limit); cbn; lia.
  - replace n with ((b1 + 1) + (n - (b1 + 1))) by lia. rewrite rsum_split by lia.
    rewrite (rsum_zero (n - (b1 + 1))), Rplus_0_r.
    + apply rsum_ext. intros b Hb. destruct (b0 <=? b), (Z.leb_spec b b1), (c b =? j + 1); cbn; lra || lia.
    + intros b Hb. destruct (Z.leb_spec (b1 + 1 + b) b1); [lia|]. now rewrite andb_false_r.
Qed.

Section Real.
  Variables (h : list R) (m n k limit : Z) (lambda : R).
  Hypotheses (Hm : 0 <= m) (Hn : 1 <= n) (Hk : 1 <= k) (Hl : 0 <= limit) (Hh : n * m <= zlen h).
  Notation hf := (fun i b => zn 0%R h (i * m + b)).
  Hypothesis Ph : forall i b, 0 <= i < n -> 0 <= b < m -> (0 <= hf i b)%R.
  Definition nonneg_refs (cl : Z -> Z -> R) : Prop := forall j b, 0 <= j < k -> 0 <= b < m -> (0 <= cl j b)%R.

  Lemma raw_ok beta cl i j : nonneg_refs cl -> 0 <= i < n -> 0 <= j < k ->
    raw Rarith ln h m beta cl i j = (- beta * divergence m (cl j) (hf i))%R.
  Proof.
    intros P Hi Hj. unfold raw. rewrite kl_divergence.
    - cbn. unfold hist. cbn [Rarith a_of]. cbv beta. ring.
    - intros b Hb. split; [auto|]. apply Ph; auto.
  Qed.
  Lemma soft_score beta cl c i j : nonneg_refs cl -> 0 <= i < n -> 0 <= j < k ->
    soft_lp Rarith exp ln lambda h m n k limit beta cl c i j = score m n k limit lambda hf beta cl c i j.
  Proof.
    intros P Hi Hj. unfold soft_lp, score, loglik. rewrite raw_ok by auto. cbn [Rarith a_sub a_add a_mul a_of].
    rewrite nbr_others by auto.
    rewrite (fsum_ext _ _ k _ (fun j => exp (- beta * divergence m (cl j) (hf i)))%R) by (intros q Hq; now rewrite raw_ok by auto).
    change (fsum (IZR 0) Rplus k (fun j0 : Z => exp (- beta * divergence m (cl j0) (hf i))))
      with (rsum k (fun j0 => exp (- beta * divergence m (cl j0) (hf i)))).
    match goal with |- (_ - (ln ?A + _))%R = (_ - ln ?B - _)%R => replace A with B by (apply rsum_ext; reflexivity) end. ring.
  Qed.
  Lemma best_first f : first_best k f (best Rarith k f).
  Proof.
    unfold best. cbn [Rarith a_lt]. set (g := fun j '(v, b) => if Rltb v (f j) then (f j, j) else (v, b)).
    assert (G : forall d, 0 <= d -> let '(v, b) := pure_up 1 (1 + d) g (f 0, 0) in v = f b /\ first_best (1 + d) f b).
    { apply natlike_ind.
      - rewrite pure_up_empty by lia. splits; auto. split; [lia|]. split; [|intros; lia]. intros q Hq. replace q with 0 by lia. lra.
      - intros d Hd IH. replace (1 + Z.succ d) with (1 + d + 1) by lia. rewrite pure_up_snoc by lia.
        destruct (pure_up 1 (1 + d) g (f 0, 0)) as [v b]. destruct IH as (-> & B1 & B2 & B3).
        unfold g. destruct (Rltb_spec (f b) (f (1 + d))) as [L|L].
        + splits; auto. split; [lia|]. split.
          * intros q Hq. destruct (Z.eq_dec q (1 + d)) as [->|]; [lra|]. specialize (B2 q ltac:(lia)). lra.
          * intros q Hq. specialize (B2 q ltac:(lia)). lra.
        + splits; auto. split; [lia|]. split; auto.
          intros q Hq. destruct (Z.eq_dec q (1 + d)) as [->|]; [lra|]. apply B2. lia. }
    specialize (G (k - 1) ltac:(lia)). replace (1 + (k - 1)) with k in G by lia.
    destruct (pure_up 1 k g (f 0, 0)) as [v b]. apply G.
  Qed.
  Lemma first_best_ext f g j : (forall q, 0 <= q < k -> f q = g q) -> first_best k f j -> first_best k g j.
  Proof.
    intros E (A & B & C). split; auto. split; intros q Hq; rewrite <- !E by lia; auto.
  Qed.
  Lemma new_ref_ok beta cl c : nonneg_refs cl ->
    let f := soft_lp Rarith exp ln lambda h m n k limit beta cl c in
    centred m n k limit lambda hf beta cl c (new_ref Rarith exp h m n f) /\ nonneg_refs (new_ref Rarith exp h m n f).
  Proof.
    intros P f. assert (E : forall j b, 0 <= j < k -> 0 <= b < m -> new_ref Rarith exp h m n f j b =
      (rsum n (fun i => exp (score m n k limit lambda hf beta cl c i j) * hf i b) / rsum n (fun i => exp (score m n k limit lambda hf beta cl c i j)))%R).
    { intros j b Hj Hb. unfold new_ref. cbn [Rarith a_div a_add a_mul a_of].
      change (fsum (IZR 0) Rplus) with rsum.
      rewrite (rsum_ext n _ (fun i => exp (score m n k limit lambda hf beta cl c i j) * hf i b)%R).
      2:{ intros i Hi. unfold f. now rewrite soft_score by auto. }
      rewrite (rsum_ext n (fun i => exp (f i j)) (fun i => exp (score m n k limit lambda hf beta cl c i j))); auto.
      intros i Hi. unfold f. now rewrite soft_score by auto. }
    split; [exact E|]. intros j b Hj Hb. rewrite E by auto.
    apply Rmult_le_pos.
    - apply rsum_nonneg. intros i Hi. apply Rmult_le_pos; [apply Rlt_le, exp_pos|]. now apply Ph.
    - apply Rlt_le, Rinv_0_lt_compat. apply Rlt_le_trans with (exp (score m n k limit lambda hf beta cl c 0 j)); [apply exp_pos|].
      apply (rsum_term n (fun i => exp (score m n k limit lambda hf beta cl c i j)) 0); [|lia]. intros i Hi. apply Rlt_le, exp_pos.
  Qed.
  Lemma run_rounds beta : forall fuel cl c, nonneg_refs cl ->
    let '(cl', c') := run Rarith exp ln lambda h m n k limit fuel beta cl c in
    rounds m n k limit lambda hf beta fuel cl c cl' c' /\ nonneg_refs cl'.
  Proof.
    induction fuel as [|fuel IH]; intros cl c P; [split; [constructor|auto]|]. cbn [run].
    set (f := soft_lp Rarith exp ln lambda h m n k limit beta cl c). set (c' := fun i => best Rarith k (f i) + 1).
    assert (As : assigned m n k limit lambda hf beta cl c c').
    { intros i Hi. unfold c'. replace (best Rarith k (f i) + 1 - 1) with (best Rarith k (f i)) by lia.
      apply (first_best_ext (f i)); [|apply best_first]. intros q Hq. unfold f. now apply soft_score. }
    destruct (forallb _ _) eqn:F.
    - split; auto. constructor; auto. intros i Hi. rewrite forallb_forall in F. specialize (F (Z.to_nat i)).
      rewrite Z2Nat.id in F by lia. symmetry. apply Z.eqb_eq. apply F. apply in_seq. lia.
    - destruct (new_ref_ok beta cl c P) as [Ce Pn]. fold f in Ce, Pn. specialize (IH (new_ref Rarith exp h m n f) c' Pn).
      destruct (run _ _ _ _ _ _ _ _ _ fuel _ _ _) as [cl' c'']. destruct IH as [IH Pc]. split; auto.
      eapply rounds_next; eauto. intros E. apply not_true_iff_false in F. apply F. apply forallb_forall. intros q Hq.
      apply in_seq in Hq. apply Z.eqb_eq. symmetry. apply E. lia.
  Qed.
  Lemma schedule_melts : forall bs first cl c, nonneg_refs cl ->
    let '(cl', c') := schedule Rarith exp ln lambda h m n k limit bs first cl c in
    melts m n k limit lambda hf (if first then 20 else 5) bs cl c cl' c' /\ nonneg_refs cl'.
  Proof.
    induction bs as [|b bs IH]; intros first cl c P; [split; [constructor|auto]|]. cbn [schedule].
    pose proof (run_rounds b (if first then 20 else 5)%nat cl c P) as R.
    destruct (run _ _ _ _ _ _ _ _ _ _ _ _ _) as [cl' c']. destruct R as [R P'].
    specialize (IH false cl' c' P'). destruct (schedule _ _ _ _ _ _ _ _ _ bs _ _ _) as [cl'' c'']. destruct IH as [IH P''].
    split; auto. econstructor; eauto.
  Qed.
End Real.
