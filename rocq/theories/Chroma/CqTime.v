(** The constant-Q product as filtering in time. *)
From Coq Require Import List ZArith Reals Lia Lra Bool.
From Verif.Base Require Import Imp Sums RealOps Loops.
From Verif.Fft Require Import Cplx FftSpec FftModel FftBfly FftProofs.
From Verif.Chroma Require Import CqSpec CqLoops CqProofs.
Open Scope Z_scope.

(** *** The absolute value *)
Lemma cabs_0 : cabs c0 = 0%R.
Proof. unfold cabs. cbn. replace (0 * 0 + 0 * 0)%R with 0%R by ring. apply sqrt_0. Qed.
Lemma cabs_nonneg z : (0 <= cabs z)%R.
Proof. apply sqrt_pos. Qed.
Lemma cabs_mul a b : cabs (cmul a b) = (cabs a * cabs b)%R.
Proof.
  unfold cabs. rewrite <- sqrt_mult_alt.
  - f_equal. cbn. ring.
  - pose proof (Rle_0_sqr (fst a)). pose proof (Rle_0_sqr (snd a)). unfold Rsqr in *. lra.
Qed.
Lemma cabs_conj a : cabs (cconj a) = cabs a.
Proof. unfold cabs. f_equal. cbn. ring. Qed.
Lemma cabs_re a : cabs (cre a) = Rabs a.
Proof. unfold cabs. cbn. rewrite <- sqrt_Rsqr_abs. f_equal. unfold Rsqr. ring. Qed.
Lemma cabs_sq a : (cabs a * cabs a = fst a * fst a + snd a * snd a)%R.
Proof.
  unfold cabs. apply sqrt_sqrt. pose proof (Rle_0_sqr (fst a)). pose proof (Rle_0_sqr (snd a)). unfold Rsqr in *. lra.
Qed.
Lemma cabs_triang a b : (cabs (cadd a b) <= cabs a + cabs b)%R.
Proof.
  pose proof (cabs_nonneg a) as Pa. pose proof (cabs_nonneg b) as Pb.
  apply Rsqr_incr_0_var; [|lra]. unfold Rsqr.
  rewrite cabs_sq. pose proof (cabs_sq a) as Sa. pose proof (cabs_sq b) as Sb.
  assert (CS : (fst a * fst b + snd a * snd b <= cabs a * cabs b)%R).
  { destruct (Rle_dec (fst a * fst b + snd a * snd b) 0) as [H|H].
    - pose proof (Rmult_le_pos _ _ Pa Pb). lra.
    - apply Rsqr_incr_0_var; [|now apply Rmult_le_pos]. unfold Rsqr.
      replace (cabs a * cabs b * (cabs a * cabs b))%R with ((cabs a * cabs a) * (cabs b * cabs b))%R by ring.
      rewrite Sa, Sb. pose proof (Rle_0_sqr (fst a * snd b - snd a * fst b)). unfold Rsqr in *. lra. }
  cbn. lra.
Qed.
Lemma cabs_sum n f : (cabs (csum n f) <= rsum n (fun i => cabs (f i)))%R.
Proof.
  destruct (Z.le_gt_cases n 0). { rewrite csum_0, rsum_0, cabs_0 by lia. lra. }
  apply (csum_ind (fun n => cabs (csum n f) <= rsum n (fun i => cabs (f i)))%R); [lia| |].
  - rewrite csum_0, rsum_0, cabs_0 by lia. lra.
  - intros k Hk IH. rewrite csum_S, rsum_S by lia. eapply Rle_trans; [apply cabs_triang|]. lra.
Qed.

(** *** The correlation theorem *)
Lemma spectrum_cdft n x k : 1 <= n -> spectrum n x k = cdft false n x k.
Proof. intros. now rewrite cdft_forward by lia. Qed.
Lemma spectrum_ext n x y k : (forall t, 0 <= t < n -> x t = y t) -> spectrum n x k = spectrum n y k.
Proof. intros H. unfold spectrum, dft_re, dft_im. f_equal; apply rsum_ext; intros t Ht; now rewrite H. Qed.
Lemma spectrum_period n x k : 1 <= n -> spectrum n x (n + k) = spectrum n x k.
Proof.
  intros Hn. rewrite !spectrum_cdft by lia. unfold cdft. apply csum_ext. intros j Hj. f_equal. cbn [sg].
  replace (-1 * ((n + k) * j)) with (-1 * (k * j) + n * - j) by ring. now rewrite root_period by lia.
Qed.

Lemma correlation n a x : 1 <= n ->
  cmul (cre (1 / IZR n)) (csum n (fun b => cmul (cconj (spectrum n a b)) (spectrum n x (n - b)))) =
  csum n (fun t => cmul (cconj (a t)) (x ((- t) mod n))).
Proof.
  intros Hn.
  assert (Nn : IZR n <> 0%R) by (apply not_0_IZR; lia).
  rewrite (csum_ext n _ (fun b => csum n (fun t => csum n (fun s => cmul (cmul (cconj (a t)) (x s)) (root n (b * (t + s))))))).
  2:{ intros b Hb. rewrite !spectrum_cdft by lia. unfold cdft. rewrite <- csum_conj, <- csum_scal_r.
      apply csum_ext. intros t Ht. rewrite <- csum_scal. apply csum_ext. intros s Hs. cbn [sg].
      rewrite cconj_mul, <- root_opp.
      replace (root n (-1 * ((n - b) * s))) with (root n (b * s)).
      2:{ replace (-1 * ((n - b) * s)) with (b * s + n * - s) by ring. now rewrite root_period by lia. }
      replace (- (-1 * (b * t))) with (b * t) by ring. replace (b * (t + s)) with (b * t + b * s) by ring.
      rewrite root_add. ring. }
  rewrite csum_swap. rewrite <- csum_scal. apply csum_ext. intros t Ht.
  rewrite csum_swap.
  rewrite (csum_single n _ ((- t) mod n)).
  - rewrite csum_scal, root_sum by lia.
    assert (E : ((t + (- t) mod n) mod n =? 0) = true).
    { apply Z.eqb_eq. rewrite Zplus_mod_idemp_r. replace (t + - t) with 0 by lia. apply Z.mod_0_l. lia. }
    rewrite E. transitivity (cmul (cmul (cre (1 / IZR n)) (cre (IZR n))) (cmul (cconj (a t)) (x ((- t) mod n)))); [ring|].
    replace (cmul (cre (1 / IZR n)) (cre (IZR n))) with c1; [ring|]. apply cplx_eq; cbn; field; auto.
  - apply Z.mod_pos_bound. lia.
  - intros s Hs Hne. rewrite csum_scal, root_sum by lia.
    destruct (Z.eqb_spec ((t + s) mod n) 0) as [E|E]; [|ring]. exfalso. apply Hne.
    apply Z.mod_divide in E; [|lia]. destruct E as (q & Eq).
    replace (- t) with (s + (- q) * n) by lia. rewrite Z.mod_add by lia. now rewrite Z.mod_small by lia.
Qed.

Theorem cq_time fs f bpo th n k x : 1 <= n ->
  exists err,
    cq_bin fs f bpo th n (spectrum n x) k =
      cadd (csub (csum n (fun t => cmul (cconj (rotated n (atom fs f bpo n k) t)) (x ((- t) mod n))))
                 (cmul (cre (1 / IZR n)) (cmul (cconj (kernel_bin fs f bpo n k 0)) (spectrum n x 0)))) err /\
    (cabs err <= Rabs th / IZR n * rsum (n - 1) (fun b => cabs (spectrum n x (b + 1))))%R.
Proof.
  intros Hn. set (a := rotated n (atom fs f bpo n k)).
  assert (Pn : (0 < IZR n)%R) by (apply IZR_lt; lia).
  set (drop := fun b => if Rle_dec (cabs (kernel_bin fs f bpo n k b)) (Rabs th)
     then cmul (cre (1 / IZR n)) (cconj (kernel_bin fs f bpo n k b)) else c0).
  exists (copp (csum (n - 1) (fun b => cmul (drop (b + 1)) (spectrum n x (n - (b + 1)))))). split.
  - rewrite <- correlation by lia. rewrite (csum_first n) by lia.
    replace (n - 0) with (n + 0) by lia. rewrite spectrum_period by lia.
    change (kernel_bin fs f bpo n k 0) with (spectrum n a 0).
    assert (E : csum (n - 1) (fun i => cmul (cconj (spectrum n a (i + 1))) (spectrum n x (n - (i + 1)))) =
      cmul (cre (IZR n)) (cadd (cq_bin fs f bpo th n (spectrum n x) k) (csum (n - 1) (fun b => cmul (drop (b + 1)) (spectrum n x (n - (b + 1))))))).
    { unfold cq_bin. rewrite <- csum_plus, <- csum_scal. apply csum_ext. intros b Hb.
      unfold kept_bin, drop. change (spectrum n a (b + 1)) with (kernel_bin fs f bpo n k (b + 1)).
      destruct (Z.eqb_spec (b + 1) 0); [lia|]. destruct Rle_dec; apply cplx_eq; cbn; field; lra. }
    rewrite E.
    set (D := csum (n - 1) (fun b => cmul (drop (b + 1)) (spectrum n x (n - (b + 1))))).
    set (Q := cq_bin fs f bpo th n (spectrum n x) k). apply cplx_eq; cbn; field; lra.
  - assert (E : forall z, cabs (copp z) = cabs z) by (intros z; unfold cabs; f_equal; cbn; ring). rewrite E.
    eapply Rle_trans; [apply cabs_sum|].
    rewrite <- (rsum_rev (n - 1) (fun b => cabs (spectrum n x (b + 1)))), <- rsum_scal. apply rsum_le. intros b Hb.
    rewrite cabs_mul. replace (n - 1 - 1 - b + 1) with (n - (b + 1)) by lia.
    apply Rmult_le_compat_r; [apply cabs_nonneg|]. unfold drop. destruct Rle_dec as [H|H].
    + rewrite cabs_mul, cabs_re, cabs_conj. rewrite Rabs_pos_eq; [|apply Rlt_le, Rdiv_lt_0_compat; lra].
      replace (Rabs th / IZR n)%R with (1 / IZR n * Rabs th)%R by (field; lra).
      apply Rmult_le_compat_l; auto. apply Rlt_le, Rdiv_lt_0_compat; lra.
    + rewrite cabs_0. unfold Rdiv. apply Rmult_le_pos; [apply Rabs_pos|]. apply Rlt_le, Rinv_0_lt_compat; auto.
Qed.

(** Where the frame is given in its own order, as [y], and rotated before the spectrum is taken. *)
Lemma csum_rot n s f : 0 < n -> csum n (fun i => f ((i + s) mod n)) = csum n f.
Proof. intros H. unfold csum. f_equal; [apply (rsum_rot n s (fun i => fst (f i)))|apply (rsum_rot n s (fun i => snd (f i)))]; auto. Qed.

Lemma rotated_correlation n a y : half_ok n ->
  csum n (fun t => cmul (cconj (rotated n a t)) (rotated n y ((- t) mod n))) =
  csum n (fun u => cmul (cconj (a u)) (y ((- u) mod n))).
Proof.
  intros Hn. assert (Pn : 0 < n) by (destruct Hn; lia).
  rewrite <- (csum_rot n (n / 2) (fun u => cmul (cconj (a u)) (y ((- u) mod n)))) by auto.
  apply csum_ext. intros t Ht. unfold rotated. do 2 f_equal.
  rewrite Zplus_mod_idemp_l.
  set (h := n / 2) in *.
  assert (E : (- ((t + h) mod n)) mod n = (- (t + h)) mod n).
  { rewrite <- (Z.sub_0_l ((t + h) mod n)), <- (Z.sub_0_l (t + h)). apply Zminus_mod_idemp_r. }
  rewrite E. destruct Hn as [->|[N1 N2]]; [now rewrite !Z.mod_1_r|].
  replace (- t + h) with (- (t + h) + 1 * n) by lia. apply Z.mod_add. lia.
Qed.
