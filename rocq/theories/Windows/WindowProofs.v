From Coq Require Import List ZArith Reals Lia Lra Psatz Bool.
From Verif.Base Require Import Imp Sums RealOps.
From Verif.Maths Require Import RealModel RealProofs.
From Verif.Windows Require Import WindowModel WindowSpec.
Import ListNotations.
Open Scope Z_scope.

Lemma Rdiv_le_0_compat (r1 r2 : R) : (0 <= r1 -> 0 < r2 -> 0 <= r1 / r2)%R.
Proof. intros. apply Rmult_le_pos; [auto|]. left. now apply Rinv_0_lt_compat. Qed.

Lemma scale_all n v : 0 <= n ->
  for_up 0 n (fun i m => scale_at m i (v i)) (repeat 1%R (Z.to_nat n)) = OK (ztab n v).
Proof.
  intros Hn.
  destruct (for_up_inv (fun i m => m = ztab i v ++ repeat 1%R (Z.to_nat (n - i))) 0 n
    (fun i m => scale_at m i (v i)) (repeat 1%R (Z.to_nat n))) as (s & E & ->); [lia| | |].
  - rewrite ztab_0 by lia. cbn [app]. f_equal. f_equal. lia.
  - intros i s Hi ->. unfold scale_at.
    assert (L : zlen (ztab i v ++ repeat 1%R (Z.to_nat (n - i))) = n) by (zl; lia).
    rewrite (aget_OK 0%R) by lia. cbn [bind]. rewrite aset_OK by lia. eexists; split; [reflexivity|].
    apply (zn_ext 0%R); [zl; lia|]. intros j Hj. rewrite zlen_upd, L in Hj. rewrite zn_upd by lia.
    rewrite !zn_app. zl. rewrite !Z.max_r by lia.
    destruct (Z.eqb_spec j i) as [->|].
    + destruct (Z.ltb_spec i (i + 1)); [|lia]. rewrite Z.ltb_irrefl, zn_repeat_in by lia. rewrite zn_ztab by lia. lra.
    + destruct (Z.ltb_spec j i), (Z.ltb_spec j (i + 1)); try lia.
      * rewrite !zn_ztab by lia. reflexivity.
      * rewrite !zn_repeat_in by lia. reflexivity.
  - rewrite E. f_equal. replace (n - n) with 0 by lia. cbn [Z.to_nat repeat]. apply app_nil_r.
Qed.

Definition bart (n i : Z) : R :=
  (if i <? n / 2 then IZR i / IZR (n / 2)
  else if i <? n - n / 2 then 1
  else 1 - IZR (i - (n - n / 2)) / IZR (n / 2))%R.

Lemma bartlett_loop n : 3 < n ->
  for_up 0 (n / 2) (fun i m =>
    m <- scale_at m i (IZR i / IZR (n / 2))%R ;;
    scale_at m (i + n - n / 2) (1 - (IZR i / IZR (n / 2)))%R) (repeat 1%R (Z.to_nat n)) = OK (ztab n (bart n)).
Proof.
  intros Hn. pose proof (Z_div_mod_eq_full n 2) as D. pose proof (Z.mod_pos_bound n 2 ltac:(lia)) as D'.
  set (k := n / 2) in *.
  match goal with |- for_up 0 k ?Fn ?S = _ =>
    destruct (for_up_inv (fun i m => zlen m = n /\ forall j, 0 <= j < n -> Wn m j =
      (if j <? i then IZR j / IZR k else if j <? n - k then 1 else if j <? i + (n - k) then 1 - IZR (j - (n - k)) / IZR k else 1)%R)
      0 k Fn S) as (s & E & I1 & I2); [lia| | |] end.
  - split; [zl; lia|]. intros j Hj. rewrite zn_repeat_in by lia. zcase; reflexivity.
  - intros i s Hi (I1 & I2). unfold scale_at. rewrite (aget_OK 0%R) by lia. cbn [bind].
    rewrite aset_OK by lia. cbn [bind]. rewrite (aget_OK 0%R) by (zl; lia). cbn [bind].
    rewrite aset_OK by (zl; lia). eexists; split; [reflexivity|]. split; [zl; lia|].
    intros j Hj. rewrite !zn_upd by (zl; lia). rewrite !I2 by lia.
    zcase; try reflexivity; try lra.
    + subst j. lra.
    + subst j. replace (i + n - k - (n - k)) with i by lia. lra.
  - rewrite E. f_equal. apply (zn_ext 0%R); [zl; lia|]. intros j Hj. rewrite I2, zn_ztab by lia.
    unfold bart. fold k. zcase; reflexivity.
Qed.

(** Closed forms of all six shapes (n >= 4, or n >= 2 for the cosine ones). *)
Definition ck (k : R) (n i : Z) : R := cos (k * PI * IZR i / IZR n)%R.
Definition shape (t : wtype) (n i : Z) : R :=
  match t with
  | Rectangular => 1/2
  | Bartlett => bart n i
  | Hamming => 0.54 - 0.46 * ck 2 n i
  | Hanning => 0.50 - 0.50 * ck 2 n i
  | Blackman => 0.42 - 0.50 * ck 2 n i + 0.08 * ck 4 n i
  | BlackmanHarris => 0.35875 - 0.48829 * ck 2 n i + 0.14128 * ck 4 n i - 0.01168 * ck 6 n i
  end%R.

Lemma encache_shape t n : 4 <= n -> encache t n = OK (ztab n (shape t n)).
Proof.
  intros Hn. unfold encache. destruct (Z.ltb_spec n 0); [lia|].
  destruct (Z.eqb_spec n 2); [lia|]. destruct (Z.eqb_spec n 3); [lia|].
  destruct (Z.ltb_spec 3 n); [|lia]. destruct (Z.ltb_spec 1 n); [|lia].
  destruct t; try apply scale_all; try lia. apply bartlett_loop. lia.
Qed.
Lemma encache_cos t n : 2 <= n -> t <> Bartlett -> encache t n = OK (ztab n (shape t n)).
Proof.
  intros Hn Ht. unfold encache. destruct (Z.ltb_spec n 0); [lia|].
  destruct (Z.ltb_spec 1 n); [|lia].
  destruct t; try congruence; apply scale_all; lia.
Qed.
Lemma encache_1 t : encache t 1 = OK (ztab 1 (fun _ => match t with Rectangular => 1/2 | _ => 1 end)%R).
Proof.
  destruct t; try reflexivity. exact (scale_all 1 (fun _ => 1/2)%R ltac:(lia)).
Qed.

Lemma ck_mirror k n i : 0 < n -> ck (2 * INR k) n (n - i) = ck (2 * INR k) n i.
Proof.
  intros Hn. unfold ck. assert (IZR n <> 0%R) by (apply not_0_IZR; lia).
  rewrite minus_IZR.
  replace (2 * INR k * PI * (IZR n - IZR i) / IZR n)%R with (- (2 * INR k * PI * IZR i / IZR n) + 2 * INR k * PI)%R by (field; auto).
  rewrite cos_period, cos_neg. reflexivity.
Qed.
Lemma ck2 n i : 0 < n -> ck 2 n (n - i) = ck 2 n i.
Proof. intros. replace 2%R with (2 * INR 1)%R by (simpl; lra). now apply ck_mirror. Qed.
Lemma ck4 n i : 0 < n -> ck 4 n (n - i) = ck 4 n i.
Proof. intros. replace 4%R with (2 * INR 2)%R by (simpl; lra). now apply ck_mirror. Qed.
Lemma ck6 n i : 0 < n -> ck 6 n (n - i) = ck 6 n i.
Proof. intros. replace 6%R with (2 * INR 3)%R by (simpl; lra). now apply ck_mirror. Qed.

Lemma bart_mirror n i : 4 <= n -> 0 < i < n -> bart n i = bart n (n - i).
Proof.
  intros Hn Hi. unfold bart. pose proof (Z_div_mod_eq_full n 2) as D. pose proof (Z.mod_pos_bound n 2 ltac:(lia)) as D'.
  set (k := n / 2) in *. assert (Hk : IZR k <> 0%R) by (apply not_0_IZR; lia).
  zcase; try reflexivity.
  all: rewrite ?minus_IZR; first [now (field; auto) | replace i with k by lia; now (field; auto) |
    replace i with (n - k) by lia; rewrite ?minus_IZR; now (field; auto) | idtac].
  all: replace n with (2 * k) by lia; replace i with k by lia; rewrite ?mult_IZR; field; auto.
Qed.

Lemma bart_unit n i : 4 <= n -> 0 <= i < n -> (0 <= bart n i <= 1)%R.
Proof.
  intros Hn Hi. unfold bart. pose proof (Z_div_mod_eq_full n 2) as D. pose proof (Z.mod_pos_bound n 2 ltac:(lia)) as D'.
  set (k := n / 2) in *. assert (Hk : (0 < IZR k)%R) by (apply IZR_lt; lia).
  assert (U : forall j, 0 <= j <= k -> (0 <= IZR j / IZR k <= 1)%R).
  { intros j Hj. split; [apply Rdiv_le_0_compat; [apply IZR_le; lia|lra]|].
    apply Rmult_le_reg_r with (IZR k); [lra|]. unfold Rdiv. rewrite Rmult_assoc, Rinv_l, Rmult_1_l, Rmult_1_r by lra.
    apply IZR_le. lia. }
  zcase; [apply U; lia|lra|]. pose proof (U (i - (n - k)) ltac:(lia)). lra.
Qed.

Lemma ck_2x n i : ck 4 n i = (2 * (ck 2 n i) ^ 2 - 1)%R.
Proof.
  unfold ck. replace (4 * PI * IZR i / IZR n)%R with (2 * (2 * PI * IZR i / IZR n))%R by (unfold Rdiv; ring).
  rewrite cos_2a_cos. ring.
Qed.
Lemma ck_3x n i : ck 6 n i = (4 * (ck 2 n i) ^ 3 - 3 * ck 2 n i)%R.
Proof.
  unfold ck. set (x := (2 * PI * IZR i / IZR n)%R).
  replace (6 * PI * IZR i / IZR n)%R with (2 * x + x)%R by (unfold x, Rdiv; ring).
  rewrite cos_plus, cos_2a_cos, sin_2a. pose proof (sin2_cos2 x) as S. unfold Rsqr in S.
  replace (2 * sin x * cos x * sin x)%R with (2 * cos x * (sin x * sin x))%R by ring.
  replace (sin x * sin x)%R with (1 - cos x * cos x)%R by lra. ring.
Qed.
Lemma ck_bound k n i : (-1 <= ck k n i <= 1)%R.
Proof. unfold ck. apply COS_bound. Qed.

Lemma shape_unit t n i : 4 <= n \/ (t <> Bartlett) -> 0 <= i < n -> (0 <= shape t n i <= 1)%R.
Proof.
  intros Hn Hi. destruct t; cbn [shape]; try rewrite ck_2x; try rewrite ck_3x; pose proof (ck_bound 2 n i);
    try (set (c := ck 2 n i) in *; clearbody c).
  - lra.
  - apply bart_unit; [|auto]. destruct Hn; [auto|congruence].
  - lra.
  - lra.
  - nra.
  - split.
    + replace (0.35875 - 0.48829 * c + 0.14128 * (2 * c ^ 2 - 1) - 0.01168 * (4 * c ^ 3 - 3 * c))%R
        with (0.00006 + (1 - c) * (0.21741 - 0.23584 * c + 0.04672 * c ^ 2))%R by lra.
      assert (0 <= 0.21741 - 0.23584 * c + 0.04672 * c ^ 2)%R by nra.
      pose proof (Rmult_le_pos (1 - c) _ ltac:(lra) H0). lra.
    + replace (0.35875 - 0.48829 * c + 0.14128 * (2 * c ^ 2 - 1) - 0.01168 * (4 * c ^ 3 - 3 * c))%R
        with (1 - (1 + c) * (0.78253 - 0.32928 * c + 0.04672 * c ^ 2))%R by lra.
      assert (0 <= 0.78253 - 0.32928 * c + 0.04672 * c ^ 2)%R by nra.
      pose proof (Rmult_le_pos (1 + c) _ ltac:(lra) H0). lra.
Qed.
Lemma shape_mirror t n i : 4 <= n \/ (t <> Bartlett) -> 0 < i < n -> shape t n i = shape t n (n - i).
Proof.
  intros Hn Hi. destruct t; cbn [shape]; rewrite ?ck2, ?ck4, ?ck6 by lia; auto.
  apply bart_mirror; [|auto]. destruct Hn; [auto|congruence].
Qed.

Theorem window_ok t n : 1 <= n ->
  exists w, encache t n = OK w /\ zlen w = n /\ periodic w /\ in_unit w.
Proof.
  intros Hn.
  assert (G : forall w, zlen w = n -> w = ztab n (shape t n) -> 4 <= n \/ t <> Bartlett -> periodic w /\ in_unit w).
  { intros w L -> Ht. rewrite zlen_ztab in L. split; intros i Hi; rewrite zlen_ztab, Z.max_r in * by lia.
    - rewrite !zn_ztab by lia. apply shape_mirror; auto.
    - rewrite zn_ztab by lia. apply shape_unit; auto. }
  destruct (Z.eq_dec n 1) as [->|].
  - rewrite encache_1. eexists; split; [reflexivity|]. splits.
    + reflexivity.
    + intros i Hi. zl. lia.
    + intros i Hi. rewrite zlen_ztab in Hi. rewrite zn_ztab by lia. destruct t; lra.
  - destruct (Z.le_gt_cases 4 n).
    + rewrite encache_shape by lia. eexists; split; [reflexivity|]. split; [zl; lia|]. apply G; auto. zl; lia.
    + destruct t;
        match goal with
        | |- context [encache Bartlett _] => idtac
        | |- context [encache ?t0 n] =>
            rewrite encache_cos by (try lia; congruence); eexists; split; [reflexivity|]; split; [zl; lia|]; apply G; auto; [zl; lia|right; congruence]
        end.
      assert (n = 2 \/ n = 3) as [->| ->] by lia.
      * exists [0; 0]%R. splits; [reflexivity|reflexivity| |]; intros i Hi.
        -- assert (i = 1) as -> by (zl; lia). reflexivity.
        -- assert (i = 0 \/ i = 1) as [->| ->] by (zl; lia); [change (0 <= 0 <= 1)%R|change (0 <= 0 <= 1)%R]; lra.
      * exists [0; 2/3; 2/3]%R. splits; [reflexivity|reflexivity| |]; intros i Hi.
        -- assert (i = 1 \/ i = 2) as [->| ->] by (zl; lia); reflexivity.
        -- assert (i = 0 \/ i = 1 \/ i = 2) as [->|[->| ->]] by (zl; lia); [change (0 <= 0 <= 1)%R|change (0 <= 2/3 <= 1)%R|change (0 <= 2/3 <= 1)%R]; lra.
Qed.

(** Hann windows half a window apart sum to 1. *)
Theorem hann_overlap n w i : 2 <= n -> Z.even n = true -> encache Hanning n = OK w -> 0 <= i < n / 2 ->
  (Wn w i + Wn w (i + n / 2) = 1)%R.
Proof.
  intros Hn He E Hi. rewrite encache_cos in E by (try lia; congruence). injection E as <-.
  apply Z.even_spec in He. destruct He as [k Hk]. pose proof (Z.div_mul k 2 ltac:(lia)).
  replace (n / 2) with k in * by (rewrite Hk, Z.mul_comm; symmetry; apply Z.div_mul; lia).
  rewrite !zn_ztab by lia. cbn [shape]. unfold ck.
  assert (IZR n <> 0%R) by (apply not_0_IZR; lia).
  replace (2 * PI * IZR (i + k) / IZR n)%R with (2 * PI * IZR i / IZR n + PI)%R.
  2: { rewrite plus_IZR. replace (IZR n) with (2 * IZR k)%R in * by (rewrite Hk, mult_IZR; lra). field. lra. }
  rewrite neg_cos. lra.
Qed.

Theorem cut_ok w size src dst : 0 <= size -> size <= zlen w -> size <= zlen src -> size <= zlen dst ->
  exists d, cut w size src dst = OK d /\ zlen d = zlen dst /\ product_of size src w d /\
    forall i, size <= i -> Wn d i = Wn dst i.
Proof.
  intros H0 Hw Hs Hd.
  destruct (for_up_fill 0%R 0 size (fun i => (Wn src i * Wn w i)%R) dst) as (d & E & L & Hv); [lia|lia|].
  exists d. splits; auto.
  - unfold cut. rewrite <- E. apply for_up_ext. intros i s Hi. rewrite !(aget_OK 0%R) by lia. reflexivity.
  - intros i Hi. rewrite Hv by lia. zcase; reflexivity.
  - intros i Hi. rewrite Hv by lia. zcase; reflexivity.
Qed.
Theorem cut_in_place_ok w size src : 0 <= size -> size <= zlen w -> size <= zlen src ->
  exists d, cut_in_place w size src = OK d /\ zlen d = zlen src /\ product_of size src w d /\
    forall i, size <= i -> Wn d i = Wn src i.
Proof.
  intros H0 Hw Hs. unfold cut_in_place.
  match goal with |- context [for_up 0 size ?Fn src] =>
    destruct (for_up_inv (fun k d => zlen d = zlen src /\ forall i, 0 <= i -> Wn d i = if i <? k then (Wn src i * Wn w i)%R else Wn src i)
      0 size Fn src) as (d & E & L & Hv); [lia| | |] end.
  - split; auto. intros i Hi. zcase. reflexivity.
  - intros i d Hi (L & Hv). rewrite (aget_OK 0%R) by lia. cbn [bind]. rewrite (aget_OK 0%R) by lia. cbn [bind].
    rewrite aset_OK by lia. eexists; split; [reflexivity|]. split; [zl; lia|]. intros j Hj.
    rewrite zn_upd by lia. rewrite !Hv by lia. zcase; subst; reflexivity.
  - exists d. splits; auto.
    + intros i Hi. rewrite Hv by lia. zcase. reflexivity.
    + intros i Hi. rewrite Hv by lia. zcase. reflexivity.
Qed.
Lemma getWindowData_ok w : getWindowData w (zlen w) = OK w.
Proof.
  unfold getWindowData. pose proof (zlen_nonneg w).
  destruct (for_up_inv (fun i d => d = ztab i (Wn w)) 0 (zlen w) (fun i d => v <- aget w i ;; OK (d ++ [v])) [])
    as (d & E & ->); [lia|now rewrite ztab_0 by lia| |].
  - intros i s Hi ->. rewrite (aget_OK 0%R) by lia. cbn [bind]. eexists; split; [reflexivity|]. now rewrite ztab_snoc by lia.
  - rewrite E. now rewrite ztab_zn.
Qed.

(** *** Kaiser *)
Lemma bessel0_ok x : bessel0 x = OK (I0_20 x).
Proof.
  unfold bessel0, I0_20, rsum. apply for_up_fsum; [lia|]. intros i acc Hi. unfold besselTerm.
  destruct (Z.eqb_spec i 0) as [->|].
  - cbn. do 2 f_equal. lra.
  - rewrite <- (Z2Nat.id i) at 1 by lia. rewrite factorial_spec. cbn [bind]. do 2 f_equal.
    replace (Z.to_nat (i * 2)) with (Z.to_nat i + Z.to_nat i)%nat by lia. rewrite pow_add.
    assert (INR (fact (Z.to_nat i)) <> 0%R) by apply INR_fact_neq_0. field. auto.
Qed.
Lemma I0_pos x : (1 <= I0_20 x)%R.
Proof.
  unfold I0_20. eapply Rle_trans; [|apply (rsum_term 20 _ 0)]; [cbn; lra| |lia].
  intros i Hi. apply pow2_ge_0.
Qed.
Lemma I0_mono x y : (0 <= x <= y)%R -> (I0_20 x <= I0_20 y)%R.
Proof.
  intros H. unfold I0_20. apply rsum_le. intros i Hi. apply pow_incr. split.
  - apply Rdiv_le_0_compat; [apply pow_le; lra|apply INR_fact_lt_0].
  - apply Rmult_le_compat_r; [left; apply Rinv_0_lt_compat, INR_fact_lt_0|]. apply pow_incr. lra.
Qed.

Definition kval (n : Z) (beta : R) (i : Z) : R := kaiser_at beta (IZR (n - 1) / 2) (IZR i - IZR (n - 1) / 2).

Lemma kval_code n beta i : 2 <= n ->
  (I0_20 (beta * sqrt (1 - (IZR (2 * i) / IZR (n - 1) - 1) * (IZR (2 * i) / IZR (n - 1) - 1))) / I0_20 beta)%R = kval n beta i.
Proof.
  intros Hn. unfold kval, kaiser_at. do 3 f_equal. f_equal. f_equal.
  assert (IZR (n - 1) <> 0%R) by (apply not_0_IZR; lia). rewrite mult_IZR. simpl. field. auto.
Qed.
Lemma kval_mirror n beta i : kval n beta (n - 1 - i) = kval n beta i.
Proof.
  unfold kval, kaiser_at. do 3 f_equal. f_equal. f_equal. rewrite (minus_IZR (n - 1)).
  replace (IZR (n - 1) - IZR i - IZR (n - 1) / 2)%R with (- (IZR i - IZR (n - 1) / 2))%R by lra.
  unfold Rdiv. simpl. ring.
Qed.

Lemma kaiser_ok n beta : 2 <= n -> kaiser_init n beta = OK (ztab n (kval n beta)).
Proof.
  intros Hn. unfold kaiser_init. rewrite bessel0_ok. cbn [bind].
  rewrite Z.rem_mod_nonneg, !Z.quot_div_nonneg by lia.
  pose proof (Z_div_mod_eq_full n 2) as D. pose proof (Z.mod_pos_bound n 2 ltac:(lia)) as D'.
  set (k := n / 2) in *.
  assert (exists e, (if n mod 2 =? 0 then k else (n + 1) / 2) = n - e /\ (if n mod 2 =? 0 then k else (n - 1) / 2) = e /\ e = k) as (e & -> & -> & ->).
  { destruct (Z.eqb_spec (n mod 2) 0).
    - exists k. lia.
    - exists k. assert (n = 2 * k + 1) by lia. split; [|split; auto].
      + replace (n + 1) with ((k + 1) * 2) by lia. rewrite Z.div_mul by lia. lia.
      + replace (n - 1) with (k * 2) by lia. rewrite Z.div_mul by lia. lia. }
  match goal with |- context [for_up 0 (n - k) ?Fn (@nil R)] =>
    destruct (for_up_inv (fun i w => w = ztab i (kval n beta)) 0 (n - k) Fn (@nil R)) as (w & E & ->);
    [lia|now rewrite ztab_0 by lia| |rewrite E; cbn [bind]; clear E] end.
  { intros i s Hi ->. rewrite bessel0_ok. cbn [bind]. eexists; split; [reflexivity|].
    rewrite ztab_snoc by lia. rewrite kval_code by lia. reflexivity. }
  match goal with |- context [for_up 0 k ?Fn ?S] =>
    destruct (for_up_inv (fun i w => w = ztab (n - k + i) (kval n beta)) 0 k Fn S) as (w & E & ->);
    [lia|now rewrite Z.add_0_r| |rewrite E; do 2 f_equal; lia] end.
  intros i s Hi ->. rewrite (aget_OK 0%R) by (zl; lia). cbn [bind]. eexists; split; [reflexivity|].
  rewrite zn_ztab by lia. rewrite Z.add_assoc, ztab_snoc by lia. do 2 f_equal.
  rewrite <- kval_mirror. f_equal. lia.
Qed.

Theorem kaiser_window n beta : 2 <= n -> (0 <= beta)%R ->
  exists w, kaiser_init n beta = OK w /\ zlen w = n /\ symmetric w /\
    (forall i, 0 <= i < n -> Wn w i = kaiser_at beta (IZR (n - 1) / 2) (IZR i - IZR (n - 1) / 2)) /\
    (forall i, 0 <= i < n -> (0 < Wn w i <= 1)%R) /\
    (Z.odd n = true -> Wn w (n / 2) = 1%R).
Proof.
  intros Hn Hb. rewrite kaiser_ok by auto. eexists; split; [reflexivity|]. splits.
  - zl. lia.
  - intros i Hi. rewrite zlen_ztab, Z.max_r in * by lia. rewrite !zn_ztab by lia. symmetry. apply kval_mirror.
  - intros i Hi. rewrite zn_ztab by lia. reflexivity.
  - intros i Hi. rewrite zn_ztab by lia. unfold kval, kaiser_at.
    pose proof (I0_pos beta) as P0. set (y := (beta * sqrt _)%R).
    pose proof (I0_pos y) as P1. split; [apply Rdiv_lt_0_compat; lra|].
    apply Rmult_le_reg_r with (I0_20 beta); [lra|]. unfold Rdiv. rewrite Rmult_assoc, Rinv_l, Rmult_1_l, Rmult_1_r by lra.
    apply I0_mono. unfold y. set (u := ((IZR i - IZR (n - 1) / 2) / (IZR (n - 1) / 2))%R).
    pose proof (pow2_ge_0 u).
    assert (sqrt (1 - u ^ 2) <= 1)%R by (rewrite <- sqrt_1 at 2; apply sqrt_le_1_alt; lra).
    pose proof (sqrt_pos (1 - u ^ 2)). nra.
  - intros Ho. pose proof (Z_div_mod_eq_full n 2). rewrite Zmod_odd, Ho in H.
    rewrite zn_ztab by lia. unfold kval, kaiser_at.
    replace (IZR (n / 2) - IZR (n - 1) / 2)%R with 0%R.
    2: { replace (n - 1) with (2 * (n / 2)) by lia. rewrite mult_IZR. lra. }
    replace (1 - (0 / (IZR (n - 1) / 2)) ^ 2)%R with 1%R by (unfold Rdiv; simpl; ring).
    rewrite sqrt_1, Rmult_1_r. pose proof (I0_pos beta). field. lra.
Qed.

(** *** Sinc *)
Lemma sinc_even x : sinc (- x) = sinc x.
Proof.
  unfold sinc. destruct (Req_EM_T x 0) as [->|].
  - destruct (Req_EM_T (- 0) 0); [reflexivity|lra].
  - destruct (Req_EM_T (- x) 0); [lra|]. rewrite sin_neg. field. auto.
Qed.

Lemma sinc_at0 x : x = 0%R -> sinc x = 1%R.
Proof. intros ->. unfold sinc. destruct (Req_EM_T 0 0); [reflexivity|lra]. Qed.

Theorem sinc_window n p : 1 <= n -> p <> 0%R ->
  sinc_init n p = OK (ztab n (fun i => sinc (2 * PI * IZR (i - n / 2) / p)%R)).
Proof.
  intros Hn Hp. unfold sinc_init. destruct (Z.ltb_spec n 1); [lia|]. destruct (Z.ltb_spec n 2).
  - assert (n = 1) as -> by lia. change (1 / 2) with 0. rewrite ztab_cons by lia. rewrite ztab_0 by lia.
    do 2 f_equal. symmetry. apply sinc_at0. unfold Rdiv. change (0 - 0) with 0. ring.
  - rewrite Z.rem_mod_nonneg, !Z.quot_div_nonneg by lia.
    pose proof (Z_div_mod_eq_full n 2) as D. pose proof (Z.mod_pos_bound n 2 ltac:(lia)) as D'.
    set (k := n / 2) in *.
    assert ((if n mod 2 =? 0 then k else (n - 1) / 2) = k /\ (if n mod 2 =? 0 then k else (n + 1) / 2) = n - k) as [-> ->].
    { destruct (Z.eqb_spec (n mod 2) 0); [lia|]. assert (n = 2 * k + 1) by lia. split.
      + replace (n - 1) with (k * 2) by lia. rewrite Z.div_mul by lia. lia.
      + replace (n + 1) with ((k + 1) * 2) by lia. rewrite Z.div_mul by lia. lia. }
    set (f := fun i => sinc (2 * PI * IZR (i - k) / p)%R). pose proof PI_RGT_0.
    assert (X : forall d, d <> 0 -> (sin (IZR d * (2 * PI / p)) / (IZR d * (2 * PI / p)))%R = sinc (2 * PI * IZR d / p)).
    { intros d Hd. replace (IZR d * (2 * PI / p))%R with (2 * PI * IZR d / p)%R by (field; auto). unfold sinc.
      destruct (Req_EM_T _ 0) as [Ez|]; [|reflexivity]. exfalso.
      assert (IZR d <> 0%R) by (apply not_0_IZR; auto).
      apply (Rmult_eq_compat_r p) in Ez. unfold Rdiv in Ez. rewrite Rmult_assoc, Rinv_l, Rmult_1_r, Rmult_0_l in Ez by auto.
      apply Rmult_integral in Ez. destruct Ez; lra. }
    match goal with |- context [for_up 0 k ?Fn (@nil R)] =>
      destruct (for_up_inv (fun i w => w = ztab i f) 0 k Fn (@nil R)) as (w & E & ->);
      [lia|now rewrite ztab_0 by lia| |rewrite E; cbn [bind]; clear E] end.
    { intros i s Hi ->. eexists; split; [reflexivity|]. rewrite ztab_snoc by lia. do 2 f_equal.
      rewrite X by lia. unfold f. rewrite <- sinc_even. f_equal. rewrite <- (Z.opp_involutive (i - k)), opp_IZR.
      replace (- (i - k)) with (k - i) by lia. unfold Rdiv. ring. }
    match goal with |- context [for_up 1 (n - k) ?Fn ?S] =>
      destruct (for_up_inv (fun i w => w = ztab (k + i) f) 1 (n - k) Fn S) as (w & E & ->);
      [lia| | |rewrite E; do 2 f_equal; lia] end.
    + rewrite ztab_snoc by lia. do 2 f_equal. unfold f. rewrite Z.sub_diag. symmetry. apply sinc_at0. unfold Rdiv. ring.
    + intros i s Hi ->. eexists; split; [reflexivity|]. rewrite Z.add_assoc, ztab_snoc by lia. do 2 f_equal.
      rewrite X by lia. unfold f. do 3 f_equal. f_equal. lia.
Qed.
