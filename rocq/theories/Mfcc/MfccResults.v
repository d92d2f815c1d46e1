(** Consequences for the mel-frequency cepstral coefficients. *)
From Coq Require Import List ZArith Reals Lia Lra Bool Classical_Prop.
From Verif.Base Require Import Imp Sums RealOps Loops Tables Matrix.
From Verif.Measures Require Import MeasModel.
From Verif.Fft Require Import Cplx FftSpec FftrModel FftResults.
From Verif.Windows Require Import WindowModel WindowSpec WindowProofs.
From Verif.Onset Require Import DetProofs.
From Verif.Tonal Require Import TonalProofs.
From Verif.Mfcc Require Import MfccModel MfccSpec MfccProofs.
From Verif.Fft Require Import DctMath.
Import ListNotations.
Open Scope Z_scope.

(** *** Equal magnitudes, equal coefficients *)
Lemma coefficients_unique c mag mag' out o1 o2 : (forall j, 0 <= j < k_fftsize c / 2 -> mag j = mag' j) ->
  coefficients c mag out o1 -> coefficients c mag' out o2 -> o1 = o2.
Proof.
  intros H (L1 & V1) (L2 & V2). apply (zn_ext 0%R); [congruence|]. intros k Hk. rewrite V1, V2 by lia.
  zcase; auto. now apply cepstrum_ext.
Qed.

Lemma bands_fit_ext p fs n mag mag' : (forall j, 0 <= j < n / 2 -> mag j = mag' j) -> bands_fit p fs n mag -> bands_fit p fs n mag'.
Proof. intros H [F|F]; [now left|right]. intros i Hi. rewrite <- (band_ext fs n mag) by auto. auto. Qed.

Theorem mfcc_same c o1 o2 re1 im1 re2 im2 out : config_ok c -> mfcc_uses c o1 -> mfcc_uses c o2 ->
  k_fftsize c / 2 <= zlen re1 -> k_fftsize c / 2 <= zlen im1 -> k_fftsize c / 2 <= zlen re2 -> k_fftsize c / 2 <= zlen im2 ->
  count c <= zlen out -> bands_fit (k_logpower c) (k_fs c) (k_fftsize c) (magn (zn 0%R re1) (zn 0%R im1)) ->
  (forall j, 0 <= j < k_fftsize c / 2 -> magn (zn 0%R re1) (zn 0%R im1) j = magn (zn 0%R re2) (zn 0%R im2) j) ->
  exists o1' o2' out', mfcc_freq o1 re1 im1 out = OK (o1', out', k_nceps c) /\ mfcc_freq o2 re2 im2 out = OK (o2', out', k_nceps c).
Proof.
  intros Hc U1 U2 A1 A2 A3 A4 Lo F H.
  destruct (mfcc_spectrum c o1 re1 im1 out) as (o1' & x1 & E1 & _ & C1); auto.
  destruct (mfcc_spectrum c o2 re2 im2 out) as (o2' & x2 & E2 & _ & C2); auto; [eapply bands_fit_ext; eauto|].
  exists o1', o2', x1. split; auto. rewrite (coefficients_unique c _ _ out x1 x2 H); auto.
Qed.

Theorem mfcc_time_freq c o1 o2 jin x re im out w : config_ok c -> mfcc_uses c o1 -> mfcc_uses c o2 ->
  encache (k_window c) (k_fftsize c) = OK w -> zlen jin = k_fftsize c -> k_fftsize c <= zlen x ->
  k_fftsize c / 2 <= zlen re -> k_fftsize c / 2 <= zlen im ->
  count c <= zlen out -> bands_fit (k_logpower c) (k_fs c) (k_fftsize c) (spectrum (k_fftsize c) w x) ->
  (forall j, 0 <= j < k_fftsize c / 2 -> magn (zn 0%R re) (zn 0%R im) j = spectrum (k_fftsize c) w x j) ->
  exists o1' o2' out', mfcc_time o1 jin x out = OK (o1', out', k_nceps c) /\ mfcc_freq o2 re im out = OK (o2', out', k_nceps c).
Proof.
  intros Hc U1 U2 Ew A1 A2 A3 A4 Lo F H.
  destruct (mfcc_frame c o1 jin x out w) as (o1' & x1 & E1 & _ & C1); auto.
  destruct (mfcc_spectrum c o2 re im out) as (o2' & x2 & E2 & _ & C2); auto; [eapply bands_fit_ext; [|eauto]; intros; symmetry; auto|].
  exists o1', o2', x1. split; auto. rewrite (coefficients_unique c _ _ out x1 x2) with (1 := fun j Hj => eq_sym (H j Hj)); auto.
Qed.

Lemma spectrum_neg n w x k : spectrum n w (map Ropp x) k = spectrum n w x k.
Proof.
  unfold spectrum, magn. assert (N : forall j, zn 0%R (map Ropp x) j = (- zn 0 x j)%R).
  { intros j. unfold zn. destruct (j <? 0); [ring|]. rewrite <- (map_nth Ropp). f_equal. ring. }
  f_equal. unfold dft_re, dft_im.
  rewrite (rsum_ext n _ (fun j => (-1) * (zn 0 x j * zn 0 w j * cos (angle n j k) + 0 * sin (angle n j k)))%R) by (intros; rewrite N; ring).
  rewrite (rsum_ext n (fun j => 0 * cos (angle n j k) - zn 0 (map Ropp x) j * zn 0 w j * sin (angle n j k))%R
    (fun j => (-1) * (0 * cos (angle n j k) - zn 0 x j * zn 0 w j * sin (angle n j k)))%R) by (intros; rewrite N; ring).
  rewrite !rsum_scal. ring.
Qed.

Theorem mfcc_polarity c o1 o2 jin1 jin2 x out w : config_ok c -> mfcc_uses c o1 -> mfcc_uses c o2 ->
  encache (k_window c) (k_fftsize c) = OK w -> zlen jin1 = k_fftsize c -> zlen jin2 = k_fftsize c -> k_fftsize c <= zlen x ->
  count c <= zlen out -> bands_fit (k_logpower c) (k_fs c) (k_fftsize c) (spectrum (k_fftsize c) w x) ->
  exists o1' o2' out', mfcc_time o1 jin1 x out = OK (o1', out', k_nceps c) /\
    mfcc_time o2 jin2 (map Ropp x) out = OK (o2', out', k_nceps c).
Proof.
  intros Hc U1 U2 Ew A1 A2 Lx Lo F.
  destruct (mfcc_frame c o1 jin1 x out w) as (o1' & x1 & E1 & _ & C1); auto.
  destruct (mfcc_frame c o2 jin2 (map Ropp x) out w) as (o2' & x2 & E2 & _ & C2); auto; [unfold zlen in *; now rewrite map_length| |].
  - eapply bands_fit_ext; [|eauto]. intros; symmetry; apply spectrum_neg.
  - exists o1', o2', x1. split; auto. rewrite (coefficients_unique c _ _ out x1 x2) with (1 := fun j Hj => eq_sym (spectrum_neg (k_fftsize c) w x j)); auto.
Qed.

(** *** Level *)
Lemma dct_const s k : 0 <= k < 80 -> dct2_unitary 40 (fun _ => s) k = if k =? 0 then (sqrt 40 * s)%R else 0%R.
Proof.
  intros Hk. unfold dct2_unitary. rewrite (rsum_ext 40 _ (fun j => s * ck 40 k j)%R) by (intros; unfold ck; reflexivity).
  rewrite rsum_scal, ck_sum by lia. destruct (k =? 0); [|ring].
  replace (1 / 40)%R with (/ 40)%R by lra. rewrite <- inv_sqrt_depr by lra.
  assert (P : (0 < sqrt 40)%R) by (apply sqrt_lt_R0; lra). rewrite <- (sqrt_sqrt 40) at 2 by lra. field. lra.
Qed.
Lemma dct_plus x y k : dct2_unitary 40 (fun i => x i + y i)%R k = (dct2_unitary 40 x k + dct2_unitary 40 y k)%R.
Proof.
  unfold dct2_unitary. rewrite <- Rmult_plus_distr_l, <- rsum_plus. f_equal. apply rsum_ext. intros; ring.
Qed.
Lemma dct_minus x y k : dct2_unitary 40 (fun i => x i - y i)%R k = (dct2_unitary 40 x k - dct2_unitary 40 y k)%R.
Proof.
  unfold dct2_unitary. rewrite <- Rmult_minus_distr_l, <- rsum_minus. f_equal. apply rsum_ext. intros; ring.
Qed.
Lemma dct_ext x y k : (forall i, 0 <= i < 40 -> x i = y i) -> dct2_unitary 40 x k = dct2_unitary 40 y k.
Proof. intros H. unfold dct2_unitary. f_equal. apply rsum_ext. intros. now rewrite H. Qed.

Lemma band_gain fs n g mag i : band fs n (fun j => g * mag j)%R i = (g * band fs n mag i)%R.
Proof. unfold band. rewrite <- rsum_scal. apply rsum_ext. intros; ring. Qed.

Definition decades (g : R) : R := (ln g / ln 10)%R.

Lemma level_gain g b : (0 < g)%R -> (0 < b)%R -> level10 (g * b) = (level10 b + decades g)%R.
Proof.
  intros G B. unfold level10, decades. assert (0 < g * b)%R by now apply Rmult_lt_0_compat.
  destruct (Rlt_dec 0 b), (Rlt_dec 0 (g * b)); try lra. rewrite ln_mult by auto. unfold Rdiv. ring.
Qed.
Lemma level_gain_any g b : (0 < g)%R -> level10 (g * b) = (level10 b + if Rlt_dec 0 b then decades g else 0)%R.
Proof.
  intros G. destruct (Rlt_dec 0 b); [now apply level_gain|]. unfold level10.
  destruct (Rlt_dec 0 b), (Rlt_dec 0 (g * b)); try lra. exfalso. nra.
Qed.

Lemma powered_1 x : powered 1 x = x.
Proof. unfold powered. destruct (Req_EM_T 1 1); [auto|lra]. Qed.

Lemma cepstrum_gain fs n mag g k : (0 < g)%R -> (forall i, 0 <= i < 40 -> (0 < band fs n mag i)%R) -> 0 <= k < 80 ->
  cepstrum 1 fs n (fun j => g * mag j)%R k = (cepstrum 1 fs n mag k + if k =? 0 then sqrt 40 * decades g else 0)%R.
Proof.
  intros G B Hk. unfold cepstrum. rewrite <- dct_const by auto. rewrite <- dct_plus. apply dct_ext. intros i Hi.
  rewrite !powered_1, band_gain. now apply level_gain; auto.
Qed.

Lemma magn_gain g re im j : (0 < g)%R -> magn (zn 0%R (map (Rmult g) re)) (zn 0%R (map (Rmult g) im)) j = (g * magn (zn 0 re) (zn 0 im) j)%R.
Proof.
  intros G. unfold magn. assert (N : forall x, zn 0%R (map (Rmult g) x) j = (g * zn 0 x j)%R).
  { intros x. unfold zn. destruct (j <? 0); [ring|]. rewrite <- (map_nth (Rmult g)). f_equal. ring. }
  rewrite !N. rewrite <- (sqrt_square g) at 5 by lra. rewrite <- sqrt_mult_alt by nra. f_equal. ring.
Qed.

Theorem mfcc_gain c o o' re im out g : config_ok c -> mfcc_uses c o -> mfcc_uses c o' -> k_logpower c = 1%R -> k_nceps c < 80 ->
  k_fftsize c / 2 <= zlen re -> k_fftsize c / 2 <= zlen im -> count c <= zlen out -> (0 < g)%R ->
  (forall i, 0 <= i < 40 -> (0 < band (k_fs c) (k_fftsize c) (magn (zn 0 re) (zn 0 im)) i)%R) ->
  exists o1 o2 out1 out2, mfcc_freq o re im out = OK (o1, out1, k_nceps c) /\
    mfcc_freq o' (map (Rmult g) re) (map (Rmult g) im) out = OK (o2, out2, k_nceps c) /\
    forall k, 0 <= k -> zn 0%R out2 k = (zn 0 out1 k + if k_want_c0 c && (k =? 0) then sqrt 40 * decades g else 0)%R.
Proof.
  intros Hc U U' P N A1 A2 Lo G B.
  destruct (mfcc_spectrum c o re im out) as (o1 & x1 & E1 & _ & L1 & C1); auto; [now left|].
  destruct (mfcc_spectrum c o' (map (Rmult g) re) (map (Rmult g) im) out) as (o2 & x2 & E2 & _ & L2 & C2); auto;
    [unfold zlen in *; now rewrite map_length..|now left|].
  exists o1, o2, x1, x2. splits; auto. intros k Hk. rewrite C1, C2 by auto. destruct Hc as (_ & _ & Hc). rewrite P in *. unfold count in *.
  rewrite (cepstrum_ext 1 (k_fs c) (k_fftsize c) _ (fun j => g * magn (zn 0 re) (zn 0 im) j)%R) by (intros; now apply magn_gain).
  destruct (k_want_c0 c); cbn [andb]; zcase; auto; try lia; try ring.
  all: rewrite cepstrum_gain by (auto; lia); zcase; subst; auto; try lia; ring.
Qed.

(** Levels with the same coefficients from 1 on differ by a constant. *)
Lemma dct_zero d : (forall k, 1 <= k < 40 -> dct2_unitary 40 d k = 0%R) -> forall i j, 0 <= i < 40 -> 0 <= j < 40 -> d i = d j.
Proof.
  intros H. set (m := (dct2_unitary 40 d 0 / sqrt 40)%R).
  assert (P : (0 < sqrt 40)%R) by (apply sqrt_lt_R0; lra).
  assert (Z0 : forall k, 0 <= k < 40 -> dct2_unitary 40 (fun i => d i - m)%R k = 0%R).
  { intros k Hk. rewrite dct_minus, dct_const by lia. zcase; subst; [unfold m; field; lra|rewrite H by lia; ring]. }
  pose proof (dct2_unitary_energy 40 (fun i => d i - m)%R ltac:(lia)) as E.
  rewrite (rsum_zero 40 (fun k => dct2_unitary 40 (fun i => d i - m)%R k * _)%R) in E by (intros; rewrite Z0 by lia; ring).
  assert (Q : forall i, 0 <= i < 40 -> d i = m).
  { intros i Hi. pose proof (rsum_term 40 (fun j => (d j - m) * (d j - m))%R i) as T. cbv beta in T. rewrite <- E in T.
    specialize (T (fun j _ => Rle_0_sqr (d j - m)) Hi). cbn in T. pose proof (Rle_0_sqr (d i - m)) as T2. unfold Rsqr in T2.
    assert ((d i - m) * (d i - m) = 0)%R as T3 by lra. apply Rmult_integral in T3. lra. }
  intros i j Hi Hj. now rewrite !Q.
Qed.

(** A gain changes coefficients other than 0 as soon as some bands are empty and some are not. *)
Lemma cepstrum_gain_empty fs n mag g i j : (0 < g)%R -> g <> 1%R -> 0 <= i < 40 -> 0 <= j < 40 ->
  (0 < band fs n mag i)%R -> (band fs n mag j <= 0)%R ->
  exists k, 1 <= k < 40 /\ cepstrum 1 fs n (fun j => g * mag j)%R k <> cepstrum 1 fs n mag k.
Proof.
  intros G G1 Hi Hj Bi Bj.
  destruct (classic (exists k, 1 <= k < 40 /\ cepstrum 1 fs n (fun j => g * mag j)%R k <> cepstrum 1 fs n mag k)) as [K|N]; [auto|].
  exfalso. set (d := fun i => if Rlt_dec 0 (band fs n mag i) then decades g else 0%R).
  assert (D : d i = d j).
  { apply dct_zero; auto. intros k Hk. destruct (Req_EM_T (cepstrum 1 fs n (fun j => g * mag j)%R k) (cepstrum 1 fs n mag k)) as [E|E].
    - assert (X : cepstrum 1 fs n (fun j => g * mag j)%R k = (cepstrum 1 fs n mag k + dct2_unitary 40 d k)%R); [|lra].
      unfold cepstrum. rewrite <- dct_plus. apply dct_ext. intros l Hl. rewrite !powered_1, band_gain. now apply level_gain_any.
    - exfalso. apply N. exists k. auto. }
  unfold d in D. destruct (Rlt_dec 0 (band fs n mag i)), (Rlt_dec 0 (band fs n mag j)); try lra.
  unfold decades in D. assert (0 < ln 10)%R by (rewrite <- ln_1; apply ln_increasing; lra).
  assert (L : ln g = 0%R) by (apply (Rmult_eq_reg_r (/ ln 10)); [unfold Rdiv in D; lra|apply Rinv_neq_0_compat; lra]).
  rewrite <- ln_1 in L. apply ln_inv in L; lra.
Qed.

(** *** The filters *)
Lemma triangle_bounds a b c f : (a < b < c)%R ->
  (0 <= triangle a b c f <= 2 / (c - a))%R /\ ((a < f < c)%R <-> (0 < triangle a b c f)%R) /\ triangle a b c b = (2 / (c - a))%R.
Proof.
  intros H. rewrite <- !triangle_weight by auto. unfold mel_weight.
  assert (P : (0 < 2 / (c - a))%R) by (apply Rdiv_lt_0_compat; lra). set (h := (2 / (c - a))%R) in *. clearbody h.
  assert (U : forall x, (a < x <= b -> 0 < h * (x - a) / (b - a) <= h)%R).
  { intros x Hx. split; [apply Rdiv_lt_0_compat; [apply Rmult_lt_0_compat|]; lra|].
    apply (Rmult_le_reg_r (b - a)); [lra|]. unfold Rdiv. rewrite Rmult_assoc, Rinv_l by lra. nra. }
  assert (V : forall x, (b < x < c -> 0 < h * (c - x) / (c - b) <= h)%R).
  { intros x Hx. split; [apply Rdiv_lt_0_compat; [apply Rmult_lt_0_compat|]; lra|].
    apply (Rmult_le_reg_r (c - b)); [lra|]. unfold Rdiv. rewrite Rmult_assoc, Rinv_l by lra. nra. }
  specialize (U f) as Uf. specialize (V f) as Vf.
  splits.
  1-3: destruct (Rltb_spec a f), (Rleb_spec f b), (Rltb_spec b f), (Rltb_spec f c); cbn [andb];
    try (specialize (Uf ltac:(lra))); try (specialize (Vf ltac:(lra))); try split; intros; try split; lra.
  destruct (Rltb_spec a b), (Rleb_spec b b), (Rltb_spec b b), (Rltb_spec b c); cbn [andb]; try lra. field. lra.
Qed.

Lemma corner_triple i : 0 <= i -> (corner i < corner (i + 1) < corner (i + 2))%R.
Proof. intros H. split; apply corner_mono; lia. Qed.

(** Only bin j sounding. *)
Definition lone (j : Z) (k : Z) : R := if k =? j then 1%R else 0%R.

Lemma band_lone fs n i j : 0 <= j < n / 2 -> band fs n (lone j) i = weight fs n i j.
Proof.
  intros Hj. unfold band, lone. rewrite (rsum_single _ _ j) by (auto; intros; zcase; auto; try ring; lia).
  rewrite Z.eqb_refl. unfold weight. ring.
Qed.

Lemma between f : (corner 0 <= f < corner 41)%R -> exists i, 0 <= i < 41 /\ (corner i <= f < corner (i + 1))%R.
Proof.
  intros [H0 H1]. assert (G : forall n : nat, Z.of_nat n <= 41 -> (corner 0 <= f < corner (Z.of_nat n))%R ->
    exists i, 0 <= i < Z.of_nat n /\ (corner i <= f < corner (i + 1))%R).
  { induction n as [|n IH]; intros Hn [A B]; [change (Z.of_nat 0) with 0 in B; lra|].
    destruct (Rle_lt_dec (corner (Z.of_nat n)) f) as [L|L].
    - exists (Z.of_nat n). split; [lia|]. split; auto. replace (Z.of_nat n + 1) with (Z.of_nat (S n)) by lia. auto.
    - destruct IH as (i & Hi & V); [lia|split; auto|]. exists i. split; auto. lia. }
  destruct (G 41%nat) as (i & Hi & V); [lia|split; auto|]. exists i. split; auto.
Qed.

Theorem filter_cover fs n j : let f := (IZR j * IZR fs / IZR n)%R in 0 <= j < n / 2 -> 
  (forall i, 0 <= i < 40 -> ((0 < band fs n (lone j) i)%R <-> (corner i < f < corner (i + 2))%R)) /\
  ((corner 0 < f < corner 41)%R -> exists i, 0 <= i < 40 /\ (0 < band fs n (lone j) i)%R) /\
  (forall i i', 0 <= i < 40 -> 0 <= i' < 40 -> (0 < band fs n (lone j) i)%R -> (0 < band fs n (lone j) i')%R -> Z.abs (i - i') <= 1).
Proof.
  intros f Hj.
  assert (C : forall i, 0 <= i < 40 -> ((0 < band fs n (lone j) i)%R <-> (corner i < f < corner (i + 2))%R)).
  { intros i Hi. rewrite band_lone by auto. unfold weight. fold f.
    destruct (triangle_bounds (corner i) (corner (i + 1)) (corner (i + 2)) f) as (_ & T & _); [apply corner_triple; lia|]. tauto. }
  split; [exact C|]. split.
  - intros [F0 F1]. destruct (between f) as (i & Hi & V); [lra|]. destruct V as [[V|V] V'].
    + destruct (Z.eq_dec i 40) as [->|].
      * exists 39. split; [lia|]. apply C; [lia|]. split; [|exact F1].
        eapply Rlt_trans; [|exact V]. apply corner_mono. lia.
      * exists i. split; [lia|]. apply C; [lia|]. split; auto. eapply Rlt_trans; [exact V'|]. apply corner_mono. lia.
    + assert (i <> 0) by (intros ->; lra). exists (i - 1). split; [lia|]. apply C; [lia|]. rewrite <- V.
      split; apply corner_mono; lia.
  - intros i i' Hi Hi' B B'. apply C in B, B'; auto.
    destruct (Z_lt_le_dec (i + 1) i') as [L|L].
    { assert (corner (i + 2) <= corner i')%R; [|lra]. destruct (Z.eq_dec (i + 2) i') as [->|]; [lra|left; apply corner_mono; lia]. }
    destruct (Z_lt_le_dec (i' + 1) i) as [L'|L'].
    { assert (corner (i' + 2) <= corner i)%R; [|lra]. destruct (Z.eq_dec (i' + 2) i) as [->|]; [lra|left; apply corner_mono; lia]. }
    lia.
Qed.

Theorem filter_shape i : 0 <= i < 40 -> let T := triangle (corner i) (corner (i + 1)) (corner (i + 2)) in
  (corner i < corner (i + 1) < corner (i + 2))%R /\
  (forall f, (0 <= T f <= 2 / (corner (i + 2) - corner i))%R /\ ((corner i < f < corner (i + 2))%R <-> (0 < T f)%R)) /\
  T (corner (i + 1)) = (2 / (corner (i + 2) - corner i))%R.
Proof.
  intros Hi T. pose proof (corner_triple i ltac:(lia)) as H. split; auto.
  split; [intros f|]; destruct (triangle_bounds _ _ _ f H) as (A & B & C) || destruct (triangle_bounds _ _ _ 0%R H) as (A & B & C); auto.
Qed.

Lemma band_nonneg fs n mag i : 0 <= i < 40 -> (forall j, 0 <= mag j)%R -> (0 <= band fs n mag i)%R.
Proof.
  intros Hi H. apply rsum_nonneg. intros j Hj. apply Rmult_le_pos; auto.
  apply (triangle_bounds (corner i) (corner (i + 1)) (corner (i + 2))). apply corner_triple. lia.
Qed.
Lemma band_above fs n mag i : 0 <= i < 40 -> 0 <= fs -> 1 <= n -> (IZR fs / 2 <= corner i)%R -> band fs n mag i = 0%R.
Proof.
  intros Hi Hf Hn H. apply rsum_zero. intros j Hj.
  destruct (triangle_bounds (corner i) (corner (i + 1)) (corner (i + 2)) (IZR j * IZR fs / IZR n)) as (A & B & _); [apply corner_triple; lia|].
  assert (E : triangle (corner i) (corner (i + 1)) (corner (i + 2)) (IZR j * IZR fs / IZR n) = 0%R); [|rewrite E; ring].
  apply Rle_antisym; [|apply A]. apply Rnot_lt_le. intros L. apply B in L. destruct L as [L _].
  assert (N : (0 < IZR n)%R) by (apply IZR_lt; lia). assert (F : (0 <= IZR fs)%R) by (apply IZR_le; lia).
  assert (J : (IZR j <= IZR n / 2)%R). { assert (2 * j <= n) by (pose proof (Z.mul_div_le n 2); lia). apply IZR_le in H0. rewrite mult_IZR in H0. lra. }
  assert (IZR j * IZR fs / IZR n <= IZR fs / 2)%R; [|lra].
  apply (Rmult_le_reg_r (IZR n)); [lra|]. unfold Rdiv. rewrite Rmult_assoc, Rinv_l by lra. nra.
Qed.

(** At sampling rates up to 11025 Hz the last filter is beyond every bin, so level leaks into other coefficients. *)
Theorem mfcc_gain_low_rate fs n mag g i : 0 <= fs <= 11025 -> 1 <= n -> (0 < g)%R -> g <> 1%R -> 0 <= i < 40 -> (0 < band fs n mag i)%R ->
  exists k, 1 <= k < 40 /\ cepstrum 1 fs n (fun j => g * mag j)%R k <> cepstrum 1 fs n mag k.
Proof.
  intros Hf Hn G G1 Hi B. apply (cepstrum_gain_empty fs n mag g i 39); auto; try lia.
  rewrite band_above; try lia; try lra.
  unfold corner. replace (39 <=? 12) with false by reflexivity. rewrite ratio_up_pow. change (Z.to_nat (39 - 12)) with 27%nat.
  assert (IZR fs <= 11025)%R by (apply IZR_le; lia).
  assert (5530 <= 866.66666652 * 1.0711703 ^ 27)%R by (cbn [pow]; lra). lra.
Qed.

(** *** Energy, information *)
Theorem cepstrum_energy p fs n mag N : 0 <= N <= 40 ->
  let level i := powered p (level10 (band fs n mag i)) in
  (rsum N (fun k => cepstrum p fs n mag k * cepstrum p fs n mag k) <= rsum 40 (fun i => level i * level i))%R /\
  (N = 40%Z -> rsum N (fun k => cepstrum p fs n mag k * cepstrum p fs n mag k) = rsum 40 (fun i => level i * level i))%R.
Proof.
  intros HN level. rewrite <- (dct2_unitary_energy 40 level) by lia.
  change (fun k => dct2_unitary 40 level k * dct2_unitary 40 level k)%R with (fun k => cepstrum p fs n mag k * cepstrum p fs n mag k)%R.
  split; [|now intros ->].
  replace 40 with (N + (40 - N)) at 1 by lia. rewrite rsum_split by lia.
  assert (0 <= rsum (40 - N) (fun i => cepstrum p fs n mag (N + i) * cepstrum p fs n mag (N + i)))%R by (apply rsum_nonneg; intros; apply Rle_0_sqr).
  lra.
Qed.

Theorem cepstrum_determines fs n mag mag' :
  (forall k, 0 <= k < 40 -> cepstrum 1 fs n mag k = cepstrum 1 fs n mag' k) ->
  forall i, 0 <= i < 40 -> (0 < band fs n mag i)%R -> (0 < band fs n mag' i)%R -> band fs n mag i = band fs n mag' i.
Proof.
  intros H i Hi B B'.
  set (d := fun i => (level10 (band fs n mag i) - level10 (band fs n mag' i))%R).
  assert (D : forall k, 0 <= k < 40 -> dct2_unitary 40 d k = 0%R).
  { intros k Hk. unfold d. rewrite dct_minus. specialize (H k Hk). unfold cepstrum in H.
    rewrite (dct_ext (fun i => level10 (band fs n mag i)) (fun i => powered 1 (level10 (band fs n mag i)))) by (intros; now rewrite powered_1).
    rewrite (dct_ext (fun i => level10 (band fs n mag' i)) (fun i => powered 1 (level10 (band fs n mag' i)))) by (intros; now rewrite powered_1).
    lra. }
  assert (K : forall j, 0 <= j < 40 -> d j = d i) by (intros; apply dct_zero; auto; intros; apply D; lia).
  assert (Z0 : d i = 0%R).
  { specialize (D 0 ltac:(lia)). rewrite (dct_ext d (fun _ => d i)), dct_const in D by (auto; lia). cbn in D.
    apply Rmult_integral in D as [D|D]; auto. assert (0 < sqrt 40)%R by (apply sqrt_lt_R0; lra). lra. }
  unfold d, level10 in Z0. destruct (Rlt_dec 0 (band fs n mag i)), (Rlt_dec 0 (band fs n mag' i)); try lra.
  assert (0 < ln 10)%R by (rewrite <- ln_1; apply ln_increasing; lra).
  apply ln_inv; auto. apply (Rmult_eq_reg_r (/ ln 10)); [unfold Rdiv in Z0; lra|apply Rinv_neq_0_compat; lra].
Qed.

Theorem cepstrum_mirror p fs n mag k : 1 <= k < 80 -> cepstrum p fs n mag (80 - k) = (- cepstrum p fs n mag k)%R.
Proof.
  intros Hk. unfold cepstrum. set (e := fun i => powered p (level10 (band fs n mag i))). unfold dct2_unitary. zcase; try lia.
  rewrite (rsum_ext 40 _ (fun j => (-1) * (e j * cos (PI * IZR k * IZR (2 * j + 1) / IZR (2 * 40))))%R); [rewrite rsum_scal; ring|].
  intros j Hj. replace (PI * IZR (80 - k) * IZR (2 * j + 1) / IZR (2 * 40))%R with
    ((PI - PI * IZR k * IZR (2 * j + 1) / IZR (2 * 40)) + 2 * INR (Z.to_nat j) * PI)%R.
  - rewrite cos_period, Rtrigo_facts.cos_pi_minus. unfold e. ring.
  - rewrite INR_IZR_INZ, Z2Nat.id by lia. rewrite minus_IZR, !plus_IZR, !mult_IZR. field.
Qed.

Theorem cepstrum_silence fs n k : cepstrum 1 fs n (fun _ => 0%R) k = 0%R.
Proof.
  unfold cepstrum, dct2_unitary. rewrite rsum_zero; [ring|]. intros i Hi. rewrite powered_1.
  replace (band fs n (fun _ => 0%R) i) with 0%R by (symmetry; apply rsum_zero; intros; ring).
  unfold level10. destruct (Rlt_dec 0 0); [lra|ring].
Qed.

(** *** Undefined cases *)
Theorem mfcc_odd c j1 j2 jc : k_fftsize c mod 2 <> 0 -> mfcc_new c j1 j2 jc = Throw.
Proof. intros H. unfold mfcc_new. rewrite (proj1 (fftreal_construction (k_fftsize c) j1 j2 jc)) by auto. reflexivity. Qed.

Theorem mfcc_power_undefined c o re im out : config_ok c -> mfcc_uses c o -> k_fftsize c / 2 <= zlen re -> k_fftsize c / 2 <= zlen im ->
  k_logpower c <> IZR (Zfloor (k_logpower c)) -> (0 < band (k_fs c) (k_fftsize c) (magn (zn 0 re) (zn 0 im)) 0 < 1)%R ->
  mfcc_freq o re im out = UB.
Proof.
  intros Hc U Lr Li P B. pose proof (uses_inv c o Hc U) as I. destruct Hc as (Hn & H2 & Hc). set (mag := magn (zn 0%R re) (zn 0%R im)) in *.
  unfold mfcc_freq. match goal with |- bind ?l ?k = _ => assert (E : l = UB); [|rewrite E; reflexivity] end.
  unfold mel_bands. rewrite (i_n c o I), (i_total c o I), (i_p c o I), (i_w c o I).
  rewrite Z.quot_div_nonneg by lia. set (n := k_fftsize c) in *. set (h := n / 2) in *. set (p := k_logpower c) in *. set (fs := k_fs c) in *.
  assert (Hh : 0 <= h) by (apply Z.div_pos; lia). assert (Hhn : h <= n) by (apply Z.div_le_upper_bound; lia).
  rewrite (ztab_eta_len 0%R (m_mag o) h), (ztab_eta_len 0%R (m_ear o) 40) by apply I.
  rewrite (for_up_ext _ _ _ (fun i m => aset m i (mag i))).
  2:{ intros i s Hi. rewrite !(aget_OK 0%R) by lia. reflexivity. }
  rewrite fill_ok by lia. cbn [bind]. rewrite fill_ok by lia. cbn [bind].
  match goal with |- bind ?l ?k = _ => assert (E : l = UB); [|rewrite E; reflexivity] end.
  rewrite for_up_first by lia.
  match goal with |- bind ?l ?k = _ => assert (E : l = UB); [|rewrite E; reflexivity] end.
  rewrite (for_up_path (fun j => rsum j (fun j => weight fs n 0 j * mag j)%R) 0 h); [|lia|].
  2:{ intros j Hj. rewrite mget_tab by lia. cbn [bind]. tabs. now rewrite rsum_S by lia. }
  cbn [bind]. rewrite log10_level. change (rsum h (fun j => weight fs n 0 j * mag j)%R) with (band fs n mag 0). tabs.
  assert (LB : (level10 (band fs n mag 0) < 0)%R).
  { unfold level10. destruct (Rlt_dec 0 (band fs n mag 0)); [|lra].
    assert (0 < ln 10)%R by (rewrite <- ln_1; apply ln_increasing; lra).
    assert (ln (band fs n mag 0) < 0)%R by (rewrite <- ln_1; apply ln_increasing; lra).
    assert (0 < / ln 10)%R by now apply Rinv_0_lt_compat. unfold Rdiv. nra. }
  unfold Reqb at 1. destruct (Req_EM_T p 1) as [Q|Q].
  { exfalso. apply P. rewrite Q. now rewrite Zfloor_IZR. }
  cbn [negb]. tabs. unfold set1 at 1. cbn [Z.eqb]. unfold cpow.
  destruct (Rltb_spec 0 (level10 (band fs n mag 0))); [lra|]. destruct (Rltb_spec (level10 (band fs n mag 0)) 0); [|lra].
  unfold Reqb. destruct (Req_EM_T p (IZR (Zfloor p))); [now elim P|]. reflexivity.
Qed.

(** *** Every filter hears something *)
Lemma corner_12 : corner 12 = 866.66666652%R.
Proof. unfold corner. replace (12 <=? 12) with true by reflexivity. lra. Qed.
Lemma corner_ge i : 12 <= i -> (866 <= corner i)%R.
Proof.
  intros H. destruct (Z.eq_dec i 12) as [->|]; [rewrite corner_12; lra|].
  assert (corner 12 < corner i)%R by (apply corner_mono; lia). rewrite corner_12 in *. lra.
Qed.
Lemma corner_step i : 12 <= i -> corner (i + 1) = (1.0711703 * corner i)%R.
Proof.
  intros H. unfold corner. destruct (Z.leb_spec (i + 1) 12); [lia|].
  replace (Z.to_nat (i + 1 - 12)) with (S (Z.to_nat (i - 12))) by lia. cbn [ratio_up].
  destruct (Z.leb_spec i 12); [|reflexivity]. replace i with 12 by lia. change (Z.to_nat (12 - 12)) with 0%nat. cbn [ratio_up]. lra.
Qed.
Lemma corner_width i : 0 <= i -> (corner i + 120 < corner (i + 2))%R.
Proof.
  intros H. destruct (Z_lt_le_dec i 11) as [A|A].
  - unfold corner. destruct (Z.leb_spec i 12), (Z.leb_spec (i + 2) 12); try lia. rewrite plus_IZR. lra.
  - replace (i + 2) with (i + 1 + 1) by lia. rewrite (corner_step (i + 1)) by lia. destruct (Z.eq_dec i 11) as [->|].
    + change (11 + 1) with 12. rewrite corner_12. unfold corner. replace (11 <=? 12) with true by reflexivity. lra.
    + rewrite corner_step by lia. pose proof (corner_ge i ltac:(lia)). lra.
Qed.
Lemma corner_top i : 0 <= i < 40 -> (66 < corner i <= 5560)%R.
Proof.
  intros H. split.
  - assert (E : (66 < corner 0)%R) by (unfold corner; replace (0 <=? 12) with true by reflexivity; lra).
    destruct (Z.eq_dec i 0) as [->|]; auto. assert (corner 0 < corner i)%R by (apply corner_mono; lia). lra.
  - assert (E : (corner 39 <= 5560)%R).
    { unfold corner. replace (39 <=? 12) with false by reflexivity. rewrite ratio_up_pow. change (Z.to_nat (39 - 12)) with 27%nat. cbn [pow]. lra. }
    destruct (Z.eq_dec i 39) as [->|]; auto. assert (corner i < corner 39)%R by (apply corner_mono; lia). lra.
Qed.

Theorem bands_sound fs n mag : 13000 <= fs <= 66 * n -> (forall j, 0 <= j < n / 2 -> (0 < mag j)%R) ->
  forall i, 0 <= i < 40 -> (0 < band fs n mag i)%R.
Proof.
  intros Hf Hm i Hi. assert (N : (0 < IZR n)%R) by (apply IZR_lt; lia).
  assert (F1 : (13000 <= IZR fs)%R) by (apply IZR_le; lia).
  assert (F2 : (IZR fs <= 66 * IZR n)%R) by (rewrite <- mult_IZR; apply IZR_le; lia).
  set (d := (IZR fs / IZR n)%R). assert (D : (IZR fs = d * IZR n)%R) by (unfold d; field; lra).
  assert (D0 : (0 < d)%R) by (apply Rdiv_lt_0_compat; lra). assert (D1 : (d <= 66)%R) by nra.
  pose proof (corner_top i Hi) as C. pose proof (corner_width i ltac:(lia)) as W.
  set (j := Zfloor (corner i / d) + 1). pose proof (Zfloor_bounds (corner i / d)) as [B1 B2].
  assert (E : (corner i = corner i / d * d)%R) by (field; lra). set (q := (corner i / d)%R) in *.
  assert (J0 : (q < IZR j <= q + 1)%R) by (unfold j; rewrite plus_IZR; lra).
  assert (J1 : (corner i < IZR j * d <= corner i + 66)%R) by nra.
  assert (Jp : 0 <= j).
  { assert (0 < j)%Z; [|lia]. apply lt_IZR. assert (0 < q)%R by (unfold q; apply Rdiv_lt_0_compat; lra). lra. }
  assert (Jn : j < n / 2).
  { assert (2 * (j + 1) <= n); [|pose proof (Z.div_le_lower_bound n 2 (j + 1)); lia].
    apply le_IZR. rewrite mult_IZR, plus_IZR. apply (Rmult_le_reg_r d); [auto|]. rewrite (Rmult_comm (IZR n)), <- D. nra. }
  unfold band. eapply Rlt_le_trans; [|apply (rsum_term (n / 2) _ j); [|lia]].
  - cbv beta. apply Rmult_lt_0_compat; [|auto]. apply (triangle_bounds (corner i) (corner (i + 1)) (corner (i + 2))).
    + apply corner_triple. lia.
    + replace (IZR j * IZR fs / IZR n)%R with (IZR j * d)%R by (unfold d; field; lra). lra.
  - intros k Hk. apply Rmult_le_pos; [|left; auto]. apply (triangle_bounds (corner i) (corner (i + 1)) (corner (i + 2))).
    apply corner_triple. lia.
Qed.
