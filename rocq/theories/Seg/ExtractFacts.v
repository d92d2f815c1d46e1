(** Consequences for the features. *)
From Coq Require Import List ZArith QArith Qreals Reals Lia Lra Bool.
From Verif.Base Require Import Imp Sums RealOps.
From Verif.Maths Require Import IntModel IntSpec IntProofs.
From Verif.Rate Require Import Df2tSpec Df2tProofs DecimatorModel DecimatorSpec.
From Verif.Windows Require Import WindowSpec.
From Verif.Fft Require Import Cplx FftSpec FftProofs.
From Verif.Chroma Require Import CqSpec CqTime CqResults.
From Verif.Mfcc Require Import MfccSpec MfccProofs.
From Verif.Seg Require Import SegModel ExtractModel ExtractSpec ExtractProofs ExtractResults ExtractClient.
Import ListNotations.
Open Scope Z_scope.

(** *** Gain *)
Lemma zn_gain g (l : list R) i : zn 0%R (map (Rmult g) l) i = (g * zn 0 l i)%R.
Proof.
  destruct (Z.le_gt_cases 0 i) as [H|H]; [destruct (Z.lt_ge_cases i (zlen l)) as [H'|H']|].
  - now rewrite (zn_map (Rmult g) 0%R) by lia.
  - rewrite !zn_out by (zl; lia). ring.
  - rewrite !zn_out by lia. ring.
Qed.

Lemma contribution_gain g cs x y : forall t,
  contribution 0%R Rplus Rminus Rmult cs (map (Rmult g) x) (map (Rmult g) y) t = (g * contribution 0%R Rplus Rminus Rmult cs x y t)%R.
Proof.
  induction cs as [|[b a] cs IH]; intros t; cbn [contribution]; destruct (t <? 0); try ring.
  rewrite !zn_gain. destruct cs as [|c cs]; [ring|]. rewrite IH. ring.
Qed.
Lemma response_gain g b0 cs x y : iir_response 0%R Rplus Rminus Rmult b0 cs x y ->
  iir_response 0%R Rplus Rminus Rmult b0 cs (map (Rmult g) x) (map (Rmult g) y).
Proof.
  intros (L & H). split; [zl; lia|]. zl. intros t Ht. rewrite !zn_gain, H, contribution_gain by lia. ring.
Qed.
Lemma decimated_gain g f past block x : is_decimated f past block x ->
  is_decimated f (map (Rmult g) past) (map (Rmult g) block) (map (Rmult g) x).
Proof.
  unfold is_decimated. destruct (f =? 1); [now intros ->|]. intros (ys & A & B & C). exists (map (Rmult g) ys). destruct (DecimatorModel.coefficients f) as [b a].
  rewrite <- map_app. split; [now apply response_gain|]. zl. split; [lia|]. intros i Hi. rewrite !zn_gain, C by lia. reflexivity.
Qed.

Lemma spectrum_gain n g x k : CqSpec.spectrum n (fun t => cre (g * x t)) k = cmul (cre g) (CqSpec.spectrum n (fun t => cre (x t)) k).
Proof.
  unfold CqSpec.spectrum, cmul, cre. cbn [fst snd]. unfold dft_re, dft_im.
  f_equal.
  - rewrite Rmult_0_l, Rminus_0_r, <- rsum_scal. apply rsum_ext. intros j Hj. ring.
  - rewrite Rmult_0_l, Rplus_0_r, <- rsum_scal. apply rsum_ext. intros j Hj. ring.
Qed.
Lemma cq_bin_gain fs f b th n g X k : cq_bin fs f b th n (fun i => cmul (cre g) (X i)) k = cmul (cre g) (cq_bin fs f b th n X k).
Proof.
  pose proof (cq_bin_linear fs f b th n X X (cre g) c0 k) as H.
  rewrite (cq_bin_ext fs f b th n _ (fun i => cadd (cmul (cre g) (X i)) (cmul c0 (X i)))) by (intros; ring). rewrite H. ring.
Qed.
Lemma level_gain fs f b th n g x i : constq_level fs f b th n (fun t => g * x t)%R i = (Rabs g * constq_level fs f b th n x i)%R.
Proof.
  unfold constq_level.
  rewrite (cq_bin_ext fs f b th n _ (fun k => cmul (cre g) (CqSpec.spectrum n (fun t => cre (x ((t + n / 2) mod n)%Z * hamming n t)) k))).
  - rewrite cq_bin_gain, cabs_mul, cabs_re. reflexivity.
  - intros k Hk. rewrite <- spectrum_gain.
    unfold CqSpec.spectrum. cbn [fst snd cre]. f_equal; unfold dft_re, dft_im; apply rsum_ext; intros j Hj; cbn; ring.
Qed.

Theorem features_gain p rate past block v g : p_type p = ConstQ \/ p_type p = Chroma -> is_features p rate past block v ->
  is_features p rate (map (Rmult g) past) (map (Rmult g) block) (map (Rmult (Rabs g)) v).
Proof.
  intros T (f & x & F & D & n & c & N & C & L & V). exists f, (map (Rmult g) x). splits; auto; [now apply decimated_gain|].
  exists n, c. zl. splits; auto.
  - intros i Hi. rewrite zn_gain, V by auto.
    assert (E : forall y, feature p (rate / f) n y c i = constq_feature (IZR (rate / f)) (IZR (p_fmin p)) (p_bins p) (54 / 10000) n y c i).
    { intros y. unfold feature. destruct T as [->| ->]; reflexivity. }
    rewrite !E. unfold constq_feature, mean_of, Rdiv. rewrite <- Rmult_assoc. f_equal. rewrite <- rsum_scal. apply rsum_ext. intros k Hk.
    rewrite <- level_gain. unfold constq_level. f_equal. apply cq_bin_ext. intros j Hj.
    unfold CqSpec.spectrum. cbn [fst snd cre]. unfold dft_re, dft_im, frame_at. f_equal; apply rsum_ext; intros u Hu; rewrite zn_gain; reflexivity.
Qed.
Theorem features_nonneg p rate past block v i : p_type p = ConstQ \/ p_type p = Chroma -> is_features p rate past block v ->
  0 <= i < zlen v -> (0 <= zn 0 v i)%R.
Proof.
  intros T (f & x & F & D & n & c & N & C & L & V) Hi. rewrite V by lia.
  assert (E : feature p (rate / f) n x c i = constq_feature (IZR (rate / f)) (IZR (p_fmin p)) (p_bins p) (54 / 10000) n x c i)
    by (unfold feature; destruct T as [->| ->]; reflexivity).
  rewrite E. destruct C as (C & _). unfold constq_feature, mean_of, Rdiv. apply Rmult_le_pos.
  - apply rsum_nonneg. intros. apply cabs_nonneg.
  - left. apply Rinv_0_lt_compat. apply IZR_lt. lia.
Qed.

(** *** The samples at the end *)
(** Features depend on samples inside a frame only. *)
Lemma feature_ext p fs n x y c i : 2 <= n -> 1 <= c ->
  (forall j, 0 <= j < (c - 1) * (n / 2) + n -> zn 0%R x j = zn 0%R y j) -> feature p fs n x c i = feature p fs n y c i.
Proof.
  intros Hn Hc H. assert (Hh : 0 <= n / 2) by (apply Z.div_pos; lia).
  assert (FE : forall k t, 0 <= k < c -> 0 <= t < n -> frame_at n x k t = frame_at n y k t).
  { intros k t Hk Ht. unfold frame_at. apply H. nia. }
  assert (A : forall fs f b th, constq_feature fs f b th n x c i = constq_feature fs f b th n y c i).
  { intros fs' f b th. unfold constq_feature, mean_of. f_equal. apply rsum_ext. intros k Hk. unfold constq_level. f_equal. apply cq_bin_ext. intros j Hj.
    unfold CqSpec.spectrum. cbn [fst snd cre]. unfold dft_re, dft_im. f_equal; apply rsum_ext; intros u Hu;
    rewrite (FE k) by (try apply Z.mod_pos_bound; lia); reflexivity. }
  assert (B : mfcc_feature fs n x c i = mfcc_feature fs n y c i).
  { unfold mfcc_feature, mean_of. f_equal. apply rsum_ext. intros k Hk. apply cepstrum_ext. intros j Hj. unfold frame_magnitude.
    assert (X : forall u, 0 <= u < n -> (frame_at n x k u * hamming n u = frame_at n y k u * hamming n u)%R) by (intros; now rewrite FE).
    unfold magn, dft_re, dft_im.
    f_equal. f_equal; f_equal; apply rsum_ext; intros u Hu; now rewrite X. }
  unfold feature. destruct (p_type p); auto.
Qed.

(** Where the rate is not reduced and the block is longer than one frame, the last sample never counts. *)
Theorem last_sample p rate past block a b n v : p_type p <> Unknown -> is_factor (internal_rate p) rate 1 -> frame_size p rate n -> 2 <= n ->
  n <= zlen block -> is_features p rate past (block ++ [a]) v -> is_features p rate past (block ++ [b]) v.
Proof.
  intros T F1 N Hn Hl (f & x & F & D & n' & c & N' & C & L & V).
  assert (f = 1) by exact (is_factor_unique _ _ _ _ F F1). subst f. rewrite Z.div_1_r in *.
  assert (n' = n) by exact (frame_size_unique _ _ _ _ N' N). subst n'. unfold is_decimated in D. cbn in D. subst x.
  exists 1, (block ++ [b]). rewrite Z.div_1_r. splits; auto; [reflexivity|]. exists n, c. splits; auto.
  - zl. exact C.
  - intros i Hi. rewrite V by auto. destruct C as (C1 & C2 & C3). apply feature_ext; auto. intros j Hj. rewrite !zn_app.
    assert (j < zlen block); [|zcase; reflexivity].
    destruct (Z.eq_dec c 1) as [->|N1]; [lia|]. specialize (C2 (c - 1) ltac:(lia)). zl. lia.
Qed.

(** *** The weight of a sample in its frame *)
(** The window is applied after the halves have been swapped: a constant-Q level is that of the frame weighted by
    1 at its ends and by 0.08 in its middle. *)
Definition frame_weight (n t : Z) : R := hamming n ((t + n / 2) mod n).
Lemma swapped_mod n t : 2 <= n -> n mod 2 = 0 -> 0 <= t < n -> ((t + n / 2) mod n + n / 2) mod n = t.
Proof.
  intros Hn H2 Ht. rewrite Z.add_mod_idemp_l by lia. replace (t + n / 2 + n / 2) with (t + 1 * n).
  - rewrite Z.mod_add by lia. apply Z.mod_small. lia.
  - pose proof (Z.div_mod n 2 ltac:(lia)). lia.
Qed.
Lemma level_weight fs f b th n x i : 2 <= n -> n mod 2 = 0 ->
  constq_level fs f b th n x i = cabs (cq_bin fs f b th n (CqSpec.spectrum n (rotated n (fun t => cre (frame_weight n t * x t)))) i).
Proof.
  intros Hn H2. unfold constq_level. f_equal. apply cq_bin_ext. intros j Hj. unfold CqSpec.spectrum, rotated. cbn [fst snd cre].
  f_equal; unfold dft_re, dft_im; apply rsum_ext; intros u Hu; unfold frame_weight; cbn [fst snd cre]; rewrite swapped_mod by lia;
  rewrite (Rmult_comm (hamming n u)); reflexivity.
Qed.
(** The weights: largest at the ends of a frame, smallest in its middle. *)
Lemma frame_weight_cos n t : 2 <= n -> n mod 2 = 0 -> 0 <= t < n -> frame_weight n t = (0.54 + 0.46 * cos (2 * PI * IZR t / IZR n))%R.
Proof.
  intros Hn H2 Ht. unfold frame_weight, hamming. destruct (Z.leb_spec n 1); [lia|].
  pose proof (Z.div_mod n 2 ltac:(lia)) as D. rewrite H2, Z.add_0_r in D.
  assert (N : (IZR n <> 0)%R) by (apply not_0_IZR; lia).
  assert (N2 : IZR n = (2 * IZR (n / 2))%R) by (rewrite <- mult_IZR; f_equal; exact D).
  assert (M : (IZR (n / 2) <> 0)%R) by (intros Z0; rewrite Z0 in N2; lra).
  destruct (Z.lt_ge_cases (t + n / 2) n) as [L|L].
  - rewrite Z.mod_small by lia. rewrite plus_IZR.
    replace (2 * PI * (IZR t + IZR (n / 2)) / IZR n)%R with (2 * PI * IZR t / IZR n + PI)%R by (rewrite N2; field; auto).
    rewrite neg_cos. ring.
  - assert (E : (t + n / 2) mod n = t - n / 2).
    { replace (t + n / 2) with (t - n / 2 + 1 * n) by lia. rewrite Z.mod_add by lia. apply Z.mod_small. lia. }
    rewrite E, minus_IZR.
    replace (2 * PI * (IZR t - IZR (n / 2)) / IZR n)%R with (2 * PI * IZR t / IZR n - PI)%R by (rewrite N2; field; auto).
    rewrite cos_minus, cos_PI, sin_PI. ring.
Qed.
Theorem frame_weight_ends n : 2 <= n -> n mod 2 = 0 -> frame_weight n 0 = 1%R /\ frame_weight n (n / 2) = (8 / 100)%R.
Proof.
  intros Hn H2. pose proof (Z.div_mod n 2 ltac:(lia)) as D. rewrite H2, Z.add_0_r in D.
  rewrite !frame_weight_cos by lia. split.
  - unfold Rdiv. rewrite Rmult_0_r, Rmult_0_l, cos_0. lra.
  - assert (N2 : IZR n = (2 * IZR (n / 2))%R) by (rewrite <- mult_IZR; f_equal; exact D).
    assert (M : (IZR (n / 2) <> 0)%R) by (apply not_0_IZR; lia).
    replace (2 * PI * IZR (n / 2) / IZR n)%R with PI by (rewrite N2; field; auto). rewrite cos_PI. lra.
Qed.
