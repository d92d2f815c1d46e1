From Coq Require Import Reals ZArith List Bool Lia Lra Psatz.
From Verif.Base Require Import Imp RealOps.
From Verif.Tempo Require Import BeatModel.
From Verif.Pitch Require Import PitchModel PitchSpec.
Open Scope R_scope.

Lemma ln2_pos : 0 < ln 2.
Proof. rewrite <- ln_1. apply ln_increasing; lra. Qed.

Lemma ln_le x y : 0 < x -> x <= y -> ln x <= ln y.
Proof. intros Hx [H|H]; [left; now apply ln_increasing|subst; lra]. Qed.

Lemma float_pos x : float_range x -> 0 < x.
Proof. intros [H _]. eapply Rlt_le_trans; [|exact H]. apply Rinv_0_lt_compat, pow_lt. lra. Qed.

Lemma ln_pow2 n : ln (2 ^ n) = INR n * ln 2.
Proof. induction n as [|n IH]; [cbn; rewrite ln_1; ring|]. cbn [pow]. rewrite ln_mult, IH, S_INR by (try apply pow_lt; lra). ring. Qed.

Lemma float_ln x : float_range x -> - 149 * ln 2 <= ln x <= 128 * ln 2.
Proof.
  intros H. pose proof (float_pos x H) as P. destruct H as [H1 H2]. split.
  - replace (- 149 * ln 2) with (ln (/ 2 ^ 149)).
    + apply ln_le; auto. apply Rinv_0_lt_compat, pow_lt. lra.
    + rewrite ln_Rinv by (apply pow_lt; lra). rewrite ln_pow2. replace (INR 149) with 149 by (rewrite INR_IZR_INZ; reflexivity). ring.
  - replace (128 * ln 2) with (ln (2 ^ 128)).
    + apply ln_le; auto.
    + rewrite ln_pow2. replace (INR 128) with 128 by (rewrite INR_IZR_INZ; reflexivity). ring.
Qed.

Lemma ln_quot x y : 0 < x -> 0 < y -> ln (x / y) = ln x - ln y.
Proof. intros. unfold Rdiv. rewrite ln_mult, ln_Rinv; auto; try ring. now apply Rinv_0_lt_compat. Qed.

Section One.
  Context (f a : R) (Hf : float_range f) (Ha : float_range a).
  Notation p := (semitones f a).

  Lemma semi_bounds : -4000 <= p <= 4000.
  Proof.
    pose proof (float_ln f Hf) as F. pose proof (float_ln a Ha) as A. pose proof ln2_pos as L.
    pose proof (float_pos f Hf). pose proof (float_pos a Ha). unfold semitones. rewrite ln_quot by auto.
    assert (Q : -277 <= (ln f - ln a) / ln 2 <= 277).
    { split; apply (Rmult_le_reg_r (ln 2)); auto; unfold Rdiv; rewrite Rmult_assoc, Rinv_l, Rmult_1_r by lra; lra. }
    lra.
  Qed.

  Lemma code_semi : 12 * (ln (f / (a / 2)) / ln 2) + 57 = p.
  Proof.
    pose proof (float_pos f Hf). pose proof (float_pos a Ha). pose proof ln2_pos. unfold semitones.
    rewrite !ln_quot by lra. field. lra.
  Qed.

  (** What is returned. *)
  Lemma pitch_value : getPitchForFrequency f a =
    let m := trunc (p + 0.00001) in let c := (p - IZR m) * 100 in
    if Rle_dec 50 c then OK ((m + 1)%Z, - (100 - c)) else OK (m, c).
  Proof.
    pose proof (float_pos f Hf) as F0. pose proof (float_pos a Ha) as A0. unfold getPitchForFrequency.
    assert (R0 : 0 < f / (a / 2)) by (apply Rmult_lt_0_compat; [auto|apply Rinv_0_lt_compat; lra]).
    rewrite (proj2 (Rltb_true _ _) R0). cbn [negb]. rewrite code_semi. unfold to_int. cbv zeta.
    pose proof semi_bounds as SB. set (m := trunc _).
    assert (M : (-5000 <= m <= 5000)%Z).
    { unfold m, trunc. destruct (Rltb (p + 0.00001) 0).
      - destruct (Zfloor_bounds (- (p + 0.00001))). set (z := Zfloor _) in *.
        assert (IZR z < IZR 4002) by lra. assert (IZR (-4002) < IZR z) by lra. apply lt_IZR in H1, H2. lia.
      - destruct (Zfloor_bounds (p + 0.00001)). set (z := Zfloor _) in *.
        assert (IZR z < IZR 4002) by lra. assert (IZR (-4002) < IZR z) by lra. apply lt_IZR in H1, H2. lia. }
    replace (((- 2 ^ 31 <=? m) && (m <? 2 ^ 31))%Z) with true; [reflexivity|].
    symmetry. apply andb_true_iff. split; [apply Z.leb_le|apply Z.ltb_lt]; lia.
  Qed.

  Theorem pitch_exact : exists m c, getPitchForFrequency f a = OK (m, c) /\
    IZR m + c / 100 = p /\ getFrequencyForPitch m c a = f.
  Proof.
    rewrite pitch_value. cbv zeta. set (m := trunc _). set (c := (p - IZR m) * 100).
    assert (HF : forall m c, IZR m + c / 100 = p -> getFrequencyForPitch m c a = f).
    { intros m' c' E. unfold getFrequencyForPitch. rewrite E. unfold semitones. pose proof ln2_pos.
      pose proof (float_pos f Hf). pose proof (float_pos a Ha).
      replace ((69 + 12 * (ln (f / a) / ln 2) - 69) / 12) with (ln (f / a) / ln 2) by (field; lra).
      unfold Rpower. replace (ln (f / a) / ln 2 * ln 2) with (ln (f / a)) by (field; lra).
      rewrite exp_ln; [field; lra|]. apply Rmult_lt_0_compat; [auto|now apply Rinv_0_lt_compat]. }
    destruct (Rle_dec 50 c).
    - assert (E : IZR (m + 1) + - (100 - c) / 100 = p) by (rewrite plus_IZR; unfold c; field).
      exists (m + 1)%Z, (- (100 - c)). auto.
    - assert (E : IZR m + c / 100 = p) by (unfold c; field). exists m, c. auto.
  Qed.

  (** The nearest semitone, from half a semitone below pitch 0. *)
  Theorem pitch_nearest : -1 / 2 <= p ->
    exists m c, getPitchForFrequency f a = OK (m, c) /\ IZR m + c / 100 = p /\ -50 <= c < 50.
  Proof.
    intros HP. rewrite pitch_value. cbv zeta. set (m := trunc _). set (c := (p - IZR m) * 100).
    assert (B : -50 <= c < 100).
    { unfold c, m, trunc. destruct (Rltb (p + 0.00001) 0) eqn:E.
      - apply Rltb_true in E. replace (Zfloor (- (p + 0.00001))) with 0%Z by (symmetry; apply Zfloor_unique; lra). cbn [Z.opp]. lra.
      - destruct (Zfloor_bounds (p + 0.00001)). lra. }
    destruct (Rle_dec 50 c).
    - exists (m + 1)%Z, (- (100 - c)). split; auto. split; [rewrite plus_IZR; unfold c; field|lra].
    - exists m, c. split; auto. split; [unfold c; field|lra].
  Qed.
End One.

Lemma semitones_freq m c a : 0 < a -> semitones (getFrequencyForPitch m c a) a = IZR m + c / 100.
Proof.
  intros Ha. pose proof ln2_pos. unfold semitones, getFrequencyForPitch.
  replace (a * Rpower 2 ((IZR m + c / 100 - 69) / 12) / a) with (Rpower 2 ((IZR m + c / 100 - 69) / 12)) by (field; lra).
  unfold Rpower. rewrite ln_exp. field. lra.
Qed.

Lemma nearest_unique m c m' c' : IZR m + c / 100 = IZR m' + c' / 100 -> -50 <= c < 50 -> -50 <= c' < 50 -> m = m' /\ c = c'.
Proof.
  intros E H H'. assert (m = m').
  { assert (IZR m < IZR (m' + 1)) by (rewrite plus_IZR; lra). assert (IZR m' < IZR (m + 1)) by (rewrite plus_IZR; lra).
    apply lt_IZR in H0, H1. lia. }
  subst. split; auto. lra.
Qed.

Theorem pitch_round_trip m c a : (0 <= m)%Z -> -50 <= c < 50 -> float_range a -> float_range (getFrequencyForPitch m c a) ->
  getPitchForFrequency (getFrequencyForPitch m c a) a = OK (m, c).
Proof.
  intros Hm Hc Ha Hf. pose proof (float_pos a Ha) as A0. pose proof (semitones_freq m c a A0) as E.
  apply IZR_le in Hm. destruct (pitch_nearest _ a Hf Ha ltac:(rewrite E; lra)) as (m' & c' & H & E' & B).
  rewrite H. rewrite E in E'. destruct (nearest_unique m' c' m c) as [-> ->]; auto.
Qed.

Lemma semitones_le f g a : 0 < f -> 0 < a -> f <= g -> semitones f a <= semitones g a.
Proof.
  intros Hf Ha H. pose proof ln2_pos as L. unfold semitones. rewrite !ln_quot by lra.
  assert (ln f <= ln g) by (apply ln_le; auto).
  assert ((ln f - ln a) / ln 2 <= (ln g - ln a) / ln 2); [|lra].
  apply Rmult_le_compat_r; [left; now apply Rinv_0_lt_compat|lra].
Qed.

Theorem pitch_monotone f g a : float_range f -> float_range g -> float_range a -> -1 / 2 <= semitones f a -> f <= g ->
  exists m c m' c', getPitchForFrequency f a = OK (m, c) /\ getPitchForFrequency g a = OK (m', c') /\ (m <= m')%Z.
Proof.
  intros Hf Hg Ha HP H. pose proof (semitones_le f g a (float_pos f Hf) (float_pos a Ha) H) as S.
  destruct (pitch_nearest f a Hf Ha HP) as (m & c & E & P & B). destruct (pitch_nearest g a Hg Ha ltac:(lra)) as (m' & c' & E' & P' & B').
  exists m, c, m', c'. split; auto. split; auto.
  assert (IZR m < IZR (m' + 1)) by (rewrite plus_IZR; lra). apply lt_IZR in H0. lia.
Qed.

Theorem pitch_octave f a : float_range f -> float_range (2 * f) -> float_range a -> -1 / 2 <= semitones f a ->
  exists m c, getPitchForFrequency f a = OK (m, c) /\ getPitchForFrequency (2 * f) a = OK ((m + 12)%Z, c).
Proof.
  intros Hf Hg Ha HP. pose proof (float_pos f Hf). pose proof (float_pos a Ha). pose proof ln2_pos.
  assert (S : semitones (2 * f) a = semitones f a + 12).
  { unfold semitones. rewrite !ln_quot, ln_mult by lra. field. lra. }
  destruct (pitch_nearest f a Hf Ha HP) as (m & c & E & P & B). destruct (pitch_nearest (2 * f) a Hg Ha ltac:(lra)) as (m' & c' & E' & P' & B').
  exists m, c. split; auto. rewrite E'. destruct (nearest_unique m' c' (m + 12) c) as [-> ->]; auto. rewrite plus_IZR. lra.
Qed.

(** Below, the truncation goes the wrong way: 75 cents below pitch 0 is reported as such. *)
Theorem pitch_negative : forall a, float_range a -> float_range (getFrequencyForPitch (-1) 25 a) ->
  getPitchForFrequency (getFrequencyForPitch (-1) 25 a) a = OK (0%Z, -75).
Proof.
  intros a Ha Hf. rewrite (pitch_value _ a Hf Ha). rewrite semitones_freq by now apply float_pos.
  assert (T : trunc (-1 + 25 / 100 + 0.00001) = 0%Z).
  { unfold trunc. replace (Rltb _ 0) with true by (symmetry; apply Rltb_true; lra).
    replace (Zfloor _) with 0%Z by (symmetry; apply Zfloor_unique; lra). reflexivity. }
  change (IZR (-1)) with (-1). rewrite T. cbv zeta. destruct (Rle_dec 50 _); [lra|]. f_equal. f_equal. lra.
Qed.
Lemma pitch_negative_case : float_range 440 /\ float_range (getFrequencyForPitch (-1) 25 440).
Proof.
  unfold float_range. assert (S : / 2 ^ 149 <= 1) by (rewrite <- Rinv_1; apply Rinv_le_contravar; [lra|apply pow_R1_Rle; lra]).
  assert (B : 440 <= 2 ^ 128).
  { eapply Rle_trans with (2 ^ 9); [cbn; lra|]. apply Rle_pow; [lra|]. lia. }
  split; [lra|]. unfold getFrequencyForPitch. change (IZR (-1)) with (-1).
  replace ((-1 + 25 / 100 - 69) / 12) with (- (5.8125)) by lra.
  assert (U : Rpower 2 (- (5.8125)) <= 1).
  { rewrite <- (Rpower_O 2) by lra. apply Rle_Rpower; lra. }
  assert (L : / 64 <= Rpower 2 (- (5.8125))).
  { replace (/ 64) with (Rpower 2 (- INR 6)) by (rewrite Rpower_Ropp, Rpower_pow by lra; f_equal; cbn; lra).
    apply Rle_Rpower; [lra|]. replace (INR 6) with 6 by (cbn; lra). lra. }
  lra.
Qed.
