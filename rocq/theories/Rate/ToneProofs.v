(** Response of recursive filters to tones. *)
From Coq Require Import List ZArith QArith Qreals Reals Lia Lra Psatz Bool.
From Verif.Base Require Import Imp Sums RealOps.
From Verif.Vocoder Require Import PvModel PvSpec PvProofs.
From Verif.Rate Require Import Df2tSpec DecimatorModel DecimatorSpec DecimatorBModel DecimatorBSpec StableSpec StableProofs StableClass ToneSpec.
Import ListNotations.
Open Scope R_scope.

Lemma zlen_zadd p q : (zlen (zadd p q) <= Z.max (zlen p) (zlen q))%Z.
Proof.
  revert q. induction p as [|x p IH]; intros q.
  - cbn [zadd]. lia.
  - destruct q as [|y q]; cbn [zadd]; [lia|]. rewrite !zlen_cons. specialize (IH q). lia.
Qed.
Lemma zlen_zmul p q : (zlen (zmul p q) <= zlen p + zlen q)%Z.
Proof.
  induction p as [|c p IH]; cbn [zmul]; [pose proof (zlen_nonneg q); rewrite zlen_nil; lia|].
  etransitivity; [apply zlen_zadd|]. rewrite zlen_map, !zlen_cons. pose proof (zlen_nonneg p). pose proof (zlen_nonneg q). lia.
Qed.

(** *** Settling *)
Section Settle.
  Context (A B C : list Z) (G : Z) (HC : dominated A B C G = true).

  Lemma dom_G : 0 <= IZR G.
  Proof.
    destruct (dom_data A B C G HC) as (h & d & ED & Hh & Hd & HG).
    assert (0 <= zabs_sum (zmul C B))%Z by (apply le_IZR; rewrite <- zabs_sum_IZR; apply rabs_sum_nonneg).
    assert (0 <= zabs_sum d)%Z by (apply le_IZR; rewrite <- zabs_sum_IZR; apply rabs_sum_nonneg).
    apply (IZR_le 0). nia.
  Qed.

  Theorem dominated_settle (u w : Z -> R) (n t0 : Z) (e K : R) : 0 <= K -> 0 <= e -> (0 <= t0)%Z ->
    (forall t, (t < n)%Z -> zapply A u t = zapply B w t) ->
    (forall t, (t0 <= t < n)%Z -> Rabs (w t) <= e) ->
    (forall t, (0 <= t < n)%Z -> Rabs (u t) <= IZR G * e + K) ->
    forall j t, (0 <= j)%Z -> (t0 + (zlen B + zlen C + zlen (zmul C A)) * (j + 1) <= t < n)%Z ->
      Rabs (u t) <= IZR G * e + K / 2 ^ Z.to_nat j.
  Proof.
    intros HK He Ht0 HE HW Hb j t Hj. revert t. pose proof dom_G as HG0.
    destruct (dom_data A B C G HC) as (h & d & ED & Hh & Hd & HG).
    assert (h0 : 0 < IZR h) by (apply IZR_lt; lia).
    set (W := (zlen B + zlen C + zlen (zmul C A))%Z).
    assert (S2 : IZR (zabs_sum d) * 2 <= IZR h) by (apply IZR_le in Hd; rewrite mult_IZR in Hd; lra).
    assert (S1 : 0 <= IZR (zabs_sum d)) by (rewrite <- zabs_sum_IZR; apply rabs_sum_nonneg).
    assert (S3 : IZR (zabs_sum (zmul C B)) <= IZR G * (IZR h - IZR (zabs_sum d))).
    { apply IZR_le in HG. rewrite mult_IZR, minus_IZR in HG. lra. }
    pose proof (zlen_nonneg B) as LB. pose proof (zlen_nonneg C) as LC. pose proof (zlen_nonneg d) as Ld.
    assert (WE : W = (zlen B + zlen C + (zlen d + 1))%Z) by (unfold W; rewrite ED, zlen_cons; reflexivity).
    clearbody W.
    assert (LCB : (zlen (zmul C B) <= zlen C + zlen B)%Z).
    { apply zlen_zmul. }
    assert (EQ : forall t, (t < n)%Z -> IZR h * u t + zapply d u (t - 1) = zapply (zmul C B) w t).
    { intros t Ht. change (IZR h * u t + zapply d u (t - 1)) with (zapply (h :: d) u t). rewrite <- ED.
      rewrite !zapply_mul. apply rapply_ext. intros s Hs. apply HE. lia. }
    sum_ind j.
    - intros t Ht. replace (K / 2 ^ Z.to_nat 0) with K by (cbn; lra). apply Hb. nia.
    - intros i Hi IH t Ht.
      assert (W0 : (0 <= W * (i + 1))%Z) by (apply Z.mul_nonneg_nonneg; lia).
      assert (W1 : (W * (i + 1 + 1) = W * (i + 1) + W)%Z) by ring.
      set (K' := K / 2 ^ Z.to_nat i) in *.
      assert (P2 : 0 < 2 ^ Z.to_nat i) by (apply pow_lt; lra).
      assert (HK' : 0 <= K') by (unfold K', Rdiv; apply Rmult_le_pos; [auto|]; left; apply Rinv_0_lt_compat; auto).
      replace (K / 2 ^ Z.to_nat (i + 1)) with (K' / 2).
      2: { unfold K'. replace (Z.to_nat (i + 1)) with (S (Z.to_nat i)) by lia. cbn [pow]. field. lra. }
      assert (GE : 0 <= IZR G * e) by (apply Rmult_le_pos; auto).
      specialize (EQ t ltac:(lia)).
      assert (B1 : Rabs (zapply d u (t - 1)) <= rabs_sum (map IZR d) * (IZR G * e + K')).
      { apply rapply_bound; [lra|]. intros s Hs. rewrite zlen_map in Hs. apply IH. lia. }
      assert (B2 : Rabs (zapply (zmul C B) w t) <= rabs_sum (map IZR (zmul C B)) * e).
      { apply rapply_bound; [lra|]. intros s Hs. rewrite zlen_map in Hs. apply HW. lia. }
      rewrite zabs_sum_IZR in B1, B2.
      assert (B3 : IZR h * Rabs (u t) <= Rabs (zapply (zmul C B) w t) + Rabs (zapply d u (t - 1))).
      { rewrite <- (Rabs_pos_eq (IZR h)) at 1 by lra. rewrite <- Rabs_mult.
        replace (IZR h * u t) with (zapply (zmul C B) w t + - zapply d u (t - 1)) by lra.
        eapply Rle_trans; [apply Rabs_triang|]. rewrite Rabs_Ropp. lra. }
      assert (B4 : IZR (zabs_sum (zmul C B)) * e <= IZR G * (IZR h - IZR (zabs_sum d)) * e) by (apply Rmult_le_compat_r; lra).
      assert (B5 : IZR (zabs_sum d) * K' <= IZR h / 2 * K') by (apply Rmult_le_compat_r; lra).
      apply (Rmult_le_reg_l (IZR h)); auto. lra.
  Qed.
End Settle.

(** *** Frequency response *)
Fixpoint fc (p : list R) (w : R) (k : nat) : R := match p with [] => 0 | c :: p => c * cos (INR k * w) + fc p w (S k) end.
Fixpoint fs (p : list R) (w : R) (k : nat) : R := match p with [] => 0 | c :: p => c * sin (INR k * w) + fs p w (S k) end.

Lemma rapply_tone p A w ph t k : rapply p (tone A w ph) (t - Z.of_nat k) =
  A * (cos (w * IZR t + ph) * fc p w k + sin (w * IZR t + ph) * fs p w k).
Proof.
  revert k. induction p as [|c p IH]; intros k; cbn [rapply fc fs]; [ring|].
  replace (t - Z.of_nat k - 1)%Z with (t - Z.of_nat (S k))%Z by lia. rewrite IH. unfold tone.
  replace (w * IZR (t - Z.of_nat k) + ph) with (w * IZR t + ph - INR k * w) by (rewrite minus_IZR, <- INR_IZR_INZ; ring).
  rewrite cos_minus. ring.
Qed.

(** Squared magnitude of the polynomial on the unit circle. *)
Definition sq (p : list Z) (w : R) : R := fc (map IZR p) w 0 * fc (map IZR p) w 0 + fs (map IZR p) w 0 * fs (map IZR p) w 0.

Lemma sq_nonneg p w : 0 <= sq p w.
Proof. unfold sq. pose proof (Rle_0_sqr (fc (map IZR p) w 0)). pose proof (Rle_0_sqr (fs (map IZR p) w 0)). unfold Rsqr in *. lra. Qed.

Lemma dominated_nonzero A B C G w : dominated A B C G = true -> 0 < sq A w.
Proof.
  intros HC. destruct (dom_data A B C G HC) as (h & d & ED & Hh & Hd & HG).
  destruct (Rle_lt_or_eq_dec _ _ (sq_nonneg A w)) as [|E]; auto. exfalso.
  assert (Z1 : fc (map IZR A) w 0 = 0 /\ fs (map IZR A) w 0 = 0).
  { unfold sq in E. pose proof (Rle_0_sqr (fc (map IZR A) w 0)) as S1. pose proof (Rle_0_sqr (fs (map IZR A) w 0)) as S2. unfold Rsqr in *.
    split; apply Rsqr_0_uniq; unfold Rsqr; lra. }
  set (v := tone 1 w 0).
  assert (V : forall t, zapply A v t = 0).
  { intros t. replace t with (t - Z.of_nat 0)%Z at 1 by lia. unfold v. rewrite rapply_tone. destruct Z1 as [-> ->]. ring. }
  assert (E0 : IZR h * v 0%Z + zapply d v (0 - 1) = 0).
  { change (IZR h * v 0%Z + zapply d v (0 - 1)) with (zapply (h :: d) v 0). rewrite <- ED, zapply_mul.
    rewrite (rapply_ext _ _ (fun _ => 0)) by (intros; apply V). rewrite zapply_const. ring. }
  assert (V0 : v 0%Z = 1) by (unfold v, tone; replace (w * 0 + 0) with 0 by ring; rewrite cos_0; ring).
  assert (B1 : Rabs (zapply d v (0 - 1)) <= rabs_sum (map IZR d) * 1).
  { apply rapply_bound; [lra|]. intros s _. unfold v, tone. rewrite Rmult_1_l. apply Rabs_le. apply COS_bound. }
  rewrite zabs_sum_IZR in B1. apply IZR_le in Hd. rewrite mult_IZR in Hd. apply IZR_lt in Hh.
  rewrite V0 in E0. replace (zapply d v (0 - 1)%Z) with (- IZR h) in B1 by lra. rewrite Rabs_Ropp, Rabs_pos_eq in B1 by lra. lra.
Qed.

(** Gain and phase at frequency w. *)
Definition gain (A B : list Z) (w : R) : R := sqrt (sq B w / sq A w).
Definition phase (A B : list Z) (w : R) : R :=
  let Ac := fc (map IZR A) w 0 in let As := fs (map IZR A) w 0 in
  let Bc := fc (map IZR B) w 0 in let Bs := fs (map IZR B) w 0 in
  atan2 ((Bc * As - Bs * Ac) / sq A w) ((Bc * Ac + Bs * As) / sq A w).

Lemma steady_tone A B w a ph t : 0 < sq A w ->
  zapply A (tone (gain A B w * a) w (ph + phase A B w)) t = zapply B (tone a w ph) t.
Proof.
  intros HA. unfold phase. cbv zeta.
  set (Ac := fc (map IZR A) w 0). set (As := fs (map IZR A) w 0). set (Bc := fc (map IZR B) w 0). set (Bs := fs (map IZR B) w 0).
  assert (ED : sq A w = Ac * Ac + As * As) by reflexivity.
  assert (EB : sq B w = Bc * Bc + Bs * Bs) by reflexivity.
  assert (Eg : gain A B w = sqrt (sq B w / sq A w)) by reflexivity.
  set (D := sq A w) in *. set (g := gain A B w) in *.
  set (P := (Bc * Ac + Bs * As) / D). set (Q := (Bc * As - Bs * Ac) / D).
  destruct (atan2_polar P Q) as (_ & HP & HQ & _). set (psi := atan2 Q P) in *.
  assert (EG : sqrt (P * P + Q * Q) = g).
  { rewrite Eg. f_equal. rewrite EB. unfold P, Q. field_simplify_eq; [|lra]. rewrite ED. ring. }
  rewrite EG in HP, HQ.
  replace t with (t - Z.of_nat 0)%Z by lia. rewrite !rapply_tone. fold Ac As Bc Bs.
  rewrite <- Rplus_assoc. set (th := w * IZR t + ph). rewrite (cos_plus th psi), (sin_plus th psi).
  transitivity (a * (cos th * (P * Ac + Q * As) + sin th * (P * As - Q * Ac))); [rewrite HP, HQ; ring|].
  replace (P * Ac + Q * As) with Bc by (unfold P, Q; field_simplify_eq; [rewrite ED; ring|lra]).
  replace (P * As - Q * Ac) with Bs by (unfold P, Q; field_simplify_eq; [rewrite ED; ring|lra]). ring.
Qed.

Lemma rapply_zero p t : rapply p (fun _ => 0) t = 0.
Proof. revert t. induction p as [|c p IH]; intros t; cbn [rapply]; [auto|]. rewrite IH. ring. Qed.
Lemma rapply_plus p f g t : rapply p (fun s => f s + g s) t = rapply p f t + rapply p g t.
Proof. revert t. induction p as [|c p IH]; intros t; cbn [rapply]; [ring|]. rewrite IH. ring. Qed.

Lemma steady_chord A B l t : (forall w, 0 < sq A w) ->
  zapply A (chord (through 1 (gain A B) (phase A B) l)) t = zapply B (chord l) t.
Proof.
  intros HA. induction l as [|[[a w] p] l IH].
  - unfold chord. cbn [through map fold_right]. now rewrite !rapply_zero.
  - change (chord (through 1 (gain A B) (phase A B) ((a, w, p) :: l))) with
      (fun t => tone (gain A B w * a) (1 * w) (p + phase A B w) t + chord (through 1 (gain A B) (phase A B) l) t).
    change (chord ((a, w, p) :: l)) with (fun t => tone a w p t + chord l t).
    rewrite !rapply_plus, IH. f_equal. rewrite Rmult_1_l. rewrite <- (steady_tone A B w a p t) by auto. reflexivity.
Qed.

(** *** Response of a table to a tone, exact or in the limit *)
Lemma halving K eps : 0 <= K -> 0 < eps -> exists j, (0 <= j)%Z /\ K / 2 ^ Z.to_nat j <= eps.
Proof.
  intros HK Heps. exists (Z.max 0 (up (K / eps))). split; [lia|].
  assert (Q1 : K / eps < IZR (up (K / eps))) by (destruct (archimed (K / eps)); lra).
  assert (Q2 : K / eps <= INR (Z.to_nat (Z.max 0 (up (K / eps))))).
  { rewrite INR_IZR_INZ, Z2Nat.id by lia. eapply Rle_trans; [left; exact Q1|]. apply IZR_le. lia. }
  set (m := Z.to_nat _) in *.
  assert (Q3 : INR m <= 2 ^ m).
  { clear. induction m as [|m IH]; [cbn; lra|]. rewrite S_INR. cbn [pow].
    assert (1 <= 2 ^ m) by (apply pow_R1_Rle; lra). lra. }
  assert (P : 0 < 2 ^ m) by (apply pow_lt; lra).
  apply (Rmult_le_reg_r (2 ^ m)); auto. unfold Rdiv. rewrite Rmult_assoc, Rinv_l, Rmult_1_r by lra.
  apply (Rmult_le_reg_r (/ eps)); [apply Rinv_0_lt_compat; auto|].
  replace (eps * 2 ^ m * / eps) with (2 ^ m) by (field; lra). unfold Rdiv in Q2. lra.
Qed.

Lemma tone_bound a w p t : Rabs (tone a w p t) <= Rabs a.
Proof.
  unfold tone. rewrite Rabs_mult. rewrite <- (Rmult_1_r (Rabs a)) at 2. apply Rmult_le_compat_l; [apply Rabs_pos|].
  apply Rabs_le, COS_bound.
Qed.

Lemma gain_nonneg A B w : 0 <= gain A B w.
Proof. apply sqrt_pos. Qed.

Lemma chord_bound l t : Rabs (chord l t) <= total l.
Proof.
  induction l as [|[[a w] p] l IH]; [unfold chord, total; cbn; rewrite Rabs_R0; lra|].
  change (chord ((a, w, p) :: l) t) with (tone a w p t + chord l t). change (total ((a, w, p) :: l)) with (Rabs a + total l).
  eapply Rle_trans; [apply Rabs_triang|]. pose proof (tone_bound a w p t). lra.
Qed.
Lemma total_nonneg l : 0 <= total l.
Proof. eapply Rle_trans; [apply Rabs_pos|apply (chord_bound l 0)]. Qed.
Lemma through_total f g s l Gm : (forall w, 0 <= g w <= Gm) -> total (through f g s l) <= Gm * total l.
Proof.
  intros H. induction l as [|[[a w] p] l IH]; [unfold total; cbn; lra|].
  change (total ((a, w, p) :: l)) with (Rabs a + total l).
  change (total (through f g s ((a, w, p) :: l))) with (Rabs (g w * a) + total (through f g s l)).
  rewrite Rabs_mult, (Rabs_pos_eq (g w)) by apply H. pose proof (H w). pose proof (Rabs_pos a).
  assert (g w * Rabs a <= Gm * Rabs a) by (apply Rmult_le_compat_r; lra). lra.
Qed.
(** Keeping every m-th sample multiplies the frequencies. *)
Lemma through_every m g s l t : chord (through 1 g s l) (m * t) = chord (through (IZR m) g s l) t.
Proof.
  induction l as [|[[a w] p] l IH]; [reflexivity|].
  change (chord (through 1 g s ((a, w, p) :: l)) (m * t)) with (tone (g w * a) (1 * w) (p + s w) (m * t) + chord (through 1 g s l) (m * t)).
  change (chord (through (IZR m) g s ((a, w, p) :: l)) t) with (tone (g w * a) (IZR m * w) (p + s w) t + chord (through (IZR m) g s l) t).
  rewrite IH. f_equal. unfold tone. rewrite mult_IZR. f_equal. f_equal. ring.
Qed.
Lemma through_through f g s f' g' s' l :
  through f' g' s' (through f g s l) = through (f' * f) (fun w => g' (f * w) * g w) (fun w => s w + s' (f * w)) l.
Proof.
  unfold through. rewrite map_map. apply map_ext. intros [[a w] p]. f_equal; [f_equal|]; ring.
Qed.

Section Tone.
  Context (b a : list Q) (n : nat) (G : Z) (HT : table_ok b a n G = true) (Hne : a <> []).
  Notation A := (map scaled a). Notation B := (map scaled b).

  Lemma table_dominated : dominated A B (cert A n) G = true.
  Proof. clear Hne. unfold table_ok in HT. repeat (apply andb_true_iff in HT as [HT ?]). auto. Qed.
  Lemma table_sq w : 0 < sq A w.
  Proof. exact (dominated_nonzero _ _ _ _ w table_dominated). Qed.

  (** The response to a signal near a sum of tones settles near the sum of the responses;
      the settling time depends only on the bounds. *)
  Theorem table_chord Am M Gm e t0 eps : 0 < eps -> 0 <= M -> 0 <= e -> 0 <= Am -> (forall w, gain A B w <= Gm) ->
    exists t1, (0 <= t1)%Z /\ forall l x y, total l <= Am -> rsp b a x y -> bounded M x -> near t0 e (chord l) x ->
      near t1 (IZR G * e + eps) (chord (through 1 (gain A B) (phase A B) l)) y.
  Proof.
    intros Heps HM He HAm Hg. pose proof table_dominated as HD. pose proof (dom_G _ _ _ _ HD) as G0.
    assert (HGm : 0 <= Gm) by (pose proof (gain_nonneg A B 0); specialize (Hg 0); lra).
    set (K := IZR G * M + Gm * Am).
    assert (HK : 0 <= K) by (unfold K; pose proof (Rmult_le_pos _ _ G0 HM); pose proof (Rmult_le_pos _ _ HGm HAm); lra).
    destruct (halving K eps HK Heps) as (j & Hj & HE).
    exists (Z.max 0 t0 + (zlen B + zlen (cert A n) + zlen (zmul (cert A n) A)) * (j + 1))%Z. split.
    { pose proof (zlen_nonneg B). pose proof (zlen_nonneg (cert A n)). pose proof (zlen_nonneg (zmul (cert A n) A)). nia. }
    intros l x y Hl HR HX HN t Htp Ht. pose proof HR as [L _].
    eapply Rle_trans.
    - apply (dominated_settle A B (cert A n) G HD (fun t => zn 0 y t - chord (through 1 (gain A B) (phase A B) l) t) (fun t => zn 0 x t - chord l t)
        (zlen x) (Z.max 0 t0) e K) with (j := j); auto; try lia.
      + intros s Hs. rewrite !rapply_minus, steady_chord by apply table_sq. f_equal. apply (table_eq b a n G HT Hne x y HR). auto.
      + intros s Hs. apply HN; lia.
      + intros s Hs. unfold Rminus. eapply Rle_trans; [apply Rabs_triang|]. rewrite Rabs_Ropp.
        assert (B1 : Rabs (zn 0 y s) <= IZR G * M).
        { apply (table_bound b a n G HT Hne x y M HR HM); [|lia]. exact HX. }
        assert (B2 : Rabs (chord (through 1 (gain A B) (phase A B) l) s) <= Gm * Am).
        { eapply Rle_trans; [apply chord_bound|]. eapply Rle_trans; [apply (through_total _ _ _ _ Gm)|].
          - intros w. split; [apply gain_nonneg|apply Hg].
          - apply Rmult_le_compat_l; auto. }
        unfold K. pose proof (Rmult_le_pos _ _ G0 He). lra.
    - lra.
  Qed.
End Tone.

Lemma every_near f y z t1 eps h h' : (1 <= f)%Z -> (0 <= t1)%Z -> every 0 f y z -> (forall t, h (f * t)%Z = h' t) ->
  near t1 eps h y -> near t1 eps h' z.
Proof.
  intros Hf Ht1 [L V] HH HN t H0 Ht. rewrite V by lia. rewrite <- HH. apply HN; [nia|].
  pose proof (zlen_nonneg y). assert (f * (zlen y / f) <= zlen y)%Z by (apply Z.mul_div_le; lia). nia.
Qed.
