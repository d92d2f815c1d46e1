(** Magnitude bounds of filter responses over frequency bands: the squared magnitude is a
    polynomial in the cosine of the frequency, and a subdivision check decides its sign. *)
From Coq Require Import List ZArith QArith Qreals Reals Lia Lra Psatz Bool.
From Verif.Base Require Import Imp Sums RealOps.
From Verif.Rate Require Import StableProofs ToneSpec ToneProofs.
Import ListNotations.
Open Scope R_scope.

Fixpoint peval (p : list Z) (x : R) : R := match p with [] => 0 | c :: p => IZR c + x * peval p x end.

Lemma peval_add p q x : peval (zadd p q) x = peval p x + peval q x.
Proof. revert q. induction p as [|c p IH]; intros [|d q]; cbn; try lra. rewrite plus_IZR, IH. ring. Qed.
Lemma peval_scale k p x : peval (map (Z.mul k) p) x = IZR k * peval p x.
Proof. induction p as [|c p IH]; cbn; [ring|]. rewrite mult_IZR, IH. ring. Qed.
Lemma peval_mul p q x : peval (zmul p q) x = peval p x * peval q x.
Proof. induction p as [|c p IH]; cbn [zmul peval]; [ring|]. rewrite peval_add, peval_scale. cbn [peval]. rewrite IH. ring. Qed.

Fixpoint shift (L : Z) (p : list Z) : list Z :=
  match p with [] => [] | c :: p => let q := shift L p in zadd (c :: q) (map (Z.mul L) q) end.
Lemma peval_shift L p y : peval (shift L p) y = peval p (IZR L + y).
Proof. induction p as [|c p IH]; cbn [shift peval]; [reflexivity|]. rewrite peval_add, peval_scale. cbn [peval]. rewrite IH. ring. Qed.

Fixpoint stretch (w : Z) (p : list Z) : list Z := match p with [] => [] | c :: p => c :: map (Z.mul w) (stretch w p) end.
Lemma peval_stretch w p y : peval (stretch w p) y = peval p (IZR w * y).
Proof. induction p as [|c p IH]; cbn [stretch peval]; [reflexivity|]. rewrite peval_scale, IH. ring. Qed.

Fixpoint pscale (s : Z) (p : list Z) : list Z := match p with [] => [] | c :: p => (c * s ^ Z.of_nat (length p))%Z :: pscale s p end.
Lemma peval_pscale s p x : IZR s * peval (pscale s p) (IZR s * x) = IZR s ^ length p * peval p x.
Proof.
  induction p as [|c p IH]; cbn [pscale peval length]; [ring|].
  rewrite mult_IZR, <- pow_IZR. cbn [pow].
  transitivity (IZR s * (IZR c * IZR s ^ length p) + IZR s * x * (IZR s * peval (pscale s p) (IZR s * x))); [ring|]. rewrite IH. ring.
Qed.

(** A lower bound on [0,1]. *)
Fixpoint ulb (q : list Z) : Z := match q with [] => 0%Z | c :: q => (c + Z.min 0 (ulb q))%Z end.
Lemma ulb_ok q y : 0 <= y <= 1 -> IZR (ulb q) <= peval q y.
Proof.
  intros Hy. induction q as [|c q IH]; cbn [ulb peval]; [lra|]. rewrite plus_IZR.
  assert (IZR (Z.min 0 (ulb q)) <= y * IZR (ulb q)).
  { destruct (Z.min_spec 0 (ulb q)) as [[H ->]|[H ->]].
    - apply IZR_lt in H. apply Rmult_le_pos; lra.
    - apply IZR_le in H. nra. }
  assert (y * IZR (ulb q) <= y * peval q y) by (apply Rmult_le_compat_l; lra). lra.
Qed.

(** Left half of the unit interval, coefficients rounded down. *)
Fixpoint halve (q : list Z) (d : Z) : list Z := match q with [] => [] | c :: q => (c / d)%Z :: halve q (2 * d) end.
Lemma halve_ok q d y : (0 < d)%Z -> 0 <= y -> IZR d * peval (halve q d) y <= peval q (y / 2).
Proof.
  intros Hd Hy. revert d Hd. induction q as [|c q IH]; intros d Hd; cbn [halve peval]; [lra|].
  specialize (IH (2 * d)%Z ltac:(lia)). rewrite mult_IZR in IH.
  assert (IZR d * IZR (c / d) <= IZR c) by (rewrite <- mult_IZR; apply IZR_le, Z.mul_div_le; auto).
  assert (y / 2 * (2 * IZR d * peval (halve q (2 * d)) y) <= y / 2 * peval q (y / 2)) by (apply Rmult_le_compat_l; lra). lra.
Qed.

Fixpoint pos_unit (fuel : nat) (q : list Z) : bool :=
  if (0 <=? ulb q)%Z then true
  else match fuel with O => false | S fuel => let l := halve q 1 in if pos_unit fuel l then pos_unit fuel (shift 1 l) else false end.

Lemma pos_unit_ok fuel q : pos_unit fuel q = true -> forall y, 0 <= y <= 1 -> 0 <= peval q y.
Proof.
  revert q. induction fuel as [|fuel IH]; intros q; cbn [pos_unit]; destruct (Z.leb_spec 0 (ulb q)) as [H|H]; intros E y Hy.
  1, 3: apply IZR_le in H; pose proof (ulb_ok q y Hy); lra.
  - discriminate.
  - destruct (pos_unit fuel (halve q 1)) eqn:E1; [|discriminate]. specialize (IH _ E) as IH2. specialize (IH _ E1).
    destruct (Rle_lt_dec y (1 / 2)).
    + pose proof (halve_ok q 1 (2 * y) ltac:(lia) ltac:(lra)) as HH. replace (2 * y / 2) with y in HH by field.
      specialize (IH (2 * y) ltac:(lra)). lra.
    + pose proof (halve_ok q 1 (2 * y) ltac:(lia) ltac:(lra)) as HH. replace (2 * y / 2) with y in HH by field.
      specialize (IH2 (2 * y - 1) ltac:(lra)). rewrite peval_shift in IH2.
      replace (1 + (2 * y - 1)) with (2 * y) in IH2 by ring. lra.
Qed.

(** The sign on [L/S, U/S]. *)
Definition pos_on (S L U : Z) (p : list Z) : bool :=
  (0 <? S)%Z && (L <? U)%Z && pos_unit 40 (stretch (U - L) (shift L (pscale S p))).
Theorem pos_on_ok S L U p x : pos_on S L U p = true -> IZR L <= IZR S * x <= IZR U -> 0 <= peval p x.
Proof.
  unfold pos_on. rewrite !andb_true_iff, !Z.ltb_lt. intros [[HS HL] HP] Hx. apply IZR_lt in HS, HL.
  assert (W : 0 < IZR U - IZR L) by lra.
  assert (Y : 0 <= (IZR S * x - IZR L) / (IZR U - IZR L) <= 1).
  { split; [apply Rmult_le_pos; [lra|left; apply Rinv_0_lt_compat; auto]|].
    apply (Rmult_le_reg_r (IZR U - IZR L)); auto. unfold Rdiv. rewrite Rmult_assoc, Rinv_l by lra. lra. }
  pose proof (pos_unit_ok _ _ HP _ Y) as Q. rewrite peval_stretch, peval_shift, minus_IZR in Q.
  replace (IZR L + (IZR U - IZR L) * ((IZR S * x - IZR L) / (IZR U - IZR L))) with (IZR S * x) in Q by (field; lra).
  pose proof (peval_pscale S p x) as E.
  assert (P : 0 < IZR S ^ length p) by (apply pow_lt; auto).
  apply (Rmult_le_reg_l (IZR S ^ length p)); auto. rewrite Rmult_0_r, <- E. apply Rmult_le_pos; lra.
Qed.

(** *** Chebyshev form *)
Fixpoint cheb (p t0 t1 : list Z) : list Z :=
  match p with
  | [] => []
  | c :: p => zadd (map (Z.mul c) t0) (cheb p t1 (zadd (0%Z :: map (Z.mul 2) t1) (map (Z.mul (-1)) t0)))
  end.

Lemma cheb_cos p t0 t1 w k : peval t0 (cos w) = cos (INR k * w) -> peval t1 (cos w) = cos (INR (S k) * w) ->
  peval (cheb p t0 t1) (cos w) = fc (map IZR p) w k.
Proof.
  revert t0 t1 k. induction p as [|c p IH]; intros t0 t1 k H0 H1; [reflexivity|].
  cbn [cheb map fc]. rewrite peval_add, peval_scale, H0. f_equal. apply IH; auto.
  rewrite peval_add. cbn [peval]. rewrite !peval_scale, H0, H1.
  replace (INR (S (S k)) * w) with (INR (S k) * w + w) by (rewrite (S_INR (S k)); ring).
  replace (INR k * w) with (INR (S k) * w - w) by (rewrite S_INR; ring). rewrite cos_plus, cos_minus. ring.
Qed.
Lemma cheb_sin p t0 t1 w k : peval t0 (cos w) * sin w = sin (INR k * w) -> peval t1 (cos w) * sin w = sin (INR (S k) * w) ->
  peval (cheb p t0 t1) (cos w) * sin w = fs (map IZR p) w k.
Proof.
  revert t0 t1 k. induction p as [|c p IH]; intros t0 t1 k H0 H1; [cbn; ring|].
  cbn [cheb map fs]. rewrite peval_add, peval_scale, Rmult_plus_distr_r, Rmult_assoc, H0. f_equal. apply IH; auto.
  rewrite peval_add. cbn [peval]. rewrite !peval_scale.
  transitivity (2 * cos w * (peval t1 (cos w) * sin w) - peval t0 (cos w) * sin w); [ring|]. rewrite H0, H1.
  replace (INR (S (S k)) * w) with (INR (S k) * w + w) by (rewrite (S_INR (S k)); ring).
  replace (INR k * w) with (INR (S k) * w - w) by (rewrite S_INR; ring). rewrite sin_plus, sin_minus. ring.
Qed.

Definition sqm (p : list Z) : list Z :=
  let t := cheb p [1%Z] [0; 1]%Z in let u := cheb p [] [1%Z] in zadd (zmul t t) (zmul [1; 0; -1]%Z (zmul u u)).
Lemma sqm_ok p w : peval (sqm p) (cos w) = sq p w.
Proof.
  unfold sqm, sq. rewrite peval_add, !peval_mul. cbn [peval].
  rewrite <- (cheb_cos p [1%Z] [0; 1]%Z w 0), <- (cheb_sin p [] [1%Z] w 0).
  - set (T := peval _ _). set (U := peval _ _).
    assert (E : cos w * cos w = 1 - sin w * sin w) by (pose proof (sin2_cos2 w) as E; unfold Rsqr in E; lra).
    transitivity (T * T + (1 - cos w * cos w) * (U * U)); [ring|]. rewrite E. ring.
  - cbn [peval]. replace (INR 0 * w) with 0 by (cbn; ring). rewrite sin_0. ring.
  - cbn [peval]. replace (INR 1 * w) with w by (cbn; ring). ring.
  - cbn [peval]. replace (INR 0 * w) with 0 by (cbn; ring). rewrite cos_0. ring.
  - cbn [peval]. replace (INR 1 * w) with w by (cbn; ring). ring.
Qed.

(** *** Bounds on the gain *)
Definition diff (m : Z) (p : list Z) (n : Z) (q : list Z) : list Z := zadd (map (Z.mul m) (sqm p)) (map (Z.mul (- n)) (sqm q)).
Lemma diff_ok m p n q w : peval (diff m p n q) (cos w) = IZR m * sq p w - IZR n * sq q w.
Proof. unfold diff. rewrite peval_add, !peval_scale, !sqm_ok, opp_IZR. ring. Qed.

(** |B/A| <= m/n, |B/A| >= m/n. *)
Definition gain_le (A B : list Z) (m n S L U : Z) : bool := (0 <=? m)%Z && (0 <? n)%Z && pos_on S L U (diff (m * m) A (n * n) B).
Definition gain_ge (A B : list Z) (m n S L U : Z) : bool := (0 <=? m)%Z && (0 <? n)%Z && pos_on S L U (diff (n * n) B (m * m) A).

Theorem gain_le_ok A B m n S L U w : 0 < sq A w -> gain_le A B m n S L U = true ->
  IZR L <= IZR S * cos w <= IZR U -> gain A B w <= IZR m / IZR n.
Proof.
  unfold gain_le. rewrite !andb_true_iff, Z.leb_le, Z.ltb_lt. intros HA [[Hm Hn] HP] Hw.
  apply IZR_le in Hm. apply IZR_lt in Hn.
  pose proof (pos_on_ok _ _ _ _ _ HP Hw) as Q. rewrite diff_ok, !mult_IZR in Q.
  assert (M0 : 0 <= IZR m / IZR n) by (apply Rmult_le_pos; [lra|left; apply Rinv_0_lt_compat; auto]).
  rewrite <- (sqrt_square _ M0). apply sqrt_le_1_alt.
  apply (Rmult_le_reg_r (sq A w * (IZR n * IZR n))); [apply Rmult_lt_0_compat; [auto|apply Rmult_lt_0_compat; auto]|].
  replace (sq B w / sq A w * (sq A w * (IZR n * IZR n))) with (IZR n * IZR n * sq B w) by (field; lra).
  replace (IZR m / IZR n * (IZR m / IZR n) * (sq A w * (IZR n * IZR n))) with (IZR m * IZR m * sq A w) by (field; lra). lra.
Qed.
Theorem gain_ge_ok A B m n S L U w : 0 < sq A w -> gain_ge A B m n S L U = true ->
  IZR L <= IZR S * cos w <= IZR U -> IZR m / IZR n <= gain A B w.
Proof.
  unfold gain_ge. rewrite !andb_true_iff, Z.leb_le, Z.ltb_lt. intros HA [[Hm Hn] HP] Hw.
  apply IZR_le in Hm. apply IZR_lt in Hn.
  pose proof (pos_on_ok _ _ _ _ _ HP Hw) as Q. rewrite diff_ok, !mult_IZR in Q.
  assert (M0 : 0 <= IZR m / IZR n) by (apply Rmult_le_pos; [lra|left; apply Rinv_0_lt_compat; auto]).
  rewrite <- (sqrt_square _ M0). apply sqrt_le_1_alt.
  apply (Rmult_le_reg_r (sq A w * (IZR n * IZR n))); [apply Rmult_lt_0_compat; [auto|apply Rmult_lt_0_compat; auto]|].
  replace (sq B w / sq A w * (sq A w * (IZR n * IZR n))) with (IZR n * IZR n * sq B w) by (field; lra).
  replace (IZR m / IZR n * (IZR m / IZR n) * (sq A w * (IZR n * IZR n))) with (IZR m * IZR m * sq A w) by (field; lra). lra.
Qed.
