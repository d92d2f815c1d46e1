(** Bounded-input bounded-output stability of recursive filters, by a checkable certificate:
    a polynomial C such that C*A is dominated by its leading coefficient. *)
From Coq Require Import List ZArith QArith Qreals Reals Lia Lra Bool Morphisms.
From Verif.Base Require Import Imp Sums RealOps.
From Verif.Rate Require Import Df2tSpec Df2tProofs DecimatorModel DecimatorSpec DecimatorBModel.
Import ListNotations.
Open Scope R_scope.

(** (p * f)(t) = sum_k p_k f(t-k). *)
Fixpoint rapply (p : list R) (f : Z -> R) (t : Z) : R :=
  match p with [] => 0 | c :: p => c * f t + rapply p f (t - 1)%Z end.

Lemma rapply_ext p f g t : (forall s, (s <= t)%Z -> f s = g s) -> rapply p f t = rapply p g t.
Proof.
  revert t. induction p as [|c p IH]; intros t H; cbn; [reflexivity|].
  rewrite H by lia. f_equal. apply IH. intros. apply H. lia.
Qed.
Lemma rapply_scal p s f t : rapply (map (Rmult s) p) f t = s * rapply p f t.
Proof. revert t. induction p as [|c p IH]; intros t; cbn; [lra|]. rewrite IH. lra. Qed.
Lemma rapply_minus p f g t : rapply p (fun s => f s - g s) t = rapply p f t - rapply p g t.
Proof. revert t. induction p as [|c p IH]; intros t; cbn; [lra|]. rewrite IH. lra. Qed.
Lemma rapply_fscal p s f t : rapply p (fun u => s * f u) t = s * rapply p f t.
Proof. revert t. induction p as [|c p IH]; intros t; cbn; [lra|]. rewrite IH. lra. Qed.

Fixpoint rabs_sum (p : list R) : R := match p with [] => 0 | c :: p => Rabs c + rabs_sum p end.
Lemma rabs_sum_nonneg p : 0 <= rabs_sum p.
Proof. induction p as [|c p IH]; cbn; [lra|]. pose proof (Rabs_pos c). lra. Qed.
Lemma rapply_bound p f t K : 0 <= K ->
  (forall s, (t - zlen p < s <= t)%Z -> Rabs (f s) <= K) -> Rabs (rapply p f t) <= rabs_sum p * K.
Proof.
  intros HK. revert t. induction p as [|c p IH]; intros t H; cbn; [rewrite Rabs_R0; lra|].
  pose proof (zlen_nonneg p). rewrite zlen_cons in H.
  pose proof (Rabs_triang (c * f t) (rapply p f (t - 1))). rewrite Rabs_mult in H1.
  specialize (IH (t - 1)%Z ltac:(intros; apply H; lia)).
  pose proof (Rabs_pos c). pose proof (H t ltac:(lia)).
  assert (Rabs c * Rabs (f t) <= Rabs c * K) by (apply Rmult_le_compat_l; lra). lra.
Qed.

(** Products of integer polynomials. *)
Fixpoint zadd (p q : list Z) : list Z :=
  match p, q with [], _ => q | _, [] => p | x :: p, y :: q => (x + y)%Z :: zadd p q end.
Fixpoint zmul (p q : list Z) : list Z :=
  match p with [] => [] | c :: p => zadd (map (Z.mul c) q) (0%Z :: zmul p q) end.
Notation zapply p := (rapply (map IZR p)).
Lemma zapply_add p q f t : zapply (zadd p q) f t = zapply p f t + zapply q f t.
Proof.
  revert q t. induction p as [|x p IH]; intros [|y q] t; cbn; try lra. rewrite IH, plus_IZR. lra.
Qed.
Lemma zapply_scale c q f t : zapply (map (Z.mul c) q) f t = IZR c * zapply q f t.
Proof. revert t. induction q as [|x q IH]; intros t; cbn; [lra|]. rewrite IH, mult_IZR. lra. Qed.
Lemma zapply_mul p q f t : zapply (zmul p q) f t = zapply p (zapply q f) t.
Proof.
  revert t. induction p as [|c p IH]; intros t; cbn [zmul map rapply]; [reflexivity|].
  rewrite zapply_add, zapply_scale. cbn [map rapply]. rewrite IH. lra.
Qed.

Fixpoint zabs_sum (p : list Z) : Z := match p with [] => 0 | c :: p => Z.abs c + zabs_sum p end%Z.
Lemma zabs_sum_IZR p : rabs_sum (map IZR p) = IZR (zabs_sum p).
Proof. induction p as [|c p IH]; cbn; [reflexivity|]. rewrite IH, plus_IZR, abs_IZR. reflexivity. Qed.
Fixpoint zsum (p : list Z) : Z := match p with [] => 0 | c :: p => c + zsum p end%Z.
Lemma zapply_const p c t : zapply p (fun _ => c) t = IZR (zsum p) * c.
Proof. revert t. induction p as [|x p IH]; intros t; cbn; [lra|]. rewrite IH, plus_IZR. lra. Qed.

(** The certificate for denominator A, numerator B: gain at most G. *)
Definition dominated (A B C : list Z) (G : Z) : bool :=
  match zmul C A with
  | [] => false
  | h :: d => (0 <? h) && (2 * zabs_sum d <=? h) && (zabs_sum (zmul C B) <=? G * (h - zabs_sum d))
  end%Z.

Section Bound.
  Context (A B C : list Z) (G : Z) (HC : dominated A B C G = true).

  Lemma dom_data : exists h d, zmul C A = h :: d /\ (0 < h)%Z /\ (2 * zabs_sum d <= h)%Z /\
    (zabs_sum (zmul C B) <= G * (h - zabs_sum d))%Z.
  Proof.
    unfold dominated in HC. destruct (zmul C A) as [|h d]; [discriminate|]. exists h, d.
    apply andb_true_iff in HC as [H1 H2]. apply andb_true_iff in H1 as [H0 H1].
    apply Z.ltb_lt in H0. apply Z.leb_le in H1. apply Z.leb_le in H2. auto.
  Qed.

  Theorem dominated_bound (x y : Z -> R) (n : Z) (M : R) : 0 <= M ->
    (forall t, (t < n)%Z -> zapply A y t = zapply B x t) ->
    (forall t, (t < 0)%Z -> y t = 0) -> (forall t, Rabs (x t) <= M) ->
    forall t, (t < n)%Z -> Rabs (y t) <= IZR G * M.
  Proof.
    intros HM HE H0 HX. destruct dom_data as (h & d & ED & Hh & Hd & HG).
    assert (h0 : 0 < IZR h) by (apply IZR_lt; lia).
    assert (EQ : forall t, (t < n)%Z -> IZR h * y t + zapply d y (t - 1) = zapply (zmul C B) x t).
    { intros t Ht. change (IZR h * y t + zapply d y (t - 1)) with (zapply (h :: d) y t). rewrite <- ED.
      rewrite !zapply_mul. apply rapply_ext. intros s Hs. apply HE. lia. }
    assert (S2 : IZR (zabs_sum d) * 2 <= IZR h).
    { apply IZR_le in Hd. rewrite mult_IZR in Hd. lra. }
    assert (S1 : 0 <= IZR (zabs_sum d)) by (rewrite <- zabs_sum_IZR; apply rabs_sum_nonneg).
    assert (S3 : IZR (zabs_sum (zmul C B)) <= IZR G * (IZR h - IZR (zabs_sum d))).
    { apply IZR_le in HG. rewrite mult_IZR, minus_IZR in HG. lra. }
    assert (S4 : 0 <= IZR (zabs_sum (zmul C B))) by (rewrite <- zabs_sum_IZR; apply rabs_sum_nonneg).
    assert (G0 : 0 <= IZR G) by nra.
    assert (K0 : 0 <= IZR G * M) by (apply Rmult_le_pos; lra).
    assert (IND : forall k, (0 <= k)%Z -> forall t, (t < k)%Z -> (t < n)%Z -> Rabs (y t) <= IZR G * M).
    { intros k Hk. sum_ind k.
      - intros t Ht _. rewrite H0 by lia. rewrite Rabs_R0. lra.
      - intros j Hj IH t Ht Htn. destruct (Z.eq_dec t j) as [->|]; [|apply IH; lia].
        specialize (EQ j Htn).
        assert (B1 : Rabs (zapply d y (j - 1)) <= rabs_sum (map IZR d) * (IZR G * M)).
        { apply rapply_bound; auto. intros s Hs. apply IH; lia. }
        assert (B2 : Rabs (zapply (zmul C B) x j) <= rabs_sum (map IZR (zmul C B)) * M).
        { apply rapply_bound; auto. }
        rewrite zabs_sum_IZR in B1, B2.
        assert (B3 : Rabs (IZR h * y j) <= Rabs (zapply (zmul C B) x j) + Rabs (zapply d y (j - 1))).
        { replace (IZR h * y j) with (zapply (zmul C B) x j + - zapply d y (j - 1)) by lra.
          eapply Rle_trans; [apply Rabs_triang|]. rewrite Rabs_Ropp. lra. }
        rewrite Rabs_mult, (Rabs_pos_eq (IZR h)) in B3 by lra.
        assert (IZR (zabs_sum (zmul C B)) * M <= IZR G * (IZR h - IZR (zabs_sum d)) * M)
          by (apply Rmult_le_compat_r; lra).
        apply (Rmult_le_reg_l (IZR h)); auto. lra. }
    intros t Ht. destruct (Z.lt_ge_cases t 0).
    - rewrite H0 by lia. rewrite Rabs_R0. lra.
    - apply (IND (t + 1)%Z); lia.
  Qed.

  (** Constant input: the output settles at the DC gain. *)
  Theorem dominated_dc (x y : Z -> R) (n : Z) (M K : R) : 0 <= K ->
    (forall t, (t < n)%Z -> zapply A y t = zapply B x t) ->
    (forall t, (0 <= t < n)%Z -> x t = M) ->
    forall v, IZR (zsum A) * v = IZR (zsum B) * M ->
    (forall t, (t < n)%Z -> Rabs (y t - v) <= K) ->
    forall j t, (0 <= j)%Z -> ((zlen B + zlen C + zlen (zmul C A)) * j <= t < n)%Z ->
      Rabs (y t - v) <= K / 2 ^ Z.to_nat j.
  Proof.
    intros HK HE HX v Hv Hb j t Hj. revert t. destruct dom_data as (h & d & ED & Hh & Hd & _).
    assert (h0 : 0 < IZR h) by (apply IZR_lt; lia).
    set (W := (zlen B + zlen C + zlen (zmul C A))%Z).
    assert (S2 : IZR (zabs_sum d) * 2 <= IZR h).
    { apply IZR_le in Hd. rewrite mult_IZR in Hd. lra. }
    assert (S1 : 0 <= IZR (zabs_sum d)) by (rewrite <- zabs_sum_IZR; apply rabs_sum_nonneg).
    pose proof (zlen_nonneg B) as LB. pose proof (zlen_nonneg C) as LC.
    assert (E0 : forall t, (zlen B <= t < n)%Z -> zapply A (fun s => y s - v) t = 0).
    { intros t Ht. rewrite rapply_minus, zapply_const, HE by lia.
      assert (EB : zapply B x t = IZR (zsum B) * M).
      { clear -HX Ht. assert (H : forall p t, (zlen p <= t + 1)%Z -> (t < n)%Z -> zapply p x t = IZR (zsum p) * M).
        { induction p as [|c p IH]; intros u H1 H2; cbn; [lra|]. pose proof (zlen_nonneg p). rewrite zlen_cons in H1.
          rewrite HX, IH by lia. rewrite plus_IZR. lra. }
        apply H; lia. }
      lra. }
    assert (E1 : forall t, (zlen B + zlen C <= t < n)%Z -> zapply (zmul C A) (fun s => y s - v) t = 0).
    { intros t Ht. rewrite zapply_mul.
      assert (H : forall p t, (zlen B + zlen p <= t + 1)%Z -> (t < n)%Z -> zapply p (zapply A (fun s => y s - v)) t = 0).
      { induction p as [|c p IH]; intros u H1 H2; cbn [map rapply]; [lra|]. pose proof (zlen_nonneg p). rewrite zlen_cons in H1.
        rewrite E0, IH by lia. lra. }
      apply H; lia. }
    pose proof (zlen_nonneg d) as Ld.
    assert (WE : W = (zlen B + zlen C + (zlen d + 1))%Z) by (unfold W; rewrite ED, zlen_cons; reflexivity).
    clearbody W. rewrite ED in E1.
    sum_ind j.
    - intros t Ht. replace (K / 2 ^ Z.to_nat 0) with K by (cbn; lra). apply Hb. lia.
    - intros i Hi IH t Ht.
      assert (WP : (W * (i + 1) = W * i + W)%Z) by ring.
      assert (W0 : (0 <= W * i)%Z) by (apply Z.mul_nonneg_nonneg; lia).
      specialize (E1 t ltac:(lia)). cbn [map rapply] in E1.
      set (K' := K / 2 ^ Z.to_nat i) in *.
      assert (P2 : 0 < 2 ^ Z.to_nat i) by (apply pow_lt; lra).
      assert (HK' : 0 <= K') by (unfold K', Rdiv; apply Rmult_le_pos; [auto|]; left; apply Rinv_0_lt_compat; auto).
      replace (K / 2 ^ Z.to_nat (i + 1)) with (K' / 2).
      2: { unfold K'. replace (Z.to_nat (i + 1)) with (S (Z.to_nat i)) by lia. cbn [pow]. field. lra. }
      assert (B1 : Rabs (zapply d (fun s => y s - v) (t - 1)) <= rabs_sum (map IZR d) * K').
      { apply rapply_bound; auto. intros s Hs. rewrite zlen_map in Hs. apply IH. lia. }
      rewrite zabs_sum_IZR in B1.
      assert (B3 : IZR h * Rabs (y t - v) = Rabs (zapply d (fun s => y s - v) (t - 1))).
      { rewrite <- (Rabs_pos_eq (IZR h)) at 1 by lra. rewrite <- Rabs_mult.
        replace (IZR h * (y t - v)) with (- zapply d (fun s => y s - v) (t - 1)) by lra. apply Rabs_Ropp. }
      apply (Rmult_le_reg_l (IZR h)); auto. rewrite B3.
      assert (IZR (zabs_sum d) * K' <= IZR h / 2 * K') by (apply Rmult_le_compat_r; lra). lra.
  Qed.
End Bound.

(** From a table of decimal literals to integers. *)
Definition SC : Z := 10 ^ 19.
Definition scaled (q : Q) : Z := (Qnum q * (SC / Zpos (Qden q)))%Z.
Definition exact (q : Q) : bool := (SC mod Zpos (Qden q) =? 0)%Z.
Lemma scaled_R q : exact q = true -> IZR (scaled q) = IZR SC * Q2R q.
Proof.
  unfold exact, scaled, Q2R. intros H. apply Z.eqb_eq in H.
  pose proof (Z.div_mod SC (Zpos (Qden q)) ltac:(discriminate)) as E. rewrite H, Z.add_0_r in E.
  rewrite E at 2. rewrite !mult_IZR. field. apply IZR_neq. discriminate.
Qed.
Lemma scaled_map l : forallb exact l = true -> map IZR (map scaled l) = map (Rmult (IZR SC)) (map Q2R l).
Proof.
  induction l as [|q l IH]; cbn [map forallb]; [reflexivity|]. intros H. apply andb_true_iff in H as [H1 H2].
  rewrite scaled_R by auto. now rewrite IH.
Qed.

Lemma contribution_rapply (cs : list (R * R)) x y t : zlen y = zlen x ->
  contribution 0 Rplus Rminus Rmult cs x y t = rapply (map fst cs) (zn 0 x) t - rapply (map snd cs) (zn 0 y) t.
Proof.
  intros HL. assert (N : forall p (w : list R) u, (u < 0)%Z -> rapply p (zn 0 w) u = 0).
  { induction p as [|c p IH]; intros w u Hu; cbn; [lra|]. rewrite IH by lia. rewrite zn_out by lia. lra. }
  revert t. induction cs as [|[b a] cs IH]; intros t; cbn [contribution map rapply fst snd].
  - destruct (t <? 0)%Z; lra.
  - destruct (Z.ltb_spec t 0).
    + rewrite !N by lia. rewrite !zn_out by lia. lra.
    + destruct cs as [|c cs]; [cbn; lra|]. rewrite IH. lra.
Qed.

Lemma response_rapply (b a : list Q) x y :
  length b = length a -> hd 0%Q a == 1%Q -> a <> [] ->
  iir_response 0 Rplus Rminus Rmult (lead Q2R b) (pairs Q2R b a) x y ->
  forall t, (t < zlen x)%Z -> rapply (map Q2R a) (zn 0 y) t = rapply (map Q2R b) (zn 0 x) t.
Proof.
  intros HL Ha Hn [L HR] t Ht. destruct a as [|a0 a]; [congruence|]. destruct b as [|b0 b]; [discriminate|].
  cbn [hd] in Ha. unfold lead, pairs in HR. cbn [hd tl] in HR.
  cbn [map rapply]. assert (E1 : Q2R a0 = 1) by (rewrite (Qeq_eqR _ _ Ha); unfold Q2R; cbn; lra).
  rewrite E1.
  assert (M1 : map fst (combine (map Q2R b) (map Q2R a)) = map Q2R b).
  { clear -HL. cbn in HL. revert a HL. induction b as [|q b IH]; intros [|p a] H; cbn in *; try lia; [reflexivity|].
    f_equal. apply IH. lia. }
  assert (M2 : map snd (combine (map Q2R b) (map Q2R a)) = map Q2R a).
  { clear -HL. cbn in HL. revert a HL. induction b as [|q b IH]; intros [|p a] H; cbn in *; try lia; [reflexivity|].
    f_equal. apply IH. lia. }
  assert (N : forall p (w : list R) u, (u < 0)%Z -> rapply p (zn 0 w) u = 0).
  { induction p as [|c p IH]; intros w u Hu; cbn; [lra|]. rewrite IH by lia. rewrite zn_out by lia. lra. }
  destruct (Z.lt_ge_cases t 0).
  - rewrite !N by lia. rewrite !zn_out by lia. lra.
  - rewrite HR by lia. rewrite contribution_rapply by auto. rewrite M1, M2. lra.
Qed.

(** The certificate polynomial: the rounded impulse response of 1/A. *)
Fixpoint zdot (p q : list Z) : Z :=
  match p, q with x :: p, y :: q => (x * y + zdot p q)%Z | _, _ => 0%Z end.
Fixpoint cert_rev (a0 : Z) (A' : list Z) (n : nat) (acc : list Z) : list Z :=
  match n with O => acc | S n => cert_rev a0 A' n (((a0 - 2 * zdot A' acc) / (2 * a0))%Z :: acc) end.
Definition cert (A : list Z) (n : nat) : list Z :=
  rev (cert_rev (hd 1%Z A) (tl A) n [(10 ^ 6)%Z]).

Definition table_ok (b a : list Q) (n : nat) (G : Z) : bool :=
  forallb exact b && forallb exact a && (length b =? length a)%nat && Qeq_bool (hd 0%Q a) 1 &&
  dominated (map scaled a) (map scaled b) (cert (map scaled a) n) G &&
  (0 <? zsum (map scaled a))%Z &&
  (1000000 * Z.abs (zsum (map scaled b) - zsum (map scaled a)) <=? zsum (map scaled a))%Z.

Section Table.
  Context (b a : list Q) (n : nat) (G : Z) (HT : table_ok b a n G = true) (Hne : a <> []).
  Notation response := (iir_response 0 Rplus Rminus Rmult (lead Q2R b) (pairs Q2R b a)).

  Lemma table_eq x y : response x y -> forall t, (t < zlen x)%Z ->
    zapply (map scaled a) (zn 0 y) t = zapply (map scaled b) (zn 0 x) t.
  Proof.
    intros HR t Ht. unfold table_ok in HT. repeat (apply andb_true_iff in HT as [HT ?]).
    rewrite !scaled_map, !rapply_scal by auto. f_equal.
    apply response_rapply; auto; [now apply Nat.eqb_eq|now apply Qeq_bool_iff].
  Qed.

  Lemma table_bound x y M : response x y -> 0 <= M -> (forall t, (0 <= t < zlen x)%Z -> Rabs (zn 0 x t) <= M) ->
    forall t, (0 <= t < zlen y)%Z -> Rabs (zn 0 y t) <= IZR G * M.
  Proof.
    intros HR HM HX t Ht. pose proof HR as [L _].
    assert (HD : dominated (map scaled a) (map scaled b) (cert (map scaled a) n) G = true).
    { unfold table_ok in HT. repeat (apply andb_true_iff in HT as [HT ?]). auto. }
    apply (dominated_bound _ _ _ _ HD (zn 0 x) (zn 0 y) (zlen x) M); auto; try lia.
    - apply table_eq; auto.
    - intros s Hs. apply zn_out. lia.
    - intros s. destruct (Z.lt_ge_cases s 0); [rewrite zn_out, Rabs_R0 by lia; auto|].
      destruct (Z.lt_ge_cases s (zlen x)); [apply HX; lia|rewrite zn_out, Rabs_R0 by lia; auto].
  Qed.

  (** From some time on (the same for all signals) the response to a constant is within
      any eps of a value that is the constant up to 1e-6. *)
  Lemma table_dc M eps : 0 < eps -> 0 <= IZR G ->
    exists t0 v, Rabs (v - M) <= Rabs M / 1000000 /\
      forall x y, response x y -> (forall t, (0 <= t < zlen x)%Z -> zn 0 x t = M) ->
      forall t, (t0 <= t < zlen y)%Z -> Rabs (zn 0 y t - v) <= eps.
  Proof.
    intros Heps HG. pose proof HT as HT'. unfold table_ok in HT'. repeat (apply andb_true_iff in HT' as [HT' ?]).
    set (A := map scaled a) in *. set (B := map scaled b) in *. set (C := cert A n) in *.
    apply Z.ltb_lt in H0. apply Z.leb_le in H.
    assert (A0 : 0 < IZR (zsum A)) by (apply IZR_lt; lia).
    set (v := IZR (zsum B) / IZR (zsum A) * M).
    set (K := IZR G * Rabs M + Rabs v).
    assert (HK : 0 <= K).
    { unfold K. pose proof (Rabs_pos v). pose proof (Rmult_le_pos (IZR G) (Rabs M) HG (Rabs_pos M)). lra. }
    assert (exists j, (0 <= j)%Z /\ K / 2 ^ Z.to_nat j <= eps) as (j & Hj & HE).
    { exists (Z.max 0 (up (K / eps))). split; [lia|].
      assert (Q1 : K / eps < IZR (up (K / eps))) by (destruct (archimed (K / eps)); lra).
      assert (Q2 : K / eps <= INR (Z.to_nat (Z.max 0 (up (K / eps))))).
      { rewrite INR_IZR_INZ, Z2Nat.id by lia. eapply Rle_trans; [left; exact Q1|]. apply IZR_le. lia. }
      set (m := Z.to_nat _) in *.
      assert (Q3 : INR m <= 2 ^ m).
      { clear. induction m as [|m IH]; [cbn; lra|]. rewrite S_INR. cbn [pow].
        assert (1 <= 2 ^ m) by (apply pow_R1_Rle; lra). lra. }
      assert (P : 0 < 2 ^ m) by (apply pow_lt; lra).
      apply (Rmult_le_reg_r (2 ^ m)); auto. unfold Rdiv. rewrite Rmult_assoc, Rinv_l, Rmult_1_r by lra.
      apply (Rmult_le_reg_r (/ eps)); [apply Rinv_0_lt_compat; auto|].
      replace (eps * 2 ^ m * / eps) with (2 ^ m) by (field; lra). unfold Rdiv in Q2. lra. }
    exists ((zlen B + zlen C + zlen (zmul C A)) * j)%Z, v. split.
    - unfold v. replace (IZR (zsum B) / IZR (zsum A) * M - M) with ((IZR (zsum B) - IZR (zsum A)) / IZR (zsum A) * M) by (field; lra).
      rewrite Rabs_mult. replace (Rabs M / 1000000) with (1 / 1000000 * Rabs M) by lra.
      apply Rmult_le_compat_r; [apply Rabs_pos|]. unfold Rdiv at 1. rewrite Rabs_mult, Rabs_inv.
      rewrite (Rabs_pos_eq (IZR (zsum A))) by lra. rewrite <- minus_IZR, <- abs_IZR.
      apply IZR_le in H. rewrite mult_IZR in H.
      apply (Rmult_le_reg_r (IZR (zsum A))); auto. rewrite Rmult_assoc, Rinv_l, Rmult_1_r by lra. lra.
    - intros x y HR HX t Ht. pose proof HR as [L _]. eapply Rle_trans; [|exact HE].
      pose proof (zlen_nonneg B). pose proof (zlen_nonneg C). pose proof (zlen_nonneg (zmul C A)).
      apply (dominated_dc A B C G H1 (zn 0 x) (zn 0 y) (zlen x) M K HK); auto; try lia.
      + intros s Hs. apply table_eq; auto.
      + unfold v. field. lra.
      + intros s Hs. unfold K, Rminus. eapply Rle_trans; [apply Rabs_triang|]. rewrite Rabs_Ropp.
        apply Rplus_le_compat_r. destruct (Z.lt_ge_cases s 0).
        * rewrite zn_out by lia. rewrite Rabs_R0. apply Rmult_le_pos; [auto|apply Rabs_pos].
        * apply (table_bound x y (Rabs M) HR (Rabs_pos M)); [|lia]. intros u Hu. rewrite HX by auto. lra.
  Qed.
End Table.

Lemma ok_8 : table_ok b_8 a_8 1100 3 = true. Proof. vm_compute. reflexivity. Qed.
Lemma ok_4 : table_ok b_4 a_4 400 3 = true. Proof. vm_compute. reflexivity. Qed.
Lemma ok_2 : table_ok b_2 a_2 200 3 = true. Proof. vm_compute. reflexivity. Qed.
Lemma ok_1 : table_ok b_1 a_1 1 3 = true. Proof. vm_compute. reflexivity. Qed.
Lemma ok_w : table_ok bw_b bw_a 20 2 = true. Proof. vm_compute. reflexivity. Qed.

Lemma coefficients_ok f : let '(b, a) := coefficients f in exists n, table_ok b a n 3 = true /\ a <> [].
Proof.
  unfold coefficients. destruct (f =? 8)%Z; [eexists; split; [exact ok_8|discriminate]|].
  destruct (f =? 4)%Z; [eexists; split; [exact ok_4|discriminate]|].
  destruct (f =? 2)%Z; [eexists; split; [exact ok_2|discriminate]|].
  eexists; split; [exact ok_1|discriminate].
Qed.
