(** Analysis followed by synthesis. *)
From Coq Require Import List ZArith Reals Lia Lra Bool Psatz.
From Verif.Base Require Import Imp Sums RealOps Loops.
From Verif.Wavelet Require Import WaveletSpec.
Import ListNotations.
Open Scope R_scope.

Definition sg (j : Z) : R := if Z.even j then 1 else -1.
Lemma sg_sq j : sg j * sg j = 1.
Proof. unfold sg. destruct (Z.even j); ring. Qed.

(** Sums of functions that vanish outside their range. *)
Lemma rsum_extend n m f : (0 <= n <= m)%Z -> (forall i, (n <= i < m)%Z -> f i = 0) -> rsum m f = rsum n f.
Proof.
  intros H Z. replace m with (n + (m - n))%Z by lia. rewrite rsum_split by lia.
  rewrite (rsum_zero (m - n)); [ring|]. intros i Hi. apply Z. lia.
Qed.
Lemma rsum_shift n m s f : (0 <= s)%Z -> (0 <= n)%Z -> (s + n <= m)%Z -> (forall i, (i < 0)%Z \/ (n <= i)%Z -> f i = 0) ->
  rsum m (fun d => f (d - s)%Z) = rsum n f.
Proof.
  intros Hs Hn Hm Z. replace m with (s + (m - s))%Z by lia. rewrite rsum_split by lia.
  rewrite (rsum_zero s) by (intros i Hi; apply Z; lia).
  rewrite (rsum_ext (m - s) _ f) by (intros i Hi; f_equal; lia).
  rewrite (rsum_extend n (m - s)) by (lia || (intros i Hi; apply Z; lia)). ring.
Qed.
Lemma rsum_same n m f : (0 <= n)%Z -> (0 <= m)%Z -> (forall i, (n <= i)%Z -> f i = 0) -> (forall i, (m <= i)%Z -> f i = 0) -> rsum n f = rsum m f.
Proof.
  intros Hn Hm Z1 Z2. destruct (Z.le_ge_cases n m).
  - symmetry. apply rsum_extend; [lia|]. intros. apply Z1. lia.
  - apply rsum_extend; [lia|]. intros. apply Z2. lia.
Qed.
Lemma rsum_even n f : (0 <= n)%Z -> rsum (2 * n) (fun t => if Z.even t then f t else 0) = rsum n (fun k => f (2 * k)%Z).
Proof.
  revert n. apply natlike_ind.
  - cbv beta. now rewrite !rsum_0 by lia.
  - intros k Hk IH. cbv beta in *. replace (2 * Z.succ k)%Z with (2 * k + 1 + 1)%Z by lia. unfold Z.succ. rewrite !rsum_S, IH by lia.
    replace (Z.even (2 * k)) with true by (rewrite Z.even_mul; reflexivity).
    replace (Z.even (2 * k + 1)) with false by (rewrite Z.even_add, Z.even_mul; reflexivity). ring.
Qed.

Section Bank.
  Variables (l h : list R) (n : Z).
  Hypothesis Ll : zlen l = n.
  Hypothesis Lh : zlen h = n.
  Notation tl i := (zn 0 l i).
  Notation th i := (zn 0 h i).
  Lemma tl_out i : (i < 0)%Z \/ (n <= i)%Z -> tl i = 0.
  Proof. intros H. apply zn_out. lia. Qed.
  Lemma th_out i : (i < 0)%Z \/ (n <= i)%Z -> th i = 0.
  Proof. intros H. apply zn_out. lia. Qed.
  Lemma n_nonneg : (0 <= n)%Z.
  Proof. rewrite <- Ll. apply zlen_nonneg. Qed.

  Definition syn0 : list R := ztab n (fun j => - (sg j * th j)).
  Definition syn1 : list R := ztab n (fun j => sg j * tl j).
  Lemma syn0_at j : zn 0 syn0 j = - (sg j * th j).
  Proof.
    pose proof n_nonneg. destruct (Z_lt_ge_dec j 0) as [L|L]; [|destruct (Z_lt_ge_dec j n) as [L'|L']].
    - rewrite th_out by lia. rewrite zn_out; [ring|]. lia.
    - unfold syn0. now rewrite zn_ztab by lia.
    - rewrite th_out by lia. rewrite zn_out; [ring|]. unfold syn0. rewrite zlen_ztab. lia.
  Qed.
  Lemma syn1_at j : zn 0 syn1 j = sg j * tl j.
  Proof.
    pose proof n_nonneg. destruct (Z_lt_ge_dec j 0) as [L|L]; [|destruct (Z_lt_ge_dec j n) as [L'|L']].
    - rewrite tl_out by lia. rewrite zn_out; [ring|]. lia.
    - unfold syn1. now rewrite zn_ztab by lia.
    - rewrite tl_out by lia. rewrite zn_out; [ring|]. unfold syn1. rewrite zlen_ztab. lia.
  Qed.

  (** What one branch contributes at lag d. *)
  Lemma branch g c x t : zlen g = n -> zlen c = n ->
    synthesised g (analysed c x) t = rsum (2 * n) (fun d => x (t - d)%Z * rsum n (fun j => if Z.even (t - j) then zn 0 g j * zn 0 c (d - j) else 0)).
  Proof.
    intros Hg Hc. pose proof n_nonneg. unfold synthesised. rewrite Hg.
    rewrite (rsum_ext n _ (fun j => rsum (2 * n) (fun d => x (t - d)%Z * (if Z.even (t - j) then zn 0 g j * zn 0 c (d - j) else 0)))).
    - rewrite rsum_swap. apply rsum_ext. intros d Hd. now rewrite rsum_scal.
    - intros j Hj. destruct (Z.even (t - j)) eqn:E.
      + unfold analysed. rewrite Hc. rewrite <- rsum_scal.
        rewrite <- (rsum_shift n (2 * n) j (fun i => zn 0 g j * (zn 0 c i * x (2 * ((t - j) / 2) - i)%Z))); try lia.
        * apply rsum_ext. intros d Hd. assert (Q : (2 * ((t - j) / 2) = t - j)%Z).
          { rewrite Zeven_mod in E. apply Zeq_bool_eq in E. pose proof (Z.div_mod (t - j) 2 ltac:(lia)). lia. }
          rewrite Q. replace (t - j - (d - j))%Z with (t - d)%Z by lia. ring.
        * intros i Hi. rewrite (zn_out 0 c i) by lia. ring.
      + symmetry. apply rsum_zero. intros. ring.
  Qed.

  Definition lag (d : Z) : R := - rsum n (fun j => sg j * th j * tl (d - j)).
  Lemma conv_sym (e : Z -> R) d : (0 <= d)%Z -> rsum n (fun j => e j * (tl j * th (d - j))) = rsum n (fun j => e (d - j)%Z * (th j * tl (d - j))).
  Proof.
    intros Hd. pose proof n_nonneg.
    rewrite (rsum_same n (d + 1)) by (first [lia | intros i Hi; rewrite tl_out by lia; ring | intros i Hi; rewrite th_out by lia; ring]).
    rewrite (rsum_same n (d + 1) (fun j => e (d - j)%Z * (th j * tl (d - j)))) by (first [lia | intros i Hi; rewrite tl_out by lia; ring | intros i Hi; rewrite th_out by lia; ring]).
    rewrite <- (rsum_rev (d + 1)). apply rsum_ext. intros i Hi. replace (d + 1 - 1 - i)%Z with (d - i)%Z by lia.
    replace (d - (d - i))%Z with i by lia. ring.
  Qed.
  Lemma sg_shift t j : Z.even (t - j) = true -> sg j = sg t.
  Proof. intros E. rewrite Z.even_sub in E. unfold sg. destruct (Z.even t), (Z.even j); auto; discriminate. Qed.

  Theorem reconstruction x t :
    synthesised syn0 (analysed l x) t + synthesised syn1 (analysed h x) t = rsum (2 * n) (fun d => if Z.odd d then lag d * x (t - d)%Z else 0).
  Proof.
    pose proof n_nonneg. rewrite !branch by (unfold syn0, syn1; rewrite ?zlen_ztab; lia). rewrite <- rsum_plus. apply rsum_ext. intros d Hd.
    set (ev := fun j => if Z.even (t - j) then 1 else 0).
    assert (A : rsum n (fun j => if Z.even (t - j) then zn 0 syn0 j * tl (d - j) else 0) = - sg t * rsum n (fun j => ev j * (th j * tl (d - j)))).
    { rewrite <- rsum_scal. apply rsum_ext. intros j Hj. unfold ev. destruct (Z.even (t - j)) eqn:E; [|ring]. rewrite syn0_at, (sg_shift t j E). ring. }
    assert (B : rsum n (fun j => if Z.even (t - j) then zn 0 syn1 j * th (d - j) else 0) = sg t * rsum n (fun j => ev (d - j)%Z * (th j * tl (d - j)))).
    { rewrite <- (conv_sym ev d) by lia. rewrite <- rsum_scal. apply rsum_ext. intros j Hj. unfold ev. destruct (Z.even (t - j)) eqn:E; [|ring]. rewrite syn1_at, (sg_shift t j E). ring. }
    rewrite A, B. destruct (Z.odd d) eqn:O.
    - assert (C : sg t * rsum n (fun j => ev (d - j)%Z * (th j * tl (d - j))) = sg t * rsum n (fun j => ev j * (th j * tl (d - j))) + lag d).
      { unfold lag. rewrite <- !rsum_scal. rewrite <- (Ropp_involutive (rsum n _ + _)).
        replace (- - (rsum n (fun j => sg t * (ev j * (th j * tl (d - j)))) + - rsum n (fun j => sg j * th j * tl (d - j))))
          with (rsum n (fun j => sg t * (ev j * (th j * tl (d - j)))) - rsum n (fun j => sg j * th j * tl (d - j))) by ring.
        rewrite <- rsum_minus. apply rsum_ext. intros j Hj. unfold ev.
        assert (E : Z.even (t - (d - j)) = negb (Z.even (t - j))).
        { rewrite !Z.even_sub. rewrite <- Z.negb_odd in *. rewrite <- !Z.negb_odd. rewrite O. destruct (Z.odd t), (Z.odd j); reflexivity. }
        rewrite E. destruct (Z.even (t - j)) eqn:F; cbn [negb].
        - rewrite (sg_shift t j F). ring.
        - assert (sg j = - sg t). { rewrite Z.even_sub in F. unfold sg. destruct (Z.even t), (Z.even j); try discriminate; ring. }
          rewrite H0. ring. }
      rewrite C. ring.
    - assert (C : rsum n (fun j => ev (d - j)%Z * (th j * tl (d - j))) = rsum n (fun j => ev j * (th j * tl (d - j)))).
      { apply rsum_ext. intros j Hj. unfold ev. assert (E : Z.even (t - (d - j)) = Z.even (t - j)).
        { rewrite !Z.even_sub. rewrite <- !Z.negb_odd. rewrite O. destruct (Z.odd t), (Z.odd j); reflexivity. }
        now rewrite E. }
      rewrite C. ring.
  Qed.

  Definition defect : R := rsum (2 * n) (fun d => if Z.odd d then Rabs (lag d - (if (d =? n - 1)%Z then 1 else 0)) else 0).
  Hypothesis Hev : Z.even n = true.
  Hypothesis Hpos : (1 <= n)%Z.
  Lemma pick f : rsum (2 * n) (fun d => if Z.odd d then (if (d =? n - 1)%Z then 1 else 0) * f d else 0) = f (n - 1)%Z.
  Proof.
    assert (O : Z.odd (n - 1) = true) by (rewrite Z.odd_sub, <- Z.negb_even, Hev; reflexivity).
    replace (2 * n)%Z with ((n - 1) + (n + 1))%Z by lia. rewrite rsum_split by lia.
    rewrite (rsum_zero (n - 1)) by (intros i Hi; cbv beta; destruct (Z.odd i), (Z.eqb_spec i (n - 1)); first [lia|ring]).
    rewrite rsum_first by lia. rewrite rsum_zero.
    - rewrite Z.add_0_r, O, Z.eqb_refl. ring.
    - intros i Hi. cbv beta. destruct (Z.odd (n - 1 + (i + 1))), (Z.eqb_spec (n - 1 + (i + 1)) (n - 1)); first [lia|ring].
  Qed.
  Lemma residue x t : synthesised syn0 (analysed l x) t + synthesised syn1 (analysed h x) t - x (t - (n - 1))%Z =
    rsum (2 * n) (fun d => if Z.odd d then (lag d - (if (d =? n - 1)%Z then 1 else 0)) * x (t - d)%Z else 0).
  Proof.
    rewrite reconstruction. rewrite <- (pick (fun d => x (t - d)%Z)). rewrite <- rsum_minus. apply rsum_ext. intros d Hd. destruct (Z.odd d); ring.
  Qed.
  Theorem recovered : recovers defect l h.
  Proof.
    exists syn0, syn1. pose proof n_nonneg. split; [unfold syn0; rewrite zlen_ztab; lia|]. split; [unfold syn1; rewrite zlen_ztab; lia|].
    intros x B HB t. rewrite Ll, residue. eapply Rle_trans; [apply rsum_abs|]. unfold defect. rewrite Rmult_comm, <- rsum_scal. apply rsum_le. intros d Hd.
    destruct (Z.odd d); [|rewrite Rabs_R0; lra]. rewrite Rabs_mult, Rmult_comm. apply Rmult_le_compat_r; [apply Rabs_pos|apply HB].
  Qed.

  (** Where the high-pass filter is the low-pass one, reversed with alternating signs. *)
  Hypothesis Mirror : forall j, (0 <= j < n)%Z -> th j = - (sg j * tl (n - 1 - j)).
  Lemma sg_mirror j : sg (n - 1 - j) = - sg j.
  Proof.
    unfold sg. rewrite !Z.even_sub, Hev. change (Z.even 1) with false. destruct (Z.even j); cbn; ring.
  Qed.
  (** The adjoint of analysis. *)
  Lemma adjoint c g x u L M : zlen c = n -> zlen g = n -> (forall j, (0 <= j < n)%Z -> zn 0 g j = zn 0 c (n - 1 - j)) ->
    (0 <= L)%Z -> (L + n <= 2 * M)%Z -> (forall t, (t < 0)%Z \/ (L <= t)%Z -> x t = 0) ->
    rsum M (fun k => analysed c x k * u k) = rsum L (fun s => x s * synthesised g u (s + (n - 1))).
  Proof.
    intros Hc Hg R HL HM Z. pose proof n_nonneg.
    assert (A : forall k, (0 <= k)%Z -> analysed c x k = rsum L (fun s => zn 0 c (2 * k - s) * x s)).
    { intros k Hk. unfold analysed. rewrite Hc.
      rewrite (rsum_same n (2 * k + 1)); try lia.
      - rewrite (rsum_same L (2 * k + 1)); try lia.
        + rewrite <- (rsum_rev (2 * k + 1)). apply rsum_ext. intros i Hi. replace (2 * k + 1 - 1 - i)%Z with (2 * k - i)%Z by lia.
          replace (2 * k - (2 * k - i))%Z with i by lia. reflexivity.
        + intros i Hi. rewrite Z by lia. ring.
        + intros i Hi. rewrite zn_out by lia. ring.
      - intros i Hi. rewrite zn_out by lia. ring.
      - intros i Hi. rewrite Z by lia. ring. }
    rewrite (rsum_ext M _ (fun k => rsum L (fun s => x s * (zn 0 c (2 * k - s) * u k)))).
    2: { intros k Hk. rewrite A by lia. rewrite Rmult_comm, <- rsum_scal. apply rsum_ext. intros. ring. }
    rewrite rsum_swap. apply rsum_ext. intros s Hs. rewrite rsum_scal. f_equal.
    rewrite (rsum_ext M _ (fun k => zn 0 c (2 * k - s) * u (2 * k / 2)%Z)).
    2: { intros k Hk. assert (Q : (2 * k / 2 = k)%Z) by (rewrite Z.mul_comm; apply Z.div_mul; lia). now rewrite Q. }
    rewrite <- (rsum_even M (fun t => zn 0 c (t - s) * u (t / 2)%Z)) by lia.
    unfold synthesised. rewrite Hg.
    rewrite <- (rsum_rev n).
    set (F := fun i => if Z.even (s + (n - 1) - (n - 1 - i)) then zn 0 c i * u ((s + (n - 1) - (n - 1 - i)) / 2)%Z else 0).
    transitivity (rsum n F).
    - rewrite <- (rsum_shift n (2 * M) s F); try lia.
      + apply rsum_ext. intros t Ht. unfold F. replace (s + (n - 1) - (n - 1 - (t - s)))%Z with t by lia. reflexivity.
      + intros i Hi. unfold F. rewrite (zn_out 0 c i) by lia. match goal with |- (if ?b then _ else _) = _ => destruct b end; ring.
    - apply rsum_ext. intros i Hi. unfold F. replace (s + (n - 1) - (n - 1 - i))%Z with (s + i)%Z by lia. destruct (Z.even (s + i)); auto.
      rewrite R by lia. replace (n - 1 - (n - 1 - i))%Z with i by lia. reflexivity.
  Qed.

  Theorem energy_kept : keeps_energy defect l h.
  Proof.
    intros x L M HL HM Z. rewrite Ll in HM. pose proof n_nonneg.
    rewrite (adjoint l syn0 x (analysed l x) L M), (adjoint h syn1 x (analysed h x) L M); auto.
    2: unfold syn1; rewrite zlen_ztab; lia.
    2: { intros j Hj. rewrite syn1_at, Mirror by lia. replace (n - 1 - (n - 1 - j))%Z with j by lia. rewrite sg_mirror. ring. }
    2: unfold syn0; rewrite zlen_ztab; lia.
    2: { intros j Hj. rewrite syn0_at, Mirror by lia. transitivity (sg j * sg j * tl (n - 1 - j)); [ring|]. rewrite sg_sq. ring. }
    rewrite <- rsum_plus, <- rsum_minus.
    rewrite (rsum_ext L _ (fun s => rsum (2 * n) (fun d => if Z.odd d then (lag d - (if (d =? n - 1)%Z then 1 else 0)) * (x s * x (s + (n - 1) - d)%Z) else 0))).
    2: { intros s Hs. transitivity (x s * (synthesised syn0 (analysed l x) (s + (n - 1)) + synthesised syn1 (analysed h x) (s + (n - 1)) - x (s + (n - 1) - (n - 1))%Z)).
      - replace (s + (n - 1) - (n - 1))%Z with s by lia. ring.
      - rewrite residue, <- rsum_scal. apply rsum_ext. intros d Hd. destruct (Z.odd d); ring. }
    rewrite rsum_swap.
    eapply Rle_trans; [apply rsum_abs|]. unfold defect. rewrite Rmult_comm, <- rsum_scal. apply rsum_le. intros d Hd.
    destruct (Z.odd d).
    2: { rewrite rsum_zero by auto. rewrite Rabs_R0. lra. }
    rewrite rsum_scal, Rabs_mult, Rmult_comm. apply Rmult_le_compat_r; [apply Rabs_pos|].
    eapply Rle_trans; [apply rsum_abs|].
    assert (S : rsum L (fun s => x (s + (n - 1) - d)%Z * x (s + (n - 1) - d)%Z) <= rsum L (fun s => x s * x s)).
    { destruct (Z.le_ge_cases 0 (n - 1 - d)) as [P|P].
      - destruct (Z.le_ge_cases (n - 1 - d) L) as [Q|Q].
        + rewrite (rsum_extend (L - (n - 1 - d)) L) by (try lia; intros i Hi; rewrite Z by lia; ring).
          replace L with ((n - 1 - d) + (L - (n - 1 - d)))%Z at 2 by lia. rewrite rsum_split by lia.
          assert (0 <= rsum (n - 1 - d) (fun s => x s * x s)) by (apply rsum_nonneg; intros; nra).
          rewrite (rsum_ext _ _ (fun i => x (n - 1 - d + i)%Z * x (n - 1 - d + i)%Z)) by (intros i Hi; f_equal; f_equal; lia). lra.
        + rewrite rsum_zero by (intros i Hi; rewrite Z by lia; ring). apply rsum_nonneg. intros. nra.
      - destruct (Z.le_ge_cases (d - (n - 1)) L) as [Q|Q].
        + replace L with ((d - (n - 1)) + (L - (d - (n - 1))))%Z at 1 by lia. rewrite rsum_split by lia.
          rewrite rsum_zero by (intros i Hi; rewrite Z by lia; ring). rewrite Rplus_0_l.
          rewrite (rsum_ext _ _ (fun i => x i * x i)) by (intros i Hi; f_equal; f_equal; lia).
          replace L with ((L - (d - (n - 1))) + (d - (n - 1)))%Z at 2 by lia. rewrite rsum_split by lia.
          assert (0 <= rsum (d - (n - 1)) (fun i => x (L - (d - (n - 1)) + i)%Z * x (L - (d - (n - 1)) + i)%Z)) by (apply rsum_nonneg; intros; nra). lra.
        + rewrite rsum_zero by (intros i Hi; rewrite Z by lia; ring). apply rsum_nonneg. intros. nra. }
    eapply Rle_trans; [apply rsum_le with (g := fun s => / 2 * (x s * x s + x (s + (n - 1) - d)%Z * x (s + (n - 1) - d)%Z))|].
    - intros s Hs. rewrite Rabs_mult. pose proof (Rabs_pos (x s)). pose proof (Rabs_pos (x (s + (n - 1) - d)%Z)).
      assert (Q : forall r, r * r = Rabs r * Rabs r) by (intros r; rewrite <- Rabs_mult; symmetry; apply Rabs_pos_eq; nra).
      rewrite (Q (x s)), (Q (x (s + (n - 1) - d)%Z)). pose proof (Rle_0_sqr (Rabs (x s) - Rabs (x (s + (n - 1) - d)%Z))) as W. unfold Rsqr in W.
      generalize dependent (Rabs (x (s + (n - 1) - d)%Z)). generalize (Rabs (x s)). intros; lra.
    - rewrite rsum_scal, rsum_plus. lra.
  Qed.
End Bank.

(** Polynomials are blocked as far as the moments vanish. *)
Definition moment (h : list R) (m : Z) : R := rsum (zlen h) (fun i => zn 0 h i * (IZR i / IZR (zlen h)) ^ Z.to_nat m).
Lemma polynomials_blocked eps order h : (forall m, (0 <= m < order)%Z -> Rabs (moment h m) <= eps) -> blocks_polynomials eps order h.
Proof.
  intros H a x k Hx. unfold analysed.
  rewrite (rsum_ext (zlen h) _ (fun i => rsum order (fun m => a m * (zn 0 h i * (IZR i / IZR (zlen h)) ^ Z.to_nat m)))).
  2: { intros i Hi. rewrite Hx by auto. unfold polynomial. rewrite <- rsum_scal. apply rsum_ext. intros. ring. }
  rewrite rsum_swap. eapply Rle_trans; [apply rsum_abs|]. rewrite <- rsum_scal. apply rsum_le. intros m Hm.
  rewrite rsum_scal. fold (moment h m). rewrite Rabs_mult, Rmult_comm. apply Rmult_le_compat_r; [apply Rabs_pos|auto].
Qed.
