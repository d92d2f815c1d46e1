From Coq Require Import Reals ZArith List Bool Lia Lra Psatz.
From Verif.Base Require Import Imp Sums RealOps Arith Loops Tables.
From Verif.Maths Require Import RealSpec.
From Verif.Measures Require Import MeasModel MeasSpec MeasProofs.
From Verif.Rhythm Require Import BeatSpecModel BeatSpecSpec.
Import ListNotations.
Open Scope Z_scope.

Section Any.
  Context {T : Type} (A : arith T) (fabs : T -> T) (sm : T).

  Lemma cosine_total v w : exists d, cosine A fabs sm v w = OK d.
  Proof.
    unfold cosine. destruct (Z.eqb_spec (zlen v) (zlen w)) as [E|E]; cbn [negb]; [|eauto].
    match goal with |- exists d, bind (for_up ?a ?b ?f ?s) _ = _ => destruct (for_up_inv (fun _ _ => True) a b f s) as (s' & H & _) end.
    - apply zlen_nonneg.
    - exact I.
    - intros i [[x y] z] Hi _. rewrite (aget_OK (a_of A 0)) by lia. rewrite (aget_OK (a_of A 0)) by lia. cbn [bind]. eauto.
    - rewrite H. destruct s' as [[x y] z]. cbn [bind]. eauto.
  Qed.

  Theorem spectrum_safe m : exists v, beat_spectrum A fabs sm m = OK v /\ zlen v = zlen m / 2.
  Proof.
    unfold beat_spectrum. set (sz := zlen m / 2). pose proof (zlen_nonneg m) as L0.
    assert (S0 : 0 <= sz) by (apply Z.div_pos; lia). assert (S2 : 2 * sz <= zlen m) by (apply Z.mul_div_le; lia).
    set (P := fun (_ : Z) (v : list T) => zlen v = sz).
    match goal with |- context [bind (for_up 0 sz ?f ?s) _] => destruct (for_up_inv P 0 sz f s) as (v0 & -> & H0) end; unfold P in *; auto.
    { rewrite zlen_repeat. lia. }
    { intros i v Hi Hv. rewrite (aset_OK v i) by lia. eexists; split; [reflexivity|]. now rewrite zlen_upd. }
    cbn [bind].
    match goal with |- context [bind (for_up 0 sz ?f ?s) _] => destruct (for_up_inv P 0 sz f s) as (v1 & -> & H1) end; unfold P in *; auto.
    { intros i v Hi Hv.
      match goal with |- context [for_up ?a ?b ?f (v, 0)] =>
        destruct (for_up_inv (fun j '((v, k) : list T * Z) => zlen v = sz /\ k = j - (i + 1)) a b f (v, 0)) as ([v' k'] & -> & Hv' & _) end; try lia.
      - intros j [w k] Hj [Hw ->]. rewrite (aget_OK []) by lia. cbn [bind]. rewrite (aget_OK []) by lia. cbn [bind].
        destruct (cosine_total (zn [] m i) (zn [] m j)) as [d ->]. cbn [bind]. rewrite (aget_OK (a_of A 0)) by lia. cbn [bind].
        rewrite aset_OK by lia. cbn [bind]. eexists; split; [reflexivity|]. cbv beta iota. rewrite zlen_upd. lia.
      - cbn [bind]. eauto. }
    cbn [bind].
    match goal with |- context [bind (for_up 0 sz ?f ?s) _] => destruct (for_up_inv (fun _ _ => True) 0 sz f s) as (mx & -> & _) end; auto.
    { intros i x Hi _. rewrite (aget_OK (a_of A 0)) by lia. cbn [bind]. eauto. }
    cbn [bind]. destruct (a_lt A (a_of A 0) mx); [|eauto].
    match goal with |- context [for_up 0 sz ?f ?s] => destruct (for_up_inv P 0 sz f s) as (v2 & -> & H2) end; unfold P in *; auto.
    - intros i v Hi Hv. rewrite (aget_OK (a_of A 0)) by lia. cbn [bind]. rewrite aset_OK by lia. eexists; split; [reflexivity|]. now rewrite zlen_upd.
    - eauto.
  Qed.
End Any.

Lemma cos_dist_ok v w : cosine Rarith Rabs small v w = OK (cos_dist v w).
Proof.
  unfold cos_dist. destruct (Z.eqb_spec (zlen v) (zlen w)) as [E|E].
  - exact (cosine_value v w E).
  - rewrite cosine_mismatch; [reflexivity|]. unfold zlen in E. lia.
Qed.
Lemma cos_dist_pos v w : (0 < cos_dist v w < 2)%R.
Proof. destruct (cosine_range v w) as (d & E & H). unfold cosine_distance in E. rewrite cos_dist_ok in E. injection E as <-. auto. Qed.

Section Real.
  Context (m : list (list R)).
  Notation sz := (zlen m / 2).
  Notation S k := (lag_dist m sz (k + 1)).

  Lemma sz0 : 0 <= sz. Proof. apply Z.div_pos; [apply zlen_nonneg|lia]. Qed.
  Lemma sz2 : 2 * sz <= zlen m. Proof. apply Z.mul_div_le. lia. Qed.

  Lemma S_pos k : 1 <= sz -> (0 < S k)%R.
  Proof.
    intros H. unfold lag_dist. replace sz with (sz - 1 + 1) by lia. rewrite rsum_S by lia.
    assert (0 <= rsum (sz - 1) (fun i => cos_dist (zn [] m i) (zn [] m (i + (k + 1)))))%R by (apply rsum_nonneg; intros; left; apply cos_dist_pos).
    pose proof (cos_dist_pos (zn [] m (sz - 1)) (zn [] m (sz - 1 + (k + 1)))). lra.
  Qed.

  Theorem spectrum_value : exists v, BeatSpectrum_process m = OK v /\ zlen v = sz /\
    (1 <= sz -> is_max sz (zn 0%R v) 1 /\ exists c, (0 < c)%R /\ forall k, 0 <= k < sz -> (0 < zn 0 v k)%R /\ (c * zn 0 v k)%R = S k).
  Proof.
    pose proof sz0 as N0. pose proof sz2 as N2. unfold BeatSpectrum_process, beat_spectrum.
    rewrite (for_up_tab sz _ (fun _ => 0%R)) by (try rewrite zlen_repeat; intros; auto; lia).
    rewrite skipn_zlen by (rewrite zlen_repeat; lia). rewrite app_nil_r. cbn [bind].
    (* accumulation *)
    match goal with |- context [bind (for_up 0 sz ?f ?s) _] => assert (E1 : for_up 0 sz f s = OK (ztab sz (fun k => S k))) end.
    { pose (St := fun i => ztab sz (fun k => rsum i (fun i => cos_dist (zn [] m i) (zn [] m (i + (k + 1)))))).
      change (ztab sz (fun k => S k)) with (St sz).
      replace (ztab sz (fun _ => 0%R)) with (St 0) by (unfold St; apply ztab_ext; intros; now rewrite rsum_0 by lia).
      apply (for_up_path St 0 sz); [lia|]. intros i Hi.
      pose (Q := fun j => (ztab sz (fun k => (rsum i (fun i => cos_dist (zn [] m i) (zn [] m (i + (k + 1)))) + if k <? j - (i + 1) then cos_dist (zn [] m i) (zn [] m (i + (k + 1))) else 0)%R), j - (i + 1))).
      replace (St i, 0) with (Q (i + 1)).
      2: { unfold Q, St. f_equal; [|lia]. apply ztab_ext. intros k Hk. destruct (Z.ltb_spec k (i + 1 - (i + 1))); [lia|]. lra. }
      rewrite (for_up_path Q (i + 1) (i + sz + 1)); [|lia|].
      - unfold Q. cbn [bind]. f_equal. unfold St. apply ztab_ext. intros k Hk. destruct (Z.ltb_spec k (i + sz + 1 - (i + 1))); [|lia]. now rewrite rsum_S by lia.
      - intros j Hj. unfold Q. rewrite (aget_OK []) by lia. cbn [bind]. rewrite (aget_OK []) by lia. cbn [bind]. rewrite cos_dist_ok. cbn [bind].
        rewrite aget_tab by lia. cbn [bind]. rewrite aset_tab by lia. cbn [bind]. f_equal. f_equal; [|lia].
        apply ztab_ext. intros k Hk. unfold set1. destruct (Z.eqb_spec k (j - (i + 1))) as [->|Ne].
        + rewrite Z.ltb_irrefl. destruct (Z.ltb_spec (j - (i + 1)) (j + 1 - (i + 1))); [|lia]. cbn [a_add Rarith].
          replace (i + (j - (i + 1) + 1)) with j by lia. lra.
        + destruct (Z.ltb_spec k (j - (i + 1))), (Z.ltb_spec k (j + 1 - (i + 1))); try lia; reflexivity. }
    rewrite E1. clear E1. cbn [bind].
    (* maximum *)
    match goal with |- context [bind (for_up 0 sz ?f ?s) _] =>
      destruct (for_up_inv (fun i x => (0 <= x)%R /\ (forall k, 0 <= k < i -> (S k <= x)%R) /\ (x = 0%R \/ exists k, 0 <= k < i /\ x = S k)) 0 sz f s) as (mx & -> & M0 & M1 & M2) end; auto.
    { cbn. split; [lra|]. split; [intros; lia|auto]. }
    { intros i x Hi (X0 & X1 & X2). rewrite aget_tab by lia. cbn [bind a_lt Rarith]. eexists; split; [reflexivity|].
      destruct (Rltb x (S i)) eqn:B.
      - apply Rltb_true in B. split; [lra|]. split.
        + intros k Hk. destruct (Z.eq_dec k i) as [->|]; [lra|]. specialize (X1 k ltac:(lia)). lra.
        + right. exists i. split; [lia|auto].
      - apply Rltb_false in B. split; [lra|]. split.
        + intros k Hk. destruct (Z.eq_dec k i) as [->|]; [lra|]. apply X1. lia.
        + destruct X2 as [X2|(k & Hk & ->)]; auto. right. exists k. split; [lia|auto]. }
    cbn [bind]. change (a_lt Rarith (a_of Rarith 0) mx) with (Rltb 0 mx). destruct (Rltb 0 mx) eqn:B.
    - apply Rltb_true in B.
      rewrite (for_up_tab sz _ (fun k => S k / mx)%R).
      2: zl; lia.
      2: { intros i s Hi L V _. rewrite (aget_OK 0%R) by (rewrite L; zl; lia). cbn [bind a_div Rarith]. rewrite V by lia. now rewrite zn_ztab by lia. }
      rewrite skipn_zlen by (zl; lia). rewrite app_nil_r. eexists; split; [reflexivity|]. split; [zl; lia|]. intros H1.
      assert (V : forall k, 0 <= k < sz -> zn 0%R (ztab sz (fun k => S k / mx)%R) k = (S k / mx)%R) by (intros; now rewrite zn_ztab by lia).
      split.
      + split.
        * destruct M2 as [M2|(k & Hk & E)]; [lra|]. exists k. split; auto. rewrite V by auto. rewrite <- E. field. lra.
        * intros k Hk. rewrite V by auto. specialize (M1 k Hk). apply (Rmult_le_reg_r mx); auto. unfold Rdiv. rewrite Rmult_assoc, Rinv_l by lra. lra.
      + exists mx. split; auto. intros k Hk. rewrite V by auto. split; [|field; lra].
        apply Rmult_lt_0_compat; [apply S_pos; auto|now apply Rinv_0_lt_compat].
    - apply Rltb_false in B. eexists; split; [reflexivity|]. split; [zl; lia|]. intros H1.
      specialize (M1 0 ltac:(lia)). pose proof (S_pos 0 H1). lra.
  Qed.

  (** Periodic features: the spectrum is periodic, and lowest at the period. *)
  Lemma lag_periodic p k : periodic p m -> 0 <= p -> 0 <= k -> k + p <= sz -> lag_dist m sz (k + p) = lag_dist m sz k.
  Proof.
    intros HP Hp Hk Hs. pose proof sz0. pose proof sz2. unfold lag_dist. apply rsum_ext. intros i Hi. f_equal.
    rewrite Z.add_assoc. apply HP; lia.
  Qed.

  Theorem spectrum_periodic p v : BeatSpectrum_process m = OK v -> 1 <= p -> periodic p m ->
    forall k, 0 <= k -> k + p < sz -> zn 0%R v (k + p) = zn 0%R v k.
  Proof.
    intros E Hp HP k Hk Hs. destruct spectrum_value as (v' & E' & L & H). rewrite E in E'. injection E' as <-.
    destruct (H ltac:(lia)) as (_ & c & C0 & HC). destruct (HC k ltac:(lia)) as [_ H1]. destruct (HC (k + p) ltac:(lia)) as [_ H2].
    replace (k + p + 1) with (k + 1 + p) in H2 by lia. rewrite lag_periodic in H2 by (auto; lia).
    apply (Rmult_eq_reg_l c); lra.
  Qed.

  Lemma cos_dist_self v w : zlen v = zlen w -> norm (zlen v) (zn 0%R v) = norm (zlen v) (zn 0%R w) -> (cos_dist v v <= cos_dist v w)%R.
  Proof.
    intros L N. unfold cos_dist. rewrite Z.eqb_refl. rewrite (proj2 (Z.eqb_eq _ _) L). cbv zeta. rewrite <- N.
    set (n := zlen v). set (a := norm n (zn 0%R v)) in *.
    pose proof (dot_bound n (zn 0%R v) (zn 0%R w)) as B. fold n in N. rewrite <- N in B. fold a in B.
    assert (D : dot n (zn 0%R v) (zn 0%R v) = (a * a)%R) by (unfold a, norm; rewrite sqrt_sqrt; [auto|apply dot_self_nonneg]).
    rewrite D. assert (A0 : (0 < a * a + 1e-20)%R) by (pose proof (Rle_0_sqr a); unfold Rsqr in *; lra).
    assert ((dot n (zn 0 v) (zn 0 w) / (a * a + 1e-20) <= a * a / (a * a + 1e-20))%R); [|lra].
    apply Rmult_le_compat_r; [left; now apply Rinv_0_lt_compat|].
    pose proof (Rle_abs (dot n (zn 0%R v) (zn 0%R w))). lra.
  Qed.

  Theorem spectrum_lowest_at_period p v l e : BeatSpectrum_process m = OK v -> 1 <= p <= sz -> periodic p m ->
    (forall i, 0 <= i < zlen m -> zlen (zn [] m i) = l /\ norm l (zn 0%R (zn [] m i)) = e) ->
    forall k, 0 <= k < sz -> (zn 0 v (p - 1) <= zn 0 v k)%R.
  Proof.
    intros E Hp HP HN k Hk. destruct spectrum_value as (v' & E' & L & H). rewrite E in E'. injection E' as <-.
    destruct (H ltac:(lia)) as (_ & c & C0 & HC). destruct (HC k ltac:(lia)) as [_ H1]. destruct (HC (p - 1) ltac:(lia)) as [_ H2].
    replace (p - 1 + 1) with p in H2 by lia. apply (Rmult_le_reg_l c); auto. rewrite H1, H2.
    pose proof sz2. unfold lag_dist. apply rsum_le. intros i Hi. rewrite HP by lia.
    destruct (HN i ltac:(lia)) as [L1 N1]. destruct (HN (i + (k + 1)) ltac:(lia)) as [L2 N2].
    apply cos_dist_self; [congruence|]. rewrite L1. congruence.
  Qed.
End Real.
