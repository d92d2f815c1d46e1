(** Rounding errors of Filter: of one step, and over whole streams for stable filters. *)
From Coq Require Import ZArith Reals Lia Lra Psatz List Bool.
From Flocq Require Import Core.
From Flocq.IEEE754 Require Import BinarySingleNaN.
From Verif.Base Require Import Imp Sums RealOps Dbl Double Loops.
From Verif.Maths Require Import DoubleModel DoubleProofs StatDouble StatDoubleSpec StatDoubleProofs DotDouble.
From Verif.Signal Require Import FilterModel FilterSpec FilterProofs FilterDoubleSpec.
Import ListNotations.
Open Scope R_scope.

Local Notation u := uro.
Local Notation eta := (bpow radix2 (-1075)).

(** ** One step *)
Definition step_finite (a b x y : list double) (s : Z) : Prop :=
  coefficients_finite b /\ coefficients_finite a /\ (forall i, (0 <= i < zlen b)%Z -> finite (zn d0 x (s - i))) /\ (forall i, (0 <= i < zlen a - 1)%Z -> finite (zn d0 y (s - (i + 1)))).

Lemma step_doubles a b x y s : accepted a b -> (zlen b <= 2147483647)%Z -> step_finite a b x y s -> load_at a b x y s <= bpow radix2 990 ->
  finite (diff_eq_at d0 dadd dsub dmul a b x y s) /\
  Rabs (dval (diff_eq_at d0 dadd dsub dmul a b x y s) - exact_at a b x y s) <= step_error (zlen b) * load_at a b x y s + step_tiny (zlen b).
Proof.
  intros AC Hn (Fb & Fa & Fx & Fy) HL. unfold load_at, exact_at, step_error, step_tiny in *.
  pose proof uro_pos as U. pose proof uro_val as UV. assert (ET : 0 < eta) by apply bpow_gt_0.
  assert (E8 : bpow radix2 (-1072) = 8 * eta) by (change (-1072)%Z with (3 + -1075)%Z; rewrite bpow_plus; reflexivity). rewrite E8.
  pose proof (zlen_nonneg b) as B0. set (n := zlen b) in *. remember (zlen a - 1)%Z as m eqn:Em.
  set (P := rsum n (fun i => Rabs _)) in *. set (Q := rsum m (fun i => Rabs _)) in *.
  assert (P0 : 0 <= P) by (apply rsum_nonneg; intros; apply Rabs_pos). assert (Q0 : 0 <= Q) by (apply rsum_nonneg; intros; apply Rabs_pos).
  assert (N0 : 0 <= IZR n) by (apply IZR_le; lia). assert (N1 : IZR n <= 2147483647) by (apply IZR_le; lia).
  assert (H98 : bpow radix2 990 <= bpow radix2 998) by (apply bpow_le; lia).
  destruct (dot_doubles n (zn d0 b) (fun i => zn d0 x (s - i))) as [FB EB]; [lia| |unfold total; fold P; lra|].
  { intros j Hj. split; [apply Fb; exact Hj|apply Fx; exact Hj]. }
  unfold total in EB. fold P in EB. set (bs := fsum d0 dadd n _) in *. set (X := rsum n (fun j => dval (zn d0 b j) * _)) in *.
  assert (NU : 0 <= IZR n * u) by (apply Rmult_le_pos; lra). assert (NE : 0 <= IZR n * eta) by (apply Rmult_le_pos; lra).
  assert (UP : 0 <= u * P) by (apply Rmult_le_pos; lra). assert (UQ : 0 <= u * Q) by (apply Rmult_le_pos; lra).
  assert (NP : 0 <= IZR n * u * P) by (apply Rmult_le_pos; lra). assert (NQ : 0 <= IZR n * u * Q) by (apply Rmult_le_pos; lra).
  unfold diff_eq_at. destruct a as [|a0 ar].
  - fold bs. split; [exact FB|]. assert (Q1 : Q = 0) by (unfold Q; apply rsum_0; rewrite Em; cbn; lia). rewrite (rsum_0 m) by (rewrite Em; cbn; lia). rewrite Q1, Rminus_0_r.
    eapply Rle_trans; [exact EB|]. lra.
  - set (a := a0 :: ar) in *. assert (LA : zlen a = n) by (destruct AC as [[C _]|[_ C]]; [discriminate C|exact C]). 
    assert (A1 : (1 <= n)%Z) by (rewrite <- LA; unfold a, zlen; cbn [length]; lia). rewrite LA in Em. fold n. rewrite <- Em.
    destruct (dot_doubles m (fun i => zn d0 a (i + 1)) (fun i => zn d0 y (s - (i + 1)))) as [FA EA]; [lia| |unfold total; fold Q; lra|].
    { intros j Hj. split; [apply Fa; lia|apply Fy; exact Hj]. }
    unfold total in EA. fold Q in EA. fold bs. set (as_ := fsum d0 dadd m _) in *. set (Y := rsum m (fun j => dval (zn d0 a (j + 1)) * dval _)) in *.
    assert (EM : IZR m = IZR n - 1) by (rewrite Em, minus_IZR; reflexivity). rewrite EM in EA. set (N := IZR n) in *. assert (NP1 : 1 <= N) by (apply (IZR_le 1); exact A1).
    assert (EA' : Rabs (dval as_ - Y) <= 1001 / 1000 * N * u * Q + 2 * N * eta) by lra.
    assert (XB : Rabs X <= P) by (apply rsum_abs). assert (YB : Rabs Y <= Q) by (apply rsum_abs).
    assert (NUS : N * u <= / 2000) by (rewrite UV; lra).
    assert (S1 : N * u * P <= / 2000 * P) by (apply Rmult_le_compat_r; lra). assert (S2 : N * u * Q <= / 2000 * Q) by (apply Rmult_le_compat_r; lra).
    assert (BX : Rabs (dval bs) <= 1001 / 1000 * P + 2 * N * eta) by (pose proof (near' _ _ _ _ EB XB); lra).
    assert (BY : Rabs (dval as_) <= 1001 / 1000 * Q + 2 * N * eta) by (pose proof (near' _ _ _ _ EA' YB); lra).
    assert (BS : Rabs (dval bs - dval as_) <= 1001 / 1000 * (P + Q) + 4 * N * eta).
    { unfold Rminus. eapply Rle_trans; [apply Rabs_triang|]. rewrite Rabs_Ropp. lra. }
    assert (NT : N * eta <= bpow radix2 990).
    { apply Rle_trans with (bpow radix2 31 * eta); [apply Rmult_le_compat_r; [lra|change (bpow radix2 31) with 2147483648; lra]|]. rewrite <- bpow_plus. apply bpow_le. lia. }
    destruct (dsub_ok bs as_ FB FA) as [FS VS].
    { apply (small_huge _ 993); [|lia]. change 993%Z with (3 + 990)%Z. rewrite bpow_plus. change (bpow radix2 3) with 8. lra. }
    split; [exact FS|]. rewrite VS.
    pose proof (rnd_plus (dval bs) (- dval as_) (dval_format bs) (generic_format_opp _ _ _ (dval_format as_))) as ER. change (dval bs + - dval as_) with (dval bs - dval as_) in ER.
    replace (rnd (dval bs - dval as_) - (X - Y)) with ((rnd (dval bs - dval as_) - (dval bs - dval as_)) + ((dval bs - X) + - (dval as_ - Y))) by ring.
    eapply Rle_trans; [apply Rabs_triang|]. pose proof (Rabs_triang (dval bs - X) (- (dval as_ - Y))) as TR. rewrite Rabs_Ropp in TR.
    assert (UB : u * Rabs (dval bs - dval as_) <= u * (1001 / 1000 * (P + Q) + 4 * N * eta)) by (apply Rmult_le_compat_l; lra).
    assert (UE : u * (N * eta) <= / 2000 * (N * eta)) by (apply Rmult_le_compat_r; [lra|rewrite UV; lra]). lra.
Qed.

(** ** Disturbances of a recursion *)
Section Recursion.
  Context (m : Z) (c h : Z -> R) (G : R).
  Context (H0 : forall n, (n < 0)%Z -> h n = 0) (H1 : h 0%Z = 1) (HS : forall n, (1 <= n)%Z -> h n = - rsum m (fun i => c i * h (n - (i + 1))%Z)).
  Context (HG : forall n, rsum n (fun k => Rabs (h k)) <= G).

  Definition conv (d : Z -> R) (s : Z) : R := rsum (s + 1) (fun k => h k * d (s - k)%Z).
  Lemma conv_shift d s q : (0 <= s)%Z -> (1 <= q)%Z -> rsum (s + 1) (fun k => h (k - q)%Z * d (s - k)%Z) = conv d (s - q).
  Proof.
    intros Hs Hq. unfold conv. destruct (Z_le_gt_dec (s + 1) q) as [C|C].
    - rewrite (rsum_0 (s - q + 1)) by lia. apply rsum_zero. intros i Hi. rewrite H0 by lia. ring.
    - replace (s + 1)%Z with (q + (s - q + 1))%Z by lia. rewrite rsum_split by lia. rewrite rsum_zero by (intros i Hi; rewrite H0 by lia; ring).
      rewrite Rplus_0_l. apply rsum_ext. intros i Hi. f_equal; f_equal; lia.
  Qed.
  Lemma conv_step d s : (0 <= s)%Z -> conv d s = d s - rsum m (fun i => c i * conv d (s - (i + 1))).
  Proof.
    intros Hs. destruct (rsum_neg m (fun _ => 0)) as [Hm|Hm].
    { rewrite rsum_0 by exact Hm. rewrite Rminus_0_r. unfold conv. rewrite rsum_first by lia. rewrite H1, Z.sub_0_r. rewrite rsum_zero; [ring|].
      intros i Hi. rewrite HS by lia. rewrite rsum_0 by exact Hm. ring. }
    rewrite (rsum_ext m _ (fun i => rsum (s + 1) (fun k => c i * (h (k - (i + 1))%Z * d (s - k)%Z)))).
    2: { intros i Hi. rewrite rsum_scal, conv_shift by lia. reflexivity. }
    rewrite rsum_swap. unfold conv. rewrite !(rsum_first (s + 1)) by lia. rewrite H1, Z.sub_0_r.
    rewrite (rsum_zero m) by (intros i Hi; rewrite H0 by lia; ring).
    rewrite (rsum_ext (s + 1 - 1) (fun i => h (i + 1)%Z * d (s - (i + 1))%Z) (fun i => -1 * rsum m (fun i0 => c i0 * (h (i + 1 - (i0 + 1))%Z * d (s - (i + 1))%Z)))).
    2: { intros i Hi. rewrite HS by lia. rewrite (rsum_ext m (fun i0 => c i0 * (h (i + 1 - (i0 + 1))%Z * d (s - (i + 1))%Z)) (fun i0 => d (s - (i + 1))%Z * (c i0 * h (i + 1 - (i0 + 1))%Z))) by (intros; ring).
         rewrite rsum_scal. ring. }
    rewrite rsum_scal. ring.
  Qed.
  Lemma conv_bound d s D : (forall t, (0 <= t <= s)%Z -> Rabs (d t) <= D) -> 0 <= D -> Rabs (conv d s) <= G * D.
  Proof.
    intros Hd D0. unfold conv. eapply Rle_trans; [apply rsum_abs|].
    apply Rle_trans with (D * rsum (s + 1) (fun k => Rabs (h k))); [|pose proof (HG (s + 1)); rewrite Rmult_comm; apply Rmult_le_compat_r; assumption].
    rewrite <- rsum_scal. apply rsum_le. intros i Hi. rewrite Rabs_mult, Rmult_comm. apply Rmult_le_compat_r; [apply Rabs_pos|]. apply Hd. lia.
  Qed.
  (** A solution of the recursion r = d - sum c r is the convolution of h with d. *)
  Lemma recursion_conv (r d : Z -> R) S : (forall n, (n < 0)%Z -> r n = 0) -> (forall s, (0 <= s <= S)%Z -> r s = d s - rsum m (fun i => c i * r (s - (i + 1))%Z)) ->
    forall s, (s <= S)%Z -> r s = conv d s.
  Proof.
    intros R0 RS. assert (A : forall k, (0 <= k)%Z -> forall s, (s < k)%Z -> (s <= S)%Z -> r s = conv d s).
    - apply (natlike_ind (fun k => forall s, (s < k)%Z -> (s <= S)%Z -> r s = conv d s)).
      + intros s Hs _. rewrite R0 by lia. unfold conv. rewrite rsum_0 by lia. reflexivity.
      + intros k Hk IH s Hs HsS. destruct (Z_lt_le_dec s 0) as [C|C]; [rewrite R0 by lia; unfold conv; rewrite rsum_0 by lia; reflexivity|].
        rewrite RS, conv_step by lia. f_equal. apply rsum_ext. intros i Hi. f_equal. apply IH; lia.
    - intros s Hs. destruct (Z_lt_le_dec s 0) as [C|C]; [rewrite R0 by lia; unfold conv; rewrite rsum_0 by lia; reflexivity|]. apply (A (s + 1)%Z); lia.
  Qed.
  Lemma recursion_bound (r d : Z -> R) S D : (forall n, (n < 0)%Z -> r n = 0) -> (forall s, (0 <= s <= S)%Z -> r s = d s - rsum m (fun i => c i * r (s - (i + 1))%Z)) ->
    (forall t, (0 <= t <= S)%Z -> Rabs (d t) <= D) -> 0 <= D -> forall s, (s <= S)%Z -> Rabs (r s) <= G * D.
  Proof.
    intros R0 RS Hd D0 s Hs. rewrite (recursion_conv r d S R0 RS s Hs). apply conv_bound; [|exact D0]. intros t Ht. apply Hd. lia.
  Qed.
End Recursion.
