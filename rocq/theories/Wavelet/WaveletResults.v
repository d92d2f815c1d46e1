(** The tables checked. *)
From Coq Require Import List ZArith Reals Lia Lra Bool Psatz String.
From Flocq Require Import Core.
From Verif.Base Require Import Imp Sums RealOps Loops Dbl.
From Verif.Wavelet Require Import WaveletModel WaveletSpec WaveletTables WaveletProofs WaveletChecks.
Import ListNotations.
Open Scope R_scope.

Fixpoint same (a b : list Z) : bool := match a, b with [], [] => true | x :: a, y :: b => (x =? y)%Z && same a b | _, _ => false end.
Lemma same_spec a b : same a b = true -> a = b.
Proof.
  revert b. induction a as [|x a IH]; intros [|y b]; cbn [same]; intros H; try discriminate; auto.
  apply andb_true_iff in H. destruct H as [H1 H2]. apply Z.eqb_eq in H1. f_equal; auto.
Qed.

Definition low (w : wavelet) : list Z := fst (fst (pushes w)).
Definition high (w : wavelet) : list Z := snd (fst (pushes w)).
Definition check_sizes (w : wavelet) : bool :=
  (snd (pushes w) =? filter_length w)%Z && (zlen (low w) =? filter_length w)%Z && (zlen (high w) =? filter_length w)%Z &&
  Z.even (filter_length w) && (2 <=? filter_length w)%Z && (filter_length w <=? 102)%Z && all_small (low w) && all_small (high w).
Definition check_recovery (w : wavelet) : bool :=
  let c := conv (alternate true (high w)) (low w) in
  (filter_length w <=? zlen c)%Z && (recovery w * (deviation (filter_length w - 1) 0 c + 10 * filter_length w * filter_length w * 4440892098501) <=? 10 ^ 28)%Z.
Definition check_mirror (w : wavelet) : bool := if orthogonal w then same (high w) (alternate false (rev (low w))) else true.
Definition check_moments (w : wavelet) : bool := moments_small (blocking w / 9 * 10) (high w) 1 (filter_length w) (Z.to_nat (order w)) && (10 * filter_length w * blocking w <=? 2 ^ 51)%Z &&
  (blocking w / 9 * 9 =? blocking w)%Z.
Definition check_gain (w : wavelet) : bool :=
  let s := total (low w) in (140000000000000 <=? s)%Z && (Z.abs (s * s - 2 * 10 ^ 28) <=? 14 * 10 ^ 14)%Z.

Lemma sizes_checked w : check_sizes w = true.
Proof. destruct w; vm_compute; reflexivity. Qed.
Lemma recovery_checked w : check_recovery w = true.
Proof. destruct w; vm_compute; reflexivity. Qed.
Lemma mirror_checked w : check_mirror w = true.
Proof. destruct w; vm_compute; reflexivity. Qed.
Lemma moments_checked w : check_moments w = true.
Proof. destruct w; vm_compute; reflexivity. Qed.
Lemma gain_checked w : check_gain w = true.
Proof. destruct w; vm_compute; reflexivity. Qed.

(** The filters made. *)
Definition lows (w : wavelet) : list R := map literal (low w).
Definition highs (w : wavelet) : list R := map literal (high w).
Lemma sizes w : zlen (low w) = filter_length w /\ zlen (high w) = filter_length w /\ snd (pushes w) = filter_length w /\ Z.even (filter_length w) = true /\
  (2 <= filter_length w <= 102)%Z /\ all_small (low w) = true /\ all_small (high w) = true.
Proof.
  pose proof (sizes_checked w) as H. unfold check_sizes in H. repeat (apply andb_true_iff in H; destruct H as [H ?]).
  repeat match goal with E : (_ =? _)%Z = true |- _ => apply Z.eqb_eq in E | E : (_ <=? _)%Z = true |- _ => apply Z.leb_le in E end. repeat split; auto.
Qed.
Lemma made w lpd hpd : create_filters w lpd hpd = OK (lows w, highs w).
Proof.
  destruct (sizes w) as (A & B & C & _). unfold create_filters, lows, highs, low, high in *. destruct (pushes w) as [[l h] f]. cbn [fst snd] in *. cbn [app].
  rewrite !zlen_map, A, B, C, Z.eqb_refl. reflexivity.
Qed.
Lemma lengths w : zlen (lows w) = filter_length w /\ zlen (highs w) = filter_length w.
Proof. destruct (sizes w) as (A & B & _). unfold lows, highs. now rewrite !zlen_map. Qed.
Lemma names_distinct w w' : wavelet_name w = wavelet_name w' -> w = w'.
Proof. destruct w, w'; intros H; try reflexivity; discriminate H. Qed.
Lemma named w : wavelet_name w <> "(unknown)"%string.
Proof. destruct w; discriminate. Qed.

Lemma U_bound : U <= 4440892098501 / IZR (10 ^ 28).
Proof.
  assert (P : 0 < IZR (10 ^ 28)) by (apply IZR_lt; reflexivity).
  apply Rmult_le_reg_r with (IZR (10 ^ 28)); auto. unfold Rdiv. rewrite Rmult_assoc, Rinv_l, Rmult_1_r by lra.
  apply Rmult_le_reg_l with (bpow radix2 51); [apply bpow_gt_0|]. unfold U. rewrite <- Rmult_assoc, <- bpow_plus. change (bpow radix2 (51 + -51)) with 1. rewrite Rmult_1_l.
  rewrite <- IZR_Zpower by lia. rewrite <- mult_IZR. apply IZR_le. vm_compute. discriminate.
Qed.
Lemma recovery_pos w : (0 < recovery w)%Z.
Proof. destruct w; reflexivity. Qed.
Lemma blocking_pos w : (0 < blocking w)%Z.
Proof. destruct w; reflexivity. Qed.
Lemma defect_small w : defect (lows w) (highs w) (filter_length w) <= / IZR (recovery w).
Proof.
  destruct (sizes w) as (A & B & C & Ev & R2 & Sl & Sh). pose proof (recovery_checked w) as H. unfold check_recovery in H. cbv zeta in H.
  apply andb_true_iff in H. destruct H as [H1 H2]. apply Z.leb_le in H1, H2.
  pose proof (defect_near (low w) (high w) (filter_length w) ltac:(lia) Sl Sh) as D. fold (lows w) (highs w) in D.
  rewrite (defect_of (low w) (high w)) in D by (auto; lia).
  set (n := filter_length w) in *. set (dv := deviation (n - 1) 0 (conv (alternate true (high w)) (low w))) in *. clearbody dv.
  assert (P : 0 < IZR (10 ^ 28)) by (apply IZR_lt; reflexivity).
  assert (Q : E14 * E14 = IZR (10 ^ 28)) by (unfold E14; rewrite <- mult_IZR; reflexivity). rewrite Q in D.
  pose proof (recovery_pos w) as Rp. apply IZR_lt in Rp. apply IZR_le in H2. rewrite mult_IZR, plus_IZR, (mult_IZR _ 4440892098501) in H2.
  pose proof U_bound as UB. assert (0 <= IZR (10 * n * n)) by (apply IZR_le; nia).
  eapply Rle_trans; [apply D|]. apply Rle_trans with ((IZR dv + IZR (10 * n * n) * 4440892098501) / IZR (10 ^ 28)).
  - unfold Rdiv in *. rewrite Rmult_plus_distr_r. apply Rplus_le_compat_l. rewrite Rmult_assoc. now apply Rmult_le_compat_l.
  - apply Rmult_le_reg_r with (IZR (10 ^ 28)); auto. unfold Rdiv. rewrite Rmult_assoc, Rinv_l, Rmult_1_r by lra.
    apply Rmult_le_reg_l with (IZR (recovery w)); auto. rewrite <- Rmult_assoc, Rinv_r, Rmult_1_l by lra. apply H2.
Qed.

Lemma recovers_weaken e e' l h : e <= e' -> recovers e l h -> recovers e' l h.
Proof.
  intros H (g0 & g1 & A & B & C). exists g0, g1. split; [auto|]. split; [auto|]. intros x b Hb t. eapply Rle_trans; [apply C, Hb|].
  apply Rmult_le_compat_r; auto. eapply Rle_trans; [apply Rabs_pos|apply (Hb 0%Z)].
Qed.
Theorem reconstructs w : recovers (/ IZR (recovery w)) (lows w) (highs w).
Proof.
  destruct (lengths w) as [A B]. destruct (sizes w) as (_ & _ & _ & Ev & R2 & _).
  apply recovers_weaken with (defect (lows w) (highs w) (filter_length w)); [apply defect_small|]. apply recovered; auto. lia.
Qed.
Theorem energy w : orthogonal w = true -> keeps_energy (/ IZR (recovery w)) (lows w) (highs w).
Proof.
  intros O. destruct (lengths w) as [A B]. destruct (sizes w) as (A' & B' & _ & Ev & R2 & _).
  pose proof (mirror_checked w) as M. unfold check_mirror in M. rewrite O in M. apply same_spec in M.
  intros x L K HL HK Z. eapply Rle_trans.
  - apply (energy_kept (lows w) (highs w) (filter_length w)); auto; [lia|]. intros j Hj. apply mirror_stored; auto.
  - apply Rmult_le_compat_r; [apply rsum_nonneg; intros; nra|apply defect_small].
Qed.
Theorem blocks w : blocks_polynomials (/ IZR (blocking w)) (order w) (highs w).
Proof.
  destruct (sizes w) as (A & B & _ & Ev & R2 & Sl & Sh). pose proof (moments_checked w) as M. unfold check_moments in M.
  apply andb_true_iff in M. destruct M as [M M3]. apply andb_true_iff in M. destruct M as [M1 M2]. apply Z.leb_le in M2. apply Z.eqb_eq in M3.
  pose proof (blocking_pos w) as P. set (e := (blocking w / 9)%Z) in *.
  apply polynomials_blocked. intros m Hm. eapply Rle_trans; [apply (moment_near (high w) (filter_length w)); auto; lia|].
  assert (Q : Rabs (moment (map decimal (high w)) m) <= / IZR (e * 10)).
  { apply (moments_of (high w) (filter_length w) B ltac:(lia) (e * 10) (Z.to_nat (order w)) 0 (high w) 1); auto; try lia. intros. cbn. ring. }
  apply IZR_le in M2. rewrite !mult_IZR in M2. rewrite <- M3 in *. rewrite mult_IZR in *.
  assert (0 < IZR e) by (apply IZR_lt; lia).
  assert (V : U * IZR (2 ^ 51) = 1).
  { unfold U. change (IZR (2 ^ 51)) with (IZR (radix2 ^ 51)). rewrite IZR_Zpower by lia. rewrite <- bpow_plus. reflexivity. }
  assert (W : IZR (filter_length w) * U <= / (IZR e * 90)).
  { apply Rmult_le_reg_r with (IZR e * 90); [lra|]. rewrite Rinv_l by lra. pose proof U_pos.
    apply Rle_trans with (U * (10 * IZR (filter_length w) * (IZR e * 9))); [right; ring|]. rewrite <- V. apply Rmult_le_compat_l; lra. }
  apply Rle_trans with (/ (IZR e * 10) + / (IZR e * 90)); [now apply Rplus_le_compat|]. right. field. lra.
Qed.
Theorem gain w : unit_gain (/ IZR (10 ^ 13)) (lows w).
Proof.
  destruct (sizes w) as (A & B & _ & Ev & R2 & Sl & Sh). pose proof (gain_checked w) as G. unfold check_gain in G. cbv zeta in G.
  apply andb_true_iff in G. destruct G as [G1 G2]. apply Z.leb_le in G1, G2.
  intros c k. unfold analysed. destruct (lengths w) as [La _]. rewrite La.
  rewrite (rsum_ext (filter_length w) _ (fun i => c * zn 0 (lows w) i)) by (intros; cbv beta; ring). rewrite rsum_scal.
  match goal with |- Rabs ?u <= _ => replace u with ((rsum (filter_length w) (zn 0 (lows w)) - sqrt 2) * c) by ring end.
  rewrite Rabs_mult. apply Rmult_le_compat_r; [apply Rabs_pos|].
  pose proof (sum_near (low w) (filter_length w) A ltac:(lia) Sl) as N. fold (lows w) in N. change (fun i => zn 0 (lows w) i) with (zn 0 (lows w)) in N. set (s := total (low w)) in *. clearbody s.
  set (r := rsum _ _) in *. clearbody r.
  assert (T : Rabs (IZR s / E14 - sqrt 2) <= 5 / IZR (10 ^ 14)).
  { assert (P : 0 < E14) by apply E14_pos. pose proof (sqrt_sqrt 2 ltac:(lra)) as SS. pose proof (sqrt_pos 2) as SP.
    set (q := sqrt 2) in *. clearbody q. apply IZR_le in G1, G2. rewrite abs_IZR, minus_IZR, !mult_IZR in G2.
    assert (E : IZR (10 ^ 28) = E14 * E14) by (unfold E14; rewrite <- mult_IZR; reflexivity). rewrite E in G2. change (IZR (10 ^ 14)) with E14 in *.
    assert (G1' : 14 / 10 * E14 <= IZR s) by (eapply Rle_trans; [|apply G1]; unfold E14; right; vm_compute (10 ^ 14)%Z; lra).
    assert (Q : 14 / 10 <= q) by nra.
    set (v := IZR s / E14). assert (Hv : IZR s = v * E14) by (unfold v; field; lra). rewrite Hv in *. clear Hv. clearbody v.
    assert (V : 14 / 10 <= v) by nra.
    assert (K : Rabs (v * v - 2) * (E14 * E14) <= 14 * E14).
    { rewrite <- (Rabs_pos_eq (E14 * E14)) at 1 by nra. rewrite <- Rabs_mult. eapply Rle_trans; [|apply G2]. right. f_equal. ring. }
    assert (K' : Rabs (v * v - 2) * E14 <= 14) by (apply Rmult_le_reg_r with E14; auto; rewrite Rmult_assoc; apply K).
    replace (v * v - 2) with ((v - q) * (v + q)) in K' by (ring_simplify; lra). rewrite Rabs_mult, (Rabs_pos_eq (v + q)) in K' by lra.
    apply Rmult_le_reg_r with E14; auto. unfold Rdiv. rewrite Rmult_assoc, Rinv_l, Rmult_1_r by lra. pose proof (Rabs_pos (v - q)). nra. }
  replace (r - sqrt 2) with ((r - IZR s / E14) + (IZR s / E14 - sqrt 2)) by ring.
  eapply Rle_trans; [apply Rabs_triang|]. pose proof U_bound. assert (IZR (filter_length w) <= 102) by (apply IZR_le; lia). pose proof U_pos.
  assert (Rabs (r - IZR s / E14) <= 102 * (4440892098501 / IZR (10 ^ 28))) by nra.
  assert (Z1 : 102 * (4440892098501 / IZR (10 ^ 28)) <= 49 / IZR (10 ^ 15)) by (vm_compute (10 ^ 28)%Z; vm_compute (10 ^ 15)%Z; lra).
  assert (Z2 : 49 / IZR (10 ^ 15) + 5 / IZR (10 ^ 14) <= / IZR (10 ^ 13)) by (vm_compute (10 ^ 15)%Z; vm_compute (10 ^ 14)%Z; vm_compute (10 ^ 13)%Z; lra).
  lra.
Qed.
