(** filter_df: forward and backward filtering is a symmetric operator (no phase shift). *)
From Coq Require Import List ZArith Reals Lia Lra Bool.
From Verif.Base Require Import Imp Sums RealOps Arith Loops.
From Verif.Tempo Require Import PeriodModel PeriodSpec.
Import ListNotations.
Open Scope Z_scope.
Local Notation Rn := (zn 0%R).

(** *** One pass *)
Definition bw (x1 x2 x3 y1 y2 : R) : R :=
  (2066 / 10000 * x1 + 4131 / 10000 * x2 + 2066 / 10000 * x3 + 3695 / 10000 * y1 - 1958 / 10000 * y2)%R.

Lemma butter_ok df lp : zlen lp = zlen df ->
  exists y, butter (aget df) (zlen df) lp = OK y /\ zlen y = zlen df /\ butterworth_output (zlen df) (Rn df) (Rn y).
Proof.
  intros L. pose proof (zlen_nonneg df). unfold butter.
  match goal with |- context [for_up 0 (zlen df) ?F ?S] =>
    destruct (for_up_inv (fun i '(l, i1, i2, o1, o2) => exists y, l = y ++ skipn (Z.to_nat i) lp /\ zlen y = i /\
       i1 = Rn df (i - 1) /\ i2 = Rn df (i - 2) /\ o1 = Rn y (i - 1) /\ o2 = Rn y (i - 2) /\
       forall k, 0 <= k < i -> Rn y k = bw (Rn df k) (Rn df (k - 1)) (Rn df (k - 2)) (Rn y (k - 1)) (Rn y (k - 2))) 0 (zlen df) F S)
      as ([[[[l i1] i2] o1] o2] & E & y & -> & Ly & _ & _ & _ & _ & V) end.
  - lia.
  - exists []. splits; auto; try (intros; lia); rewrite ?zn_nil, ?zn_out by lia; reflexivity.
  - intros i [[[[l i1] i2] o1] o2] Hi (y & -> & Ly & -> & -> & -> & -> & V).
    rewrite (aget_OK 0%R) by lia. ret. rewrite aset_OK by (zl; lia). ret. eexists; split; [reflexivity|]. cbv beta iota.
    set (v := (_ - _)%R). assert (Ev : v = bw (Rn df i) (Rn df (i - 1)) (Rn df (i - 2)) (Rn y (i - 1)) (Rn y (i - 2))).
    { unfold v, bw. ring. }
    exists (y ++ [v]).
    assert (OT : forall k, k < i -> Rn (y ++ [v]) k = Rn y k).
    { intros k Hk. destruct (Z.lt_ge_cases k 0); [now rewrite !zn_out by (zl; lia)|]. rewrite zn_app. zcase. reflexivity. }
    assert (NW : Rn (y ++ [v]) i = v).
    { rewrite zn_app. zcase. replace (i - zlen y) with 0 by lia. reflexivity. }
    splits.
    + rewrite <- app_assoc. cbn [app]. apply (zn_ext 0%R); [zl; lia|]. intros k Hk. zl. rewrite zn_upd by (zl; lia).
      rewrite !zn_app, zn_cons. zcase; subst; try lia; auto; rewrite !zn_skipn by lia; f_equal; lia.
    + zl. lia.
    + f_equal. lia.
    + f_equal. lia.
    + replace (i + 1 - 1) with i by lia. now rewrite NW.
    + rewrite OT by lia. f_equal. lia.
    + intros k Hk. destruct (Z.eq_dec k i) as [->|].
      * rewrite NW, !OT by lia. exact Ev.
      * rewrite !OT by lia. apply V. lia.
  - rewrite E. ret. rewrite skipn_zlen, app_nil_r by lia. exists y. splits; auto. split.
    + intros i Hi. rewrite !zn_out by lia. auto.
    + intros i Hi. rewrite V by lia. unfold bw. ring.
Qed.

Lemma reverse_loop (l df : list R) n : zlen l = n -> zlen df = n ->
  for_up 0 n (fun i df => v <- aget l (n - i - 1) ;; aset df i v) df = OK (rev l).
Proof.
  intros L1 L2. pose proof (zlen_nonneg l).
  rewrite (for_up_tab n _ (fun i => Rn l (n - i - 1))); [|lia|].
  - rewrite skipn_zlen, app_nil_r by lia. f_equal. apply (zn_ext 0%R); [zl; lia|]. intros k Hk. zl.
    rewrite zn_ztab, zn_rev by lia. f_equal. lia.
  - intros i s Hi Ls _ _. rewrite (aget_OK 0%R) by lia. now ret.
Qed.

Theorem filter_df_ok df : exists y out, filter_df df = OK out /\ zlen y = zlen df /\ zlen out = zlen df /\
  butterworth_output (zlen df) (Rn df) (Rn y) /\ butterworth_output (zlen df) (Rn (rev y)) (Rn (rev out)).
Proof.
  pose proof (zlen_nonneg df). unfold filter_df.
  destruct (butter_ok df (repeat 0%R (Z.to_nat (zlen df)))) as (y & E & Ly & B); [zl; lia|]. rewrite E. ret.
  rewrite reverse_loop by lia. ret.
  rewrite (for_up_tab (zlen df) _ (fun _ => 0%R)); [|lia|auto]. ret. rewrite skipn_zlen, app_nil_r by lia.
  destruct (butter_ok (rev y) (ztab (zlen df) (fun _ => 0%R))) as (z & E2 & Lz & B2); [zl; lia|].
  rewrite zlen_rev, Ly in *. rewrite E2. ret.
  rewrite reverse_loop by (zl; lia). exists y, (rev z). splits; auto; [zl; lia|]. now rewrite rev_involutive.
Qed.

(** *** Impulse response *)
Fixpoint hpair (n : nat) : R * R :=  (* (h n, h (n-1)) *)
  match n with
  | O => (2066 / 10000, 0)
  | S m => let '(a, b) := hpair m in
           (match m with O => 4131 / 10000 | S O => 2066 / 10000 | _ => 0 end + 3695 / 10000 * a - 1958 / 10000 * b, a)
  end%R.
Definition h (k : Z) : R := if k <? 0 then 0%R else fst (hpair (Z.to_nat k)).
Definition dl (k : Z) : R := if k =? 0 then 1%R else 0%R.
Lemma h_rec k : h k = bw (dl k) (dl (k - 1)) (dl (k - 2)) (h (k - 1)) (h (k - 2)).
Proof.
  unfold h, dl, bw. destruct (Z.lt_ge_cases k 0).
  { zcase; try lia. ring. }
  destruct (Z.eq_dec k 0) as [->|].
  { change (Z.to_nat 0) with 0%nat. cbn [hpair fst]. zcase; try lia. lra. }
  destruct (Z.eq_dec k 1) as [->|].
  { change (Z.to_nat 1) with 1%nat. change (Z.to_nat (1 - 1)) with 0%nat. cbn [hpair fst]. zcase; try lia. lra. }
  assert (exists m, Z.to_nat k = S (S m)) as (m & Em) by (exists (Z.to_nat (k - 2)); lia).
  assert (E1 : Z.to_nat (k - 1) = S m) by lia. assert (E2 : Z.to_nat (k - 2) = m) by lia.
  rewrite Em, E1, E2. zcase; try lia; cbn [hpair]; destruct (hpair m) as [a b]; cbn [fst]; destruct m; try lia; lra.
Qed.
Lemma h_neg k : k < 0 -> h k = 0%R.
Proof. intros H. unfold h. zcase; auto. Qed.

Lemma rsum_dl n f i : 0 <= i < n -> rsum n (fun j => (f j * dl (i - j))%R) = f i.
Proof.
  intros Hi. replace n with (i + (1 + (n - i - 1))) by lia. rewrite rsum_split by lia. rewrite rsum_split by lia.
  rewrite rsum_zero. 2: { intros j Hj. unfold dl. zcase. ring. }
  rewrite (rsum_zero (n - i - 1)). 2: { intros j Hj. unfold dl. zcase. ring. }
  change 1 with (0 + 1). rewrite rsum_S, rsum_0 by lia. unfold dl. zcase. rewrite Z.add_0_r. lra.
Qed.
Lemma rsum_dl_out n f i : i < 0 \/ n <= i -> rsum n (fun j => (f j * dl (i - j))%R) = 0%R.
Proof. intros Hi. apply rsum_zero. intros j Hj. unfold dl. zcase. ring. Qed.

Lemma conv n x y : butterworth_output n x y -> forall i, i < n -> y i = rsum n (fun j => (x j * h (i - j)%Z)%R).
Proof.
  intros [Z0 B].
  assert (DX : forall i, i < n -> rsum n (fun j => (x j * dl (i - j))%R) = x i).
  { intros i Hi. destruct (Z.lt_ge_cases i 0); [|now apply rsum_dl]. rewrite rsum_dl_out by lia. symmetry. now apply Z0. }
  assert (G : forall m i, i < n -> i < Z.of_nat m -> y i = rsum n (fun j => (x j * h (i - j)%Z)%R)).
  { induction m as [|m IH]; intros i Hi Hm.
    - rewrite rsum_zero; [now apply Z0|]. intros j Hj. rewrite h_neg by lia. ring.
    - destruct (Z.lt_ge_cases i 0).
      { rewrite rsum_zero; [now apply Z0|]. intros j Hj. rewrite h_neg by lia. ring. }
      rewrite B by lia. rewrite (IH (i - 1)), (IH (i - 2)) by lia.
      rewrite <- (DX i), <- (DX (i - 1)), <- (DX (i - 2)) by lia.
      rewrite <- !rsum_scal, <- !rsum_plus, <- rsum_minus. apply rsum_ext. intros j Hj.
      rewrite (h_rec (i - j)). unfold bw. replace (i - 1 - j) with (i - j - 1) by lia. replace (i - 2 - j) with (i - j - 2) by lia. ring. }
  intros i Hi. apply (G (Z.to_nat (i + 1))); lia.
Qed.

(** Input [x] to output of the two passes, as a kernel. *)
Definition kernel (n i k : Z) : R := rsum n (fun m => (h (m - i) * h (m - k))%R).
Lemma kernel_sym n i k : kernel n i k = kernel n k i.
Proof. apply rsum_ext. intros. ring. Qed.
Lemma kernel_pos n x : (0 <= rsum n (fun i => rsum n (fun k => x i * kernel n i k * x k)))%R.
Proof.
  rewrite (rsum_ext n _ (fun i => rsum n (fun m => rsum n (fun k => (x i * h (m - i) * (h (m - k) * x k))%R)))).
  2: { intros i Hi. rewrite rsum_swap. apply rsum_ext. intros k Hk. unfold kernel.
       replace (x i * rsum n (fun m => h (m - i) * h (m - k)) * x k)%R with ((x i * x k) * rsum n (fun m => h (m - i) * h (m - k)))%R by ring.
       rewrite <- rsum_scal. apply rsum_ext. intros. ring. }
  rewrite rsum_swap. apply rsum_nonneg. intros m Hm.
  rewrite (rsum_ext n _ (fun i => (rsum n (fun k => (h (m - k) * x k)) * (h (m - i) * x i))%R)).
  2: { intros i Hi. rewrite rsum_scal. ring. }
  rewrite rsum_scal. set (v := rsum n _). nra.
Qed.
Theorem filter_df_kernel df : exists out, filter_df df = OK out /\ zlen out = zlen df /\
  forall i, 0 <= i < zlen df -> Rn out i = rsum (zlen df) (fun k => (kernel (zlen df) i k * Rn df k)%R).
Proof.
  destruct (filter_df_ok df) as (y & out & E & L1 & L2 & B1 & B2). exists out. splits; auto.
  intros i Hi. set (n := zlen df) in *.
  pose proof (conv _ _ _ B2 (n - 1 - i) ltac:(lia)) as C. rewrite zn_rev in C by lia.
  replace (zlen out - 1 - (n - 1 - i)) with i in C by lia. rewrite C.
  rewrite <- rsum_rev. rewrite (rsum_ext n _ (fun m => rsum n (fun k => (h (m - i) * h (m - k) * Rn df k)%R))).
  - rewrite rsum_swap. apply rsum_ext. intros k Hk. unfold kernel. rewrite Rmult_comm, <- rsum_scal.
    apply rsum_ext. intros. ring.
  - intros j Hj. rewrite zn_rev by lia.
    replace (n - 1 - i - (n - 1 - j)) with (j - i) by lia. replace (zlen y - 1 - (n - 1 - j)) with j by lia.
    rewrite (conv _ _ _ B1 j) by lia. rewrite Rmult_comm, <- rsum_scal. apply rsum_ext. intros. ring.
Qed.
