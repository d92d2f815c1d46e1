(** Over whole streams: a stable filter keeps its rounding errors bounded. *)
From Coq Require Import ZArith Reals Lia Lra Psatz List Bool.
From Flocq Require Import Core.
From Verif.Base Require Import Imp Sums RealOps Dbl Double Loops.
From Verif.Maths Require Import DoubleModel DoubleProofs.
From Verif.Signal Require Import FilterModel FilterSpec FilterProofs FilterDoubleSpec FilterDoubleProofs.
Import ListNotations.
Open Scope R_scope.

Lemma zn_values (l : list double) t : zn 0 (map dval l) t = dval (zn d0 l t).
Proof.
  destruct (Z_lt_le_dec t 0) as [C|C]; [rewrite !zn_out by lia; reflexivity|]. destruct (Z_lt_le_dec t (zlen l)) as [D|D].
  - apply (zn_map dval d0); lia.
  - rewrite !zn_out; [reflexivity|lia|right; zl; lia].
Qed.
Lemma zn_neg {A} (d : A) l i : (i < 0)%Z -> zn d l i = d.
Proof. intros H. apply zn_out. lia. Qed.

Lemma exact_response a b x z s : accepted a b -> is_response 0 Rplus Rminus Rmult (map dval a) (map dval b) (map dval x) z -> (0 <= s < zlen x)%Z ->
  zn 0 z s = rsum (zlen b) (fun i => dval (zn d0 b i) * dval (zn d0 x (s - i))) - rsum (zlen a - 1) (fun i => dval (zn d0 a (i + 1)) * zn 0 z (s - (i + 1))).
Proof.
  intros AC (_ & R) Hs. rewrite R by (zl; lia). unfold diff_eq_at.
  assert (LB : zlen (map dval b) = zlen b) by (zl; reflexivity). rewrite LB. fold (rsum (zlen b)).
  assert (E : rsum (zlen b) (fun i => zn 0 (map dval b) i * zn 0 (map dval x) (s - i)) = rsum (zlen b) (fun i => dval (zn d0 b i) * dval (zn d0 x (s - i)))).
  { apply rsum_ext. intros. rewrite !zn_values. reflexivity. }
  destruct a as [|a0 ar].
  - cbn [map]. rewrite (rsum_0 (zlen [] - 1)) by (cbn; lia). rewrite Rminus_0_r. exact E.
  - cbn [map]. change (dval a0 :: map dval ar) with (map dval (a0 :: ar)). set (a := a0 :: ar) in *.
    assert (LA : zlen a = zlen b) by (destruct AC as [[C _]|[_ C]]; [discriminate C|exact C]). rewrite LA. f_equal; [exact E|].
    apply rsum_ext. intros. rewrite zn_values. reflexivity.
Qed.

Section Stable.
  Context (a b x y : list double) (z : list R) (h : Z -> R) (G M : R).
  Context (AC : accepted a b) (Hn : (zlen b <= 2147483647)%Z) (Fa : coefficients_finite a) (Fb : coefficients_finite b).
  Context (RY : is_response d0 dadd dsub dmul a b x y) (RZ : is_response 0 Rplus Rminus Rmult (map dval a) (map dval b) (map dval x) z).
  Context (Hh : recursive_response a h) (HG : forall n, rsum n (fun k => Rabs (h k)) <= G).
  Context (HM : 0 <= M) (HX : finite_within M x).
  Notation n := (zlen b).
  Notation beta := (weight_sum b).
  Notation alpha := (tail_sum a).
  Notation c := (fun i => dval (zn d0 a (i + 1))).
  Notation m := (zlen a - 1)%Z.
  Definition peak : R := 2 * G * (beta * M + step_tiny n).
  Definition step_bound : R := step_error n * (beta * M + alpha * peak) + step_tiny n.
  Context (HE : step_error n * (1 + 2 * alpha * G) <= 1) (HL : beta * M + alpha * peak <= bpow radix2 990).

  Lemma x_any t : finite (zn d0 x t) /\ Rabs (dval (zn d0 x t)) <= M.
  Proof.
    destruct (Z_lt_le_dec t 0) as [C|C]; [|destruct (Z_lt_le_dec t (zlen x)) as [D|D]; [apply HX; lia|]].
    - rewrite zn_neg by exact C. split; [reflexivity|]. change (dval d0) with 0. rewrite Rabs_R0. exact HM.
    - rewrite zn_out by lia. split; [reflexivity|]. change (dval d0) with 0. rewrite Rabs_R0. exact HM.
  Qed.
  Lemma beta_pos : 0 <= beta. Proof. apply rsum_nonneg. intros. apply Rabs_pos. Qed.
  Lemma alpha_pos : 0 <= alpha. Proof. apply rsum_nonneg. intros. apply Rabs_pos. Qed.
  Lemma eps_pos : 0 <= step_error n.
  Proof. unfold step_error. pose proof uro_pos. assert (0 <= IZR n) by (apply IZR_le, zlen_nonneg). apply Rmult_le_pos; lra. Qed.
  Lemma tiny_pos : 0 <= step_tiny n.
  Proof. unfold step_tiny. apply Rmult_le_pos; [apply IZR_le, zlen_nonneg|apply bpow_ge_0]. Qed.
  Lemma G_1 : 1 <= G.
  Proof. pose proof (HG 1) as H. change 1%Z with (0 + 1)%Z in H. rewrite rsum_S, rsum_0 in H by lia. destruct Hh as (_ & H1 & _). rewrite H1, Rabs_R1 in H. lra. Qed.

  Lemma input_bound s : rsum n (fun i => Rabs (dval (zn d0 b i) * dval (zn d0 x (s - i)))) <= beta * M.
  Proof.
    unfold weight_sum. rewrite Rmult_comm, <- rsum_scal. apply rsum_le. intros i Hi. rewrite Rabs_mult, Rmult_comm. apply Rmult_le_compat_r; [apply Rabs_pos|]. apply x_any.
  Qed.
  Lemma neg_y s : (s < 0)%Z -> dval (zn d0 y s) = 0. Proof. intros H. rewrite zn_neg by exact H. reflexivity. Qed.

  Lemma exact_bounded s : (s < zlen x)%Z -> Rabs (zn 0 z s) <= G * (beta * M).
  Proof.
    intros Hs. destruct Hh as (H0 & H1 & HS).
    apply (recursion_bound m c h G H0 H1 HS HG (zn 0 z) (fun s => rsum n (fun i => dval (zn d0 b i) * dval (zn d0 x (s - i)))) (zlen x - 1)).
    - intros k Hk. apply zn_neg. exact Hk.
    - intros t Ht. apply exact_response; [exact AC|exact RZ|lia].
    - intros t Ht. eapply Rle_trans; [apply rsum_abs|]. apply input_bound.
    - apply Rmult_le_pos; [apply beta_pos|exact HM].
    - lia.
  Qed.

  Definition close (s : Z) : Prop := finite (zn d0 y s) /\ Rabs (dval (zn d0 y s) - zn 0 z s) <= G * step_bound.
  Definition dist (s : Z) : R := dval (zn d0 y s) - exact_at a b x y s.
  Lemma bound_pos : 0 <= step_bound.
  Proof.
    pose proof eps_pos. pose proof tiny_pos. pose proof alpha_pos. pose proof beta_pos. pose proof G_1. unfold step_bound, peak.
    assert (0 <= beta * M) by (apply Rmult_le_pos; assumption). apply Rplus_le_le_0_compat; [|assumption]. apply Rmult_le_pos; [assumption|].
    apply Rplus_le_le_0_compat; [assumption|]. apply Rmult_le_pos; [assumption|]. apply Rmult_le_pos; lra.
  Qed.
  Lemma close_peak s : (s < zlen x)%Z -> close s -> Rabs (dval (zn d0 y s)) <= peak.
  Proof.
    intros Hs [_ E]. pose proof (near' _ _ _ _ E (exact_bounded s Hs)) as B. eapply Rle_trans; [exact B|]. unfold step_bound, peak.
    pose proof eps_pos as E0. pose proof tiny_pos as T0. pose proof alpha_pos as A0. pose proof beta_pos as B0. pose proof G_1 as G1.
    assert (BM : 0 <= beta * M) by (apply Rmult_le_pos; assumption). set (V := beta * M) in *. set (T := step_tiny n) in *.
    assert (K : step_error n * (V + alpha * (2 * G * (V + T))) <= V + T).
    { apply Rle_trans with (step_error n * (1 + 2 * alpha * G) * (V + T)); [|rewrite <- (Rmult_1_l (V + T)) at 2; apply Rmult_le_compat_r; lra].
      replace (step_error n * (1 + 2 * alpha * G) * (V + T)) with (step_error n * (V + T + alpha * (2 * G * (V + T)))) by ring. apply Rmult_le_compat_l; lra. }
    replace (2 * G * (V + T)) with (G * V + G * (V + T + T)) by ring.
    assert (G * (step_error n * (V + alpha * (2 * G * (V + T))) + T) <= G * (V + T + T)) by (apply Rmult_le_compat_l; lra). lra.
  Qed.
  Lemma peak_pos : 0 <= peak.
  Proof. unfold peak. pose proof tiny_pos. pose proof beta_pos. pose proof G_1. assert (0 <= beta * M) by (apply Rmult_le_pos; assumption). apply Rmult_le_pos; lra. Qed.

  Lemma near_step s : (0 <= s < zlen x)%Z -> (forall t, (0 <= t < s)%Z -> close t) -> finite (zn d0 y s) /\ Rabs (dist s) <= step_bound.
  Proof.
    intros Hs IH. assert (YB : forall t, (t < s)%Z -> finite (zn d0 y t) /\ Rabs (dval (zn d0 y t)) <= peak).
    { intros t Ht. destruct (Z_lt_le_dec t 0) as [C|C].
      - rewrite zn_neg by exact C. split; [reflexivity|]. change (dval d0) with 0. rewrite Rabs_R0. apply peak_pos.
      - split; [apply IH; lia|]. apply close_peak; [lia|]. apply IH. lia. }
    assert (LB : load_at a b x y s <= beta * M + alpha * peak).
    { unfold load_at. apply Rplus_le_compat; [apply input_bound|]. unfold tail_sum. rewrite (Rmult_comm _ peak), <- rsum_scal. apply rsum_le. intros i Hi.
      rewrite Rabs_mult, Rmult_comm. apply Rmult_le_compat_r; [apply Rabs_pos|]. apply YB. lia. }
    destruct (step_doubles a b x y s AC Hn) as [F E].
    - split; [exact Fb|]. split; [exact Fa|]. split; [intros; apply x_any|]. intros i Hi. apply YB. lia.
    - lra.
    - destruct RY as [_ R]. unfold dist. rewrite R by exact Hs. split; [exact F|]. eapply Rle_trans; [exact E|]. unfold step_bound.
      apply Rplus_le_compat_r. apply Rmult_le_compat_l; [apply eps_pos|exact LB].
  Qed.
  Lemma close_next s : (0 <= s < zlen x)%Z -> (forall t, (0 <= t < s)%Z -> close t) -> close s.
  Proof.
    intros Hs IH. assert (D : forall t, (0 <= t <= s)%Z -> finite (zn d0 y t) /\ Rabs (dist t) <= step_bound) by (intros t Ht; apply near_step; [lia|intros r Hr; apply IH; lia]).
    split; [apply D; lia|]. destruct Hh as (H0 & H1 & HS).
    apply (recursion_bound m c h G H0 H1 HS HG (fun s => dval (zn d0 y s) - zn 0 z s) dist s).
    - intros k Hk. rewrite neg_y, zn_neg by exact Hk. ring.
    - intros t Ht. unfold dist, exact_at. rewrite (exact_response a b x z t AC RZ) by lia.
      rewrite (rsum_ext m (fun i => dval (zn d0 a (i + 1)) * (dval (zn d0 y (t - (i + 1))) - zn 0 z (t - (i + 1))))
        (fun i => dval (zn d0 a (i + 1)) * dval (zn d0 y (t - (i + 1))) - dval (zn d0 a (i + 1)) * zn 0 z (t - (i + 1)))) by (intros; ring).
      rewrite rsum_minus. ring.
    - intros t Ht. apply D. exact Ht.
    - apply bound_pos.
    - lia.
  Qed.
  Lemma close_all s : (0 <= s < zlen x)%Z -> close s.
  Proof.
    intros Hs. assert (A : forall k, (0 <= k)%Z -> forall t, (0 <= t < k)%Z -> (t < zlen x)%Z -> close t).
    - apply (natlike_ind (fun k => forall t, (0 <= t < k)%Z -> (t < zlen x)%Z -> close t)); [intros; lia|].
      intros k Hk IH t Ht Htx. apply close_next; [lia|]. intros r Hr. apply IH; lia.
    - apply (A (s + 1)%Z); lia.
  Qed.
End Stable.

Theorem filter_local_doubles a b calls : accepted a b -> fir_or_order1 a b -> room calls -> (zlen b <= 2147483647)%Z ->
  coefficients_finite a -> coefficients_finite b ->
  exists f f' outs, filter_new d0 a b = OK f /\ filter_run d0 dadd dsub dmul f calls = OK (f', outs) /\ Forall2 rest_untouched calls outs /\
    let x := concat (map fst calls) in let y := produced calls outs in zlen y = zlen x /\
    forall s, (0 <= s < zlen x)%Z -> (forall i, (0 <= i < zlen b)%Z -> finite (zn d0 x (s - i))) -> (forall i, (0 <= i < zlen a - 1)%Z -> finite (zn d0 y (s - (i + 1)))) ->
      load_at a b x y s <= bpow radix2 990 ->
      finite (zn d0 y s) /\ Rabs (dval (zn d0 y s) - exact_at a b x y s) <= step_error (zlen b) * load_at a b x y s + step_tiny (zlen b).
Proof.
  intros AC FO RM Hn Fa Fb. destruct (filter_stream d0 dadd dsub dmul a b calls AC FO RM) as (f & f' & outs & E1 & E2 & E3 & L & R).
  exists f, f', outs. split; [exact E1|]. split; [exact E2|]. split; [exact E3|]. cbv zeta. split; [exact L|]. intros s Hs Fx Fy HL. rewrite (R s Hs).
  apply step_doubles; [exact AC|exact Hn|repeat split; assumption|exact HL].
Qed.

Theorem filter_stable_doubles a b calls : accepted a b -> fir_or_order1 a b -> room calls -> (zlen b <= 2147483647)%Z ->
  coefficients_finite a -> coefficients_finite b ->
  forall h G M, recursive_response a h -> (forall n, rsum n (fun k => Rabs (h k)) <= G) ->
    0 <= M -> finite_within M (concat (map fst calls)) ->
    let peak := 2 * G * (weight_sum b * M + step_tiny (zlen b)) in
    step_error (zlen b) * (1 + 2 * tail_sum a * G) <= 1 -> weight_sum b * M + tail_sum a * peak <= bpow radix2 990 ->
  exists f f' outs z, filter_new d0 a b = OK f /\ filter_run d0 dadd dsub dmul f calls = OK (f', outs) /\ Forall2 rest_untouched calls outs /\
    is_response 0 Rplus Rminus Rmult (map dval a) (map dval b) (map dval (concat (map fst calls))) z /\
    zlen (produced calls outs) = zlen z /\
    forall s, (0 <= s < zlen z)%Z -> finite (zn d0 (produced calls outs) s) /\
      Rabs (dval (zn d0 (produced calls outs) s) - zn 0 z s) <= G * (step_error (zlen b) * (weight_sum b * M + tail_sum a * peak) + step_tiny (zlen b)).
Proof.
  intros AC FO RM Hn Fa Fb h G M Hh HG HM HX peak0 HE HL. destruct (filter_stream d0 dadd dsub dmul a b calls AC FO RM) as (f & f' & outs & E1 & E2 & E3 & RY).
  set (x := concat (map fst calls)) in *.
  destruct (filter_stream 0 Rplus Rminus Rmult (map dval a) (map dval b) [(map dval x, map dval x)]) as (_ & _ & outs' & _ & _ & _ & RZ).
  - destruct AC as [[-> B]|[A B]]; [left|right].
    + split; [reflexivity|]. destruct b; [contradiction|discriminate].
    + split; [destruct a; [contradiction|discriminate]|]. zl. exact B.
  - destruct FO as [-> |B]; [left; reflexivity|right; zl; exact B].
  - intros i o [H|[]]. injection H as <- <-. lia.
  - cbn [map fst concat] in RZ. rewrite app_nil_r in RZ.
    eexists f, f', outs, _. split; [exact E1|]. split; [exact E2|]. split; [exact E3|]. split; [exact RZ|]. destruct RY as [LY RY]. pose proof RZ as [LZ _].
    assert (LX : zlen (map dval x) = zlen x) by (zl; reflexivity). split; [rewrite LY, LZ, LX; reflexivity|].
    intros s Hs. rewrite LZ, LX in Hs. apply (close_all a b x (produced calls outs) _ h G M AC Hn Fa Fb (conj LY RY) RZ Hh HG HM HX HE HL s Hs).
Qed.
