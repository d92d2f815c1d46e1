(** Autocorrelation in IEEE doubles: proofs. *)
From Coq Require Import ZArith Reals Lia Lra Psatz List Bool.
From Flocq Require Import Core.
From Flocq.IEEE754 Require Import BinarySingleNaN.
From Verif.Base Require Import Imp Sums RealOps Dbl Double Loops.
From Verif.Maths Require Import DoubleModel DoubleProofs StatDouble StatDoubleSpec StatDoubleProofs DotDouble.
From Verif.Measures Require Import AutoDouble AutoDoubleSpec.
Import ListNotations.
Open Scope R_scope.
Local Notation u := uro.
Local Notation eta := (bpow radix2 (-1075)).

Lemma dEPS_val : finite dEPS /\ 0 < dval dEPS /\ Rabs (dval dEPS - 22204 / 100000000000000000000) <= bpow radix2 (-105).
Proof.
  destruct (dmake_ok 9007012456789634 (-105)) as [F V].
  { apply (small_huge _ 0); [|lia]. unfold F2R. cbn [Fnum Fexp]. change (bpow radix2 (-105)) with (/ 40564819207303340847894502572032). change (bpow radix2 0) with 1.
    rewrite Rabs_pos_eq; lra. }
  fold dEPS in F, V. split; [exact F|]. rewrite V, rnd_format.
  - unfold F2R. cbn [Fnum Fexp]. change (bpow radix2 (-105)) with (/ 40564819207303340847894502572032). split; [lra|]. apply Rabs_le. lra.
  - apply generic_format_FLT. exists (Float radix2 9007012456789634 (-105)); [reflexivity|cbn; lia|cbn; lia].
Qed.

Section Auto.
  Context (n : Z) (src : list double) (Hn : (0 <= n <= 2147483647)%Z) (Hf : all_finite n src).
  Context (B : R) (HB : forall j, (0 <= j < n)%Z -> Rabs (dval (zn d0 src j)) <= B) (Hc : IZR n * (B * B) <= bpow radix2 990).

  Definition dlag (i : Z) : double := ddiv (fsum d0 dadd (n - i) (fun k => dmul (zn d0 src k) (zn d0 src (k + i)))) (dint (n - i)).
  Definition dvalue (i : Z) : double := if Bleb (dlag i) d0 then dEPS else dlag i.

  Lemma dauto_runs dst : (n <= zlen dst)%Z -> dauto src dst n = OK (ztab n dvalue ++ skipn (Z.to_nat n) dst).
  Proof.
    intros Ld. destruct Hf as [Ls _]. unfold dauto. rewrite (for_up_tab n _ dvalue); [reflexivity|lia|].
    intros i s Hi _ _ _.
    match goal with |- context [for_up i n ?F ?S] =>
      destruct (for_up_inv (fun j s => s = fsum d0 dadd (j - i) (fun k => dmul (zn d0 src k) (zn d0 src (k + i)))) i n F S) as (t & E & ->); [lia| | |] end.
    - rewrite fsum_0 by lia. reflexivity.
    - intros j t Hj ->. rewrite !(aget_OK d0) by lia. ret. ret. eexists; split; [reflexivity|].
      replace (j + 1 - i)%Z with (j - i + 1)%Z by lia. rewrite fsum_S by lia. replace (j - i + i)%Z with j by lia. reflexivity.
    - rewrite E. ret. reflexivity.
  Qed.

  Lemma dlag_near i : (0 <= i < n)%Z -> finite (dlag i) /\ Rabs (dval (dlag i) - lagged n src i) <= 1002 / 1000 * IZR (n - i + 1) * u * (B * B) + bpow radix2 (-1073).
  Proof.
    intros Hi. destruct Hf as [_ F]. unfold dlag, lagged. set (m := (n - i)%Z). assert (Hm : (1 <= m <= n)%Z) by (unfold m; lia).
    rewrite plus_IZR. set (N := IZR m). assert (N1 : 1 <= N) by (apply (IZR_le 1); lia). assert (N2 : N <= 2147483647) by (apply IZR_le; lia).
    assert (NN : N <= IZR n) by (apply IZR_le; lia).
    pose proof uro_pos as U. pose proof uro_val as UV. assert (ET : 0 < eta) by apply bpow_gt_0.
    assert (B0 : 0 <= B) by (eapply Rle_trans; [apply Rabs_pos|apply (HB i); lia]). set (Q := B * B) in *. assert (Q0 : 0 <= Q) by (apply Rmult_le_pos; lra).
    assert (T : total m (fun k => dval (zn d0 src k) * dval (zn d0 src (k + i))) <= N * Q).
    { unfold total, N, Q. rewrite <- (rsum_const m) by lia. apply rsum_le. intros k Hk. rewrite Rabs_mult. apply Rmult_le_compat; auto using Rabs_pos; apply HB; unfold m in *; lia. }
    set (H := bpow radix2 990) in *. assert (NQ : N * Q <= H) by (eapply Rle_trans; [|exact Hc]; apply Rmult_le_compat_r; lra).
    assert (QH : Q <= H) by nra.
    destruct (dot_doubles m (zn d0 src) (fun k => zn d0 src (k + i))) as [Fs Es]; [lia|intros j Hj; split; apply F; unfold m in *; lia| |].
    { eapply Rle_trans; [exact T|]. eapply Rle_trans; [exact NQ|]. apply bpow_le. lia. }
    cbv beta in Fs, Es. fold N in Es. set (hs := fsum d0 dadd m _) in *. set (s := rsum m _) in *. set (t := total m _) in *.
    destruct (dint_ok m) as [Fm Vm]; [unfold two53; lia|]. fold N in Vm.
    assert (SB : Rabs s <= N * Q) by (eapply Rle_trans; [apply rsum_total; lia|exact T]).
    assert (K : N * u * t <= N * u * (N * Q)) by (apply Rmult_le_compat_l; [apply Rmult_le_pos; lra|exact T]).
    assert (Es' : Rabs (dval hs - s) <= N * (1001 / 1000 * (N * u * Q) + 2 * eta)).
    { eapply Rle_trans; [exact Es|]. replace (N * (1001 / 1000 * (N * u * Q) + 2 * eta)) with (1001 / 1000 * (N * u * (N * Q)) + 2 * N * eta) by ring.
      replace (1001 / 1000 * N * u * t) with (1001 / 1000 * (N * u * t)) by ring. lra. }
    assert (DIV : forall x y, Rabs x <= N * y -> Rabs (x / N) <= y).
    { intros x y Hx. unfold Rdiv. rewrite Rabs_mult, Rabs_inv, (Rabs_pos_eq N) by lra. apply Rmult_le_reg_r with N; [lra|]. rewrite Rmult_assoc, Rinv_l by lra. lra. }
    assert (E1 : Rabs (dval hs / N - s / N) <= 1001 / 1000 * (N * u * Q) + 2 * eta).
    { replace (dval hs / N - s / N) with ((dval hs - s) / N) by (field; lra). apply DIV. exact Es'. }
    pose proof (DIV s Q SB) as E2. assert (NU : N * u <= / 4000000) by (rewrite UV; lra). assert (NU0 : 0 <= N * u) by (apply Rmult_le_pos; lra).
    assert (NUQ : N * u * Q <= / 4000000 * Q) by (apply Rmult_le_compat_r; lra). assert (NUQ0 : 0 <= N * u * Q) by (apply Rmult_le_pos; lra).
    pose proof (near' _ _ _ _ E1 E2) as E3. assert (EH : eta <= / 4 * H).
    { change (/ 4) with (bpow radix2 (-2)). unfold H. rewrite <- bpow_plus. apply bpow_le. lia. }
    destruct (ddiv_ok hs (dint m) Fs) as [Fd Vd].
    { rewrite Vm. lra. }
    { rewrite Vm. apply (small_huge _ 992); [|lia]. change 992%Z with (2 + 990)%Z. rewrite bpow_plus. fold H. change (bpow radix2 2) with 4. lra. }
    rewrite Vm in Vd. split; [exact Fd|]. pose proof (rnd_error (dval hs / N)) as Ed. rewrite <- Vd in Ed.
    match goal with |- Rabs (dval ?d - _) <= _ => replace (dval d - s / N) with ((dval d - dval hs / N) + (dval hs / N - s / N)) by ring end.
    eapply Rle_trans; [apply Rabs_triang|].
    assert (UE : u * Rabs (dval hs / N) <= u * (Q + (1001 / 1000 * (N * u * Q) + 2 * eta))) by (apply Rmult_le_compat_l; lra).
    assert (UQ : 0 <= u * Q) by (apply Rmult_le_pos; lra). assert (UNQ : u * (N * u * Q) <= / 4000000 * (u * Q)).
    { replace (u * (N * u * Q)) with (N * u * (u * Q)) by ring. apply Rmult_le_compat_r; lra. }
    assert (Ueta : u * eta <= / 100 * eta) by (apply Rmult_le_compat_r; lra).
    change (bpow radix2 (-1073)) with (bpow radix2 (2 + -1075)). rewrite bpow_plus. change (bpow radix2 2) with 4.
    replace (u * (Q + (1001 / 1000 * (N * u * Q) + 2 * eta))) with (u * Q + 1001 / 1000 * (u * (N * u * Q)) + 2 * (u * eta)) in UE by ring.
    replace (1002 / 1000 * (N + 1) * u * Q) with (1002 / 1000 * (N * u * Q) + 1002 / 1000 * (u * Q)) by ring. lra.
  Qed.

  Theorem auto_doubles dst : (n <= zlen dst)%Z ->
    exists dst', dauto src dst n = OK dst' /\ zlen dst' = zlen dst /\ (forall i, (n <= i)%Z -> zn d0 dst' i = zn d0 dst i) /\
      forall i, (0 <= i < n)%Z -> finite (zn d0 dst' i) /\ 0 < dval (zn d0 dst' i) /\
        floored_within (1002 / 1000 * IZR (n - i + 1) * u * (B * B) + bpow radix2 (-1073)) (lagged n src i) (dval (zn d0 dst' i)).
  Proof.
    intros Ld. eexists. split; [apply dauto_runs; exact Ld|]. split; [zl; lia|]. split.
    { intros i Hi. rewrite zn_app, zlen_ztab, Z.max_r by lia. destruct (Z.ltb_spec i n); [lia|]. rewrite zn_skipn by lia. f_equal. lia. }
    intros i Hi. rewrite zn_app, zlen_ztab, Z.max_r by lia. destruct (Z.ltb_spec i n); [|lia]. rewrite zn_ztab by lia. unfold dvalue.
    destruct (dlag_near i Hi) as [F E]. destruct dEPS_val as (FE & PE & VE). rewrite Bleb_correct by (exact F || reflexivity).
    change (B2R d0) with 0. destruct (Rle_bool_spec (B2R (dlag i)) 0) as [L|L]; fold (dval (dlag i)) in L.
    - split; [exact FE|]. split; [exact PE|]. right. split; [exact VE|]. apply Rabs_le_inv in E. lra.
    - split; [exact F|]. split; [exact L|]. left. split; [exact L|exact E].
  Qed.
End Auto.

(** A case: 1, -2, 3. *)
Lemma auto_case : all_finite 3 [dint 1; dint (-2); dint 3] /\ (forall j, (0 <= j < 3)%Z -> Rabs (dval (zn d0 [dint 1; dint (-2); dint 3] j)) <= 3) /\
  IZR 3 * (3 * 3) <= bpow radix2 990 /\ lagged 3 [dint 1; dint (-2); dint 3] 1 = -4 /\ lagged 3 [dint 1; dint (-2); dint 3] 2 = 3.
Proof.
  assert (D : forall z, (Z.abs z <= 3)%Z -> finite (dint z) /\ dval (dint z) = IZR z) by (intros z Hz; apply dint_ok; unfold two53; lia).
  destruct (D 1%Z) as [F1 V1]; [lia|]. destruct (D (-2)%Z) as [F2 V2]; [lia|]. destruct (D 3%Z) as [F3 V3]; [lia|].
  assert (J3 : forall j, (0 <= j < 3)%Z -> j = 0%Z \/ j = 1%Z \/ j = 2%Z) by lia.
  split; [split; [cbn; lia|]; intros j Hj; destruct (J3 j Hj) as [-> | [-> | ->]]; assumption|].
  split; [intros j Hj; destruct (J3 j Hj) as [-> | [-> | ->]]; [change (Rabs (dval (dint 1)) <= 3)|change (Rabs (dval (dint (-2))) <= 3)|change (Rabs (dval (dint 3)) <= 3)]; rewrite ?V1, ?V2, ?V3; apply Rabs_le; lra|].
  split; [apply Rle_trans with (bpow radix2 5); [change (bpow radix2 5) with 32; lra|apply bpow_le; lia]|].
  unfold lagged. change (3 - 1)%Z with 2%Z. change (3 - 2)%Z with 1%Z.
  assert (R1 : forall f, rsum 1 f = 0 + f 0%Z) by (intros f; exact (eq_refl : rsum 1 f = 0 + f 0%Z)).
  assert (R2 : forall f, rsum 2 f = 0 + f 0%Z + f 1%Z) by (intros f; exact (eq_refl : rsum 2 f = 0 + f 0%Z + f 1%Z)).
  rewrite R1, R2. change (1 + 1)%Z with 2%Z. change (0 + 2)%Z with 2%Z. change (0 + 1)%Z with 1%Z. change (zn d0 [dint 1; dint (-2); dint 3] 0) with (dint 1). change (zn d0 [dint 1; dint (-2); dint 3] 1) with (dint (-2)).
  change (zn d0 [dint 1; dint (-2); dint 3] 2) with (dint 3).
  rewrite ?V1, ?V2, ?V3. split; field.
Qed.
