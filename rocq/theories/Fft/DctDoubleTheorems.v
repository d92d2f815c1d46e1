(** Class DCT in IEEE doubles: the theorems. *)
From Coq Require Import ZArith Reals Lia Lra Psatz List Bool Znumtheory.
From Flocq Require Import Core.
From Verif.Base Require Import Imp Sums RealOps Dbl Double Loops.
From Verif.Maths Require Import DoubleModel DoubleProofs.
From Verif.Fft Require Import FftSpec FftDouble FftDoubleSpec FftDoubleProofs FftrDouble FftrDoubleSpec FftrDoubleTheorems FftrTwiddle DctMath DctProofs DctDouble DctDoubleSpec DctDoubleRuns DctDoubleProofs DctScale.
Import ListNotations.
Open Scope R_scope.

Local Notation u := uro.

Lemma idct2_orthonormal_eq n y j : (1 <= n)%Z -> idct2_unitary n y j = idct2_orthonormal n y j.
Proof.
  intros Hn. assert (N : 0 < IZR n) by (apply IZR_lt; lia).
  assert (Q0 : 0 < sqrt (1 / IZR n)) by (apply sqrt_lt_R0, Rdiv_lt_0_compat; lra).
  assert (S2 : sqrt 2 * sqrt 2 = 2) by (apply sqrt_sqrt; lra).
  assert (Q : sqrt (2 / IZR n) = sqrt 2 * sqrt (1 / IZR n)).
  { rewrite <- sqrt_mult_alt by lra. f_equal. field. lra. }
  unfold idct2_unitary, idct2, idct2_orthonormal. replace (rsum n) with (rsum (1 + (n - 1))) by (f_equal; lia). rewrite rsum_split by lia.
  assert (S1 : forall g, rsum 1 g = g 0%Z).
  { intros g. change 1%Z with (0 + 1)%Z. rewrite rsum_S, rsum_0 by lia. lra. }
  rewrite S1. cbn [Z.eqb].
  replace (cos (PI * 0 * IZR (2 * j + 1) / IZR (2 * n))) with 1.
  2:{ symmetry. replace (PI * 0 * IZR (2 * j + 1) / IZR (2 * n)) with 0 by (unfold Rdiv; ring). apply cos_0. }
  rewrite (rsum_ext (n - 1) (fun i => (if (1 + i =? 0)%Z then sqrt (1 / IZR n) else sqrt (2 / IZR n)) * y (1 + i)%Z * cos (PI * IZR (1 + i) * IZR (2 * j + 1) / IZR (2 * n)))
    (fun i => / IZR n * ((if (i + 1 =? 0)%Z then y (i + 1)%Z * (IZR n * sqrt (2 / IZR n)) * sqrt 2 else y (i + 1)%Z * (IZR n * sqrt (2 / IZR n))) *
      cos (PI * IZR (i + 1) * IZR (2 * j + 1) / IZR (2 * n))))).
  2:{ intros i Hi. replace (1 + i)%Z with (i + 1)%Z by lia. destruct (Z.eqb_spec (i + 1) 0); [lia|]. field. lra. }
  rewrite rsum_scal, Q. set (r := rsum _ _). set (q := sqrt (1 / IZR n)) in *.
  replace (y 0%Z * (IZR n * (sqrt 2 * q)) * sqrt 2) with (sqrt 2 * sqrt 2 * (y 0%Z * IZR n * q)) by ring. rewrite S2. field. lra.
Qed.

Section Theorems.
  Context (dcos dsin : double -> double) (Hcos : accurate dcos cos) (Hsin : accurate dsin sin).
  Context (n : Z) (ps : list Z) (Hn : (1 <= n <= 2 ^ 28)%Z) (Hps : prime_factors (n * 4) ps).
  Notation W := (weight ps).
  Notation N := (IZR n).
  Notation S := (sqrt (2 * N)).
  Notation xs x := (fun j => dval (zn d0 x j)).
  Notation ready M := (dct_ready dcos dsin n (leak ps M)).
  Notation use := (dct_in_use dcos dsin n).

  Lemma ready_weaken (P Q : double -> Prop) d : (forall x, P x -> Q x) -> dct_ready dcos dsin n P d -> dct_ready dcos dsin n Q d.
  Proof. intros H (R1 & R2 & R3 & R4 & R5 & R6 & R7 & R8). unfold dct_ready. splits; auto. Qed.

  Lemma uW : 0 < u * W /\ u * W <= 1 / 1000000.
  Proof. destruct (facts n ps Hn Hps) as (W1 & W2 & _ & _ & U0 & _). split; [apply Rmult_lt_0_compat; lra|lra]. Qed.

  (** The coefficients handed on by inverseUnitary. *)
  Lemma unitary_in_ok M y : bpow radix2 (-800) <= M <= bpow radix2 800 -> real_bounded n (M / (2 * sqrt N)) y ->
    forall k, (0 <= k < n)%Z -> finite (unitary_in n (zn d0 y) k) /\
      Rabs (dval (unitary_in n (zn d0 y) k) - (if (k =? 0)%Z then dval (zn d0 y k) * (N * sqrt (2 / N)) * sqrt 2 else dval (zn d0 y k) * (N * sqrt (2 / N)))) <= 63 / 10 * u * M /\
      Rabs (dval (unitary_in n (zn d0 y) k)) <= (1 + 1 / 10000) * M.
  Proof.
    intros HM [_ Hy] k Hk. pose proof (NB n Hn) as NBn. destruct (S_bounds n Hn) as [SB SS]. destruct u_facts as [U0 UV]. pose proof sqrt2_bounds as T.
    assert (T2 : sqrt 2 * sqrt 2 = 2) by (apply sqrt_sqrt; lra).
    rewrite (S_eq n Hn). destruct (scale_value n Hn) as [Fs Es]. destruct root2_ok as [Fr Er].
    destruct HM as [M1 M2]. assert (MP : 0 < M) by (eapply Rlt_le_trans; [apply bpow_gt_0|exact M1]).
    assert (RN : 0 < sqrt N) by (apply sqrt_lt_R0; lra). assert (UM : 0 < u * M) by (apply Rmult_lt_0_compat; lra).
    assert (UM1 : u * M <= 1 / 1000000 * M) by (apply Rmult_le_compat_r; lra).
    assert (B1 : bpow radix2 (-850) <= M / 2).
    { change (bpow radix2 (-850)) with (bpow radix2 (-50 + -800)). rewrite bpow_plus. change (bpow radix2 (-50)) with (/ 1125899906842624). lra. }
    assert (B2 : 2 * M <= bpow radix2 900).
    { change (bpow radix2 900) with (bpow radix2 (100 + 800)). rewrite bpow_plus. assert (2 <= bpow radix2 100) by (change 2 with (bpow radix2 1); apply bpow_le; lia).
      apply Rle_trans with (2 * bpow radix2 800); [lra|]. apply Rmult_le_compat_r; [apply bpow_ge_0|assumption]. }
    set (V := M / (2 * sqrt N)) in *. assert (VS : V * S = M / 2 * sqrt 2) by (unfold V; rewrite (S_root n Hn); field; lra).
    assert (V0 : 0 <= V) by (unfold V; apply Rlt_le, Rdiv_lt_0_compat; lra).
    assert (VB : M * (7071 / 10000) <= V * S <= M * (70715 / 100000)).
    { rewrite VS. replace (M / 2 * sqrt 2) with (M * (sqrt 2 / 2)) by field. split; apply Rmult_le_compat_l; lra. }
    assert (G : forall j, (0 <= j < n)%Z -> finite (dmul (zn d0 y j) (ddct_scale n)) /\
      Rabs (dval (dmul (zn d0 y j) (ddct_scale n)) - dval (zn d0 y j) * S) <= 3 * (u * M) /\ Rabs (dval (zn d0 y j) * S) <= M * (70715 / 100000)).
    { intros j Hj. destruct (Hy j Hj) as [F B].
      destruct (mul_near (zn d0 y j) (ddct_scale n) S (dval (zn d0 y j)) 0 V (31 / 10) F Fs) as [Fm Em]; auto; try lra.
      - rewrite Rminus_diag_eq, Rabs_R0 by reflexivity. lra.
      - split; [exact Fm|]. split.
        + eapply Rle_trans; [exact Em|]. replace ((1001 / 1000 * 0 + (31 / 10 + 1003 / 1000) * u * V) * S) with ((31 / 10 + 1003 / 1000) * u * (V * S)) by ring.
          apply Rle_trans with ((31 / 10 + 1003 / 1000) * u * (M * (70715 / 100000))); [apply Rmult_le_compat_l; lra|].
          replace ((31 / 10 + 1003 / 1000) * u * (M * (70715 / 100000))) with ((31 / 10 + 1003 / 1000) * (70715 / 100000) * (u * M)) by ring. lra.
        + rewrite Rabs_mult, (Rabs_pos_eq S) by lra. apply Rle_trans with (V * S); [apply Rmult_le_compat_r; lra|lra]. }
    unfold unitary_in. destruct (Z.eqb_spec k 0) as [->|].
    - destruct (G 0%Z ltac:(lia)) as (F & E & B).
      destruct (mul_near (dmul (zn d0 y 0) (ddct_scale n)) droot2 (sqrt 2) (dval (zn d0 y 0) * S) (3 * (u * M)) (M * (70715 / 100000)) (1001 / 1000) F Fr) as [Fm Em]; auto; try lra.
      assert (Em' : Rabs (dval (dmul (dmul (zn d0 y 0) (ddct_scale n)) droot2) - dval (zn d0 y 0) * S * sqrt 2) <= 63 / 10 * (u * M)).
      { eapply Rle_trans; [exact Em|].
        replace ((1001 / 1000 * (3 * (u * M)) + (1001 / 1000 + 1003 / 1000) * u * (M * (70715 / 100000))) * sqrt 2) with ((1001 / 1000 * 3 + (1001 / 1000 + 1003 / 1000) * (70715 / 100000)) * (u * M) * sqrt 2) by ring.
        apply Rle_trans with ((1001 / 1000 * 3 + (1001 / 1000 + 1003 / 1000) * (70715 / 100000)) * (u * M) * (14143 / 10000)); [apply Rmult_le_compat_l; lra|lra]. }
      split; [exact Fm|]. split; [lra|]. eapply Rle_trans; [eapply near'; [exact Em'|]|].
      + rewrite Rabs_mult, (Rabs_pos_eq (sqrt 2)) by lra. apply Rmult_le_compat_r; [lra|].
        rewrite Rabs_mult, (Rabs_pos_eq S) by lra. apply Rmult_le_compat_r; [lra|]. apply Hy. lia.
      + rewrite VS. replace (M / 2 * sqrt 2 * sqrt 2) with (M / 2 * (sqrt 2 * sqrt 2)) by ring. rewrite T2. lra.
    - destruct (G k Hk) as (F & E & B). split; [exact F|]. split; [lra|]. eapply Rle_trans; [eapply near'; [exact E|exact B]|]. lra.
  Qed.

  Lemma inverse_unitary_bound P M d y out : bpow radix2 (-800) <= M <= bpow radix2 800 ->
    dct_ready dcos dsin n P d -> real_bounded n (M / (2 * sqrt N)) y -> (n <= zlen out)%Z ->
    exists d' out', ddct_inverse_unitary d y out = OK (d', out') /\ ready M d' /\
      within n (183 * u * W * M) (idct2_orthonormal n (xs y)) out out'.
  Proof.
    intros HM R Hy Lo. destruct (facts n ps Hn Hps) as (W1 & W2 & N1 & N4 & U0 & UV). destruct uW as [UW0 UW1].
    destruct (ddct_inverse_unitary_runs dcos dsin n Hn P d y out R (proj1 Hy)) as (d1 & s & E & Ls & Hs & R1).
    pose proof (unitary_in_ok M y HM Hy) as G. destruct HM as [M1 M2]. assert (MP : 0 < M) by (eapply Rlt_le_trans; [apply bpow_gt_0|exact M1]).
    destruct (inverse_bound dcos dsin Hcos Hsin n ps Hn Hps P ((1 + 1 / 10000) * M) d1 s out) as (d' & out' & E' & R' & A & B & C); auto.
    - split; [eapply Rle_trans; [apply (bpow_le radix2 (-900) (-800)); lia|lra]|].
      change (bpow radix2 850) with (bpow radix2 (50 + 800)). rewrite bpow_plus. change (bpow radix2 50) with 1125899906842624. lra.
    - split; [lia|]. intros k Hk. rewrite Hs by exact Hk. destruct (G k Hk) as (F & _ & V). auto.
    - exists d', out'. split; [rewrite E; exact E'|]. assert (UWM : 0 < u * W * M) by (apply Rmult_lt_0_compat; lra). split.
      + revert R'. apply ready_weaken. intros x [F V]. split; [exact F|]. lra.
      + split; [exact A|]. split; [|exact C]. intros j Hj. destruct (B j Hj) as [F V]. split; [exact F|].
        rewrite <- idct2_orthonormal_eq by lia. unfold idct2_unitary.
        set (g := fun k => if (k =? 0)%Z then dval (zn d0 y k) * (N * sqrt (2 / N)) * sqrt 2 else dval (zn d0 y k) * (N * sqrt (2 / N))).
        change (Rabs (dval (zn d0 out' j) - idct2 n g j) <= 183 * u * W * M).
        assert (D : Rabs (idct2 n (xs s) j - idct2 n g j) <= 63 / 10 * u * M).
        { rewrite idct2_minus. apply idct2_bound; [lia|apply Rmult_le_pos; lra|]. intros k Hk. rewrite Hs by exact Hk. apply G. exact Hk. }
        replace (dval (zn d0 out' j) - idct2 n g j) with ((dval (zn d0 out' j) - idct2 n (xs s) j) + (idct2 n (xs s) j - idct2 n g j)) by ring.
        eapply Rle_trans; [apply Rabs_triang|]. eapply Rle_trans; [apply Rplus_le_compat; [exact V|exact D]|].
        assert (u * M * 1 <= u * M * W) by (apply Rmult_le_compat_l; [apply Rmult_le_pos; lra|lra]). lra.
  Qed.

  Lemma use_ready M d : bpow radix2 (-800) <= M <= bpow radix2 800 -> use M d -> ready M d.
  Proof.
    intros HM. destruct (facts n ps Hn Hps) as (W1 & W2 & N1 & N4 & U0 & UV). destruct uW as [UW0 UW1].
    assert (MP : 0 < M) by (destruct HM; eapply Rlt_le_trans; [apply bpow_gt_0|eassumption]). assert (UWM : 0 < u * W * M) by (apply Rmult_lt_0_compat; lra).
    induction 1 as [j1 j2 jc d L1 L2 L3 E|d d' x out out' _ IH L1 L2 E|d d' x out out' _ IH L1 L2 E|d d' y out out' _ IH L1 L2 E|d d' y out out' _ IH L1 L2 E].
    - destruct (ddct_new_ready dcos dsin n Hn (leak ps M) j1 j2 jc) as (d' & E' & R); auto.
      + split; [reflexivity|]. change (dval d0) with 0. rewrite Rabs_R0. lra.
      + rewrite E in E'. injection E' as ->. exact R.
    - destruct (ddct_forward_runs dcos dsin n Hn (leak ps M) d x out IH L1 L2) as (t & f & fr & fi & d1 & _ & _ & _ & _ & _ & E' & R).
      rewrite E in E'. injection E' as -> _. exact R.
    - destruct (ddct_forward_runs dcos dsin n Hn (leak ps M) d x out IH L1 L2) as (t & f & fr & fi & d1 & _ & _ & _ & _ & _ & E' & R).
      assert (L : zlen (ztab n (zn d0 fr) ++ skipn (Z.to_nat n) out) = zlen out) by (zl; lia).
      rewrite (ddct_forward_unitary_runs dcos dsin n Hn (leak ps M) d x out d1 _ R L2 L E') in E. injection E as <- _. exact R.
    - destruct (inverse_bound dcos dsin Hcos Hsin n ps Hn Hps (leak ps M) M d y out) as (d1 & o1 & E' & R & _); auto.
      + destruct HM. split; [eapply Rle_trans; [apply (bpow_le radix2 (-900) (-800)); lia|assumption]|]. eapply Rle_trans; [eassumption|]. apply bpow_le. lia.
      + rewrite E in E'. injection E' as -> _. revert R. apply ready_weaken. intros x [F V]. split; [exact F|]. lra.
    - destruct (inverse_unitary_bound (leak ps M) M d y out HM IH L1 L2) as (d1 & o1 & E' & R & _). rewrite E in E'. injection E' as -> _. exact R.
  Qed.

  Theorem dct_forward_doubles B M d x out : bpow radix2 (-800) <= B <= bpow radix2 800 -> bpow radix2 (-800) <= M <= bpow radix2 800 ->
    use M d -> real_bounded n B x -> (n <= zlen out)%Z ->
    exists d' out', ddct_forward d x out = OK (d', out') /\ within n (u * W * N * (496 * B + 355 * M)) (dct2 n (xs x)) out out'.
  Proof.
    intros HB HM U Hx Lo.
    assert (W9 : forall v, bpow radix2 (-800) <= v <= bpow radix2 800 -> bpow radix2 (-900) <= v <= bpow radix2 800).
    { intros v [A1 A2]. split; [|exact A2]. eapply Rle_trans; [|exact A1]. apply bpow_le. lia. }
    destruct (forward_bound dcos dsin Hcos Hsin n ps Hn Hps B M d x out (W9 _ HB) (W9 _ HM) (use_ready M d HM U) Hx Lo) as (d' & out' & E & _ & V).
    exists d', out'. auto.
  Qed.

  Theorem dct_inverse_doubles B M d y out : bpow radix2 (-800) <= B <= bpow radix2 800 -> bpow radix2 (-800) <= M <= bpow radix2 800 ->
    use M d -> real_bounded n B y -> (n <= zlen out)%Z ->
    exists d' out', ddct_inverse d y out = OK (d', out') /\ within n (176 * u * W * B) (idct2 n (xs y)) out out'.
  Proof.
    intros HB HM U Hy Lo.
    assert (W9 : bpow radix2 (-900) <= B <= bpow radix2 850).
    { destruct HB. split; [eapply Rle_trans; [apply (bpow_le radix2 (-900) (-800)); lia|assumption]|]. eapply Rle_trans; [eassumption|]. apply bpow_le. lia. }
    destruct (inverse_bound dcos dsin Hcos Hsin n ps Hn Hps (leak ps M) B d y out W9 (use_ready M d HM U) Hy Lo) as (d' & out' & E & _ & V).
    exists d', out'. auto.
  Qed.

  Lemma dct2_value_bound B x k : real_bounded n B x -> Rabs (dct2 n (xs x) k) <= 2 * N * B.
  Proof.
    intros [_ H]. apply dct2_bound; [lia| |intros j Hj; apply H; exact Hj].
    destruct (H 0%Z ltac:(lia)) as [_ H0]. eapply Rle_trans; [apply Rabs_pos|exact H0].
  Qed.

  (** The values divided by the scale factors. *)
  Lemma unitary_out_ok B M x (y : Z -> double) : bpow radix2 (-800) <= B <= bpow radix2 800 -> bpow radix2 (-800) <= M <= bpow radix2 800 -> real_bounded n B x ->
    (forall k, (0 <= k < n)%Z -> finite (y k) /\ Rabs (dval (y k) - dct2 n (xs x) k) <= u * W * N * (496 * B + 355 * M)) ->
    forall k, (0 <= k < n)%Z -> finite (unitary_out n y k) /\ Rabs (dval (unitary_out n y k) - dct2_unitary n (xs x) k) <= u * W * S * (253 * B + 178 * M).
  Proof.
    intros HB HM Hx Hy k Hk. destruct (facts n ps Hn Hps) as (W1 & W2 & N1 & N4 & U0 & UV). destruct uW as [UW0 UW1].
    destruct (S_bounds n Hn) as [SB SS]. pose proof sqrt2_bounds as T.
    destruct (scale_value n Hn) as [Fs Es]. destruct root2_ok as [Fr Er].
    destruct HB as [B1 B2]. destruct HM as [M1 M2].
    assert (BP : 0 < B) by (eapply Rlt_le_trans; [apply bpow_gt_0|exact B1]). assert (MP : 0 < M) by (eapply Rlt_le_trans; [apply bpow_gt_0|exact M1]).
    set (e := u * W * N * (496 * B + 355 * M)) in *.
    (* magnitudes are in units of N (B + M) *)
    set (V := 2 * N * B + N / 1000 * M).
    assert (NB0 : 0 < N * B) by (apply Rmult_lt_0_compat; lra). assert (NM0 : 0 < N * M) by (apply Rmult_lt_0_compat; lra).
    assert (EE : e = u * W * (496 * (N * B) + 355 * (N * M))) by (unfold e; ring).
    assert (E0 : 0 < e) by (rewrite EE; apply Rmult_lt_0_compat; lra).
    assert (EV : e <= V).
    { rewrite EE. apply Rle_trans with (1 / 1000000 * (496 * (N * B) + 355 * (N * M))); [apply Rmult_le_compat_r; lra|]. unfold V. lra. }
    assert (VB : bpow radix2 (-800) <= V <= bpow radix2 900).
    { unfold V. split.
      - assert (1 * B <= N * B) by (apply Rmult_le_compat_r; lra). lra.
      - assert (N * B <= 268435456 * B) by (apply Rmult_le_compat_r; lra). assert (N * M <= 268435456 * M) by (apply Rmult_le_compat_r; lra).
        change (bpow radix2 900) with (bpow radix2 (100 + 800)). rewrite bpow_plus.
        assert (1000000000 <= bpow radix2 100) by (apply Rle_trans with (bpow radix2 30); [change (bpow radix2 30) with 1073741824; lra|apply bpow_le; lia]).
        apply Rle_trans with (1000000000 * bpow radix2 800); [lra|]. apply Rmult_le_compat_r; [apply bpow_ge_0|assumption]. }
    assert (YV : forall j, Rabs (dct2 n (xs x) j) <= V) by (intros j; eapply Rle_trans; [apply dct2_value_bound; exact Hx|unfold V; lra]).
    (* first division *)
    assert (G : forall j, (0 <= j < n)%Z -> finite (ddiv (y j) (ddct_scale n)) /\
      Rabs (dval (ddiv (y j) (ddct_scale n)) - dct2 n (xs x) j / S) <= u * W * S * (253 * B + 178 * M)).
    { intros j Hj. destruct (Hy j Hj) as [F E].
      destruct (div_near (y j) (ddct_scale n) S (dct2 n (xs x) j) e V F) as [Fq Eq]; auto; try lra.
      split; [exact Fq|]. eapply Rle_trans; [exact Eq|].
      assert (NS : forall c, N * c / S = S * c / 2).
      { intros c. transitivity (S * S / 2 * c / S); [rewrite SS; field; lra|field; lra]. }
      replace ((1001 / 1000 * e + 43 / 10 * u * V) / S) with
        (1001 / 1000 * (u * W) * (N * (496 * B + 355 * M) / S) + 43 / 10 * u * (N * (2 * B + 1 / 1000 * M) / S)) by (unfold e, V; field; lra).
      rewrite !NS.
      set (b := S * B). set (m := S * M). assert (0 < b) by (apply Rmult_lt_0_compat; lra). assert (0 < m) by (apply Rmult_lt_0_compat; lra).
      replace (S * (496 * B + 355 * M) / 2) with (248 * b + 355 / 2 * m) by (unfold b, m; field).
      replace (S * (2 * B + 1 / 1000 * M) / 2) with (b + 1 / 2000 * m) by (unfold b, m; field).
      replace (u * W * S * (253 * B + 178 * M)) with (u * W * (253 * b + 178 * m)) by (unfold b, m; ring).
      assert (UU : u * 1 <= u * W) by (apply Rmult_le_compat_l; lra).
      assert (X1 : u * (b + 1 / 2000 * m) <= u * W * (b + 1 / 2000 * m)) by (apply Rmult_le_compat_r; lra).
      assert (X2 : 0 <= u * W * b) by (apply Rmult_le_pos; lra). assert (X3 : 0 <= u * W * m) by (apply Rmult_le_pos; lra). lra. }
    rewrite dct2_unitary_scale by lia. rewrite (S_eq n Hn). cbv zeta. unfold unitary_out. destruct (Z.eqb_spec k 0) as [->|]; [|apply G; exact Hk].
    destruct (G 0%Z ltac:(lia)) as [F E]. set (g := u * W * S * (253 * B + 178 * M)) in *. set (Q := dct2 n (xs x) 0 / S) in *.
    assert (NS : N / S = S / 2) by (transitivity (S * S / 2 / S); [rewrite SS; field; lra|field; lra]).
    set (b := S * B). set (m := S * M). assert (b0 : 0 < b) by (apply Rmult_lt_0_compat; lra). assert (m0 : 0 < m) by (apply Rmult_lt_0_compat; lra).
    assert (GG : g = u * W * (253 * b + 178 * m)) by (unfold g, b, m; ring).
    assert (QB : Rabs Q <= b + 1 / 1000 * m).
    { unfold Q, Rdiv. rewrite Rabs_mult, (Rabs_pos_eq (/ S)) by (apply Rlt_le, Rinv_0_lt_compat; lra). apply Rle_trans with (2 * N * B * / S).
      - apply Rmult_le_compat_r; [apply Rlt_le, Rinv_0_lt_compat; lra|]. apply dct2_value_bound; exact Hx.
      - replace (2 * N * B * / S) with (2 * B * (N / S)) by (field; lra). rewrite NS. replace (2 * B * (S / 2)) with b by (unfold b; field). lra. }
    assert (X2 : 0 <= u * W * b) by (apply Rmult_le_pos; lra). assert (X3 : 0 <= u * W * m) by (apply Rmult_le_pos; lra).
    assert (GB : g <= 1 / 2000 * b + 1 / 2000 * m).
    { rewrite GG. apply Rle_trans with (1 / 1000000 * (253 * b + 178 * m)); [apply Rmult_le_compat_r; lra|]. lra. }
    destruct (div_near (ddiv (y 0%Z) (ddct_scale n)) droot2 (sqrt 2) Q g (b + m) F) as [Fq Eq]; auto; try lra.
    - assert (u * sqrt 2 >= 0) by (apply Rle_ge, Rmult_le_pos; lra). lra.
    - unfold b, m. rewrite <- Rmult_plus_distr_l. split.
      + assert (1 * (B + M) <= S * (B + M)) by (apply Rmult_le_compat_r; lra). lra.
      + assert (S * (B + M) <= 32768 * (B + M)) by (apply Rmult_le_compat_r; lra).
        change (bpow radix2 900) with (bpow radix2 (100 + 800)). rewrite bpow_plus.
        assert (1000000000 <= bpow radix2 100) by (apply Rle_trans with (bpow radix2 30); [change (bpow radix2 30) with 1073741824; lra|apply bpow_le; lia]).
        apply Rle_trans with (1000000000 * bpow radix2 800); [lra|]. apply Rmult_le_compat_r; [apply bpow_ge_0|assumption].
    - split; [exact Fq|]. eapply Rle_trans; [exact Eq|]. apply rdiv_le; [lra|]. apply Rle_trans with (g * (14142 / 10000)); [|apply Rmult_le_compat_l; lra].
      assert (UU : u * 1 <= u * W) by (apply Rmult_le_compat_l; lra).
      assert (X1 : u * (b + m) <= u * W * (b + m)) by (apply Rmult_le_compat_r; lra). rewrite GG. lra.
  Qed.

  Theorem dct_forward_unitary_doubles B M d x out : bpow radix2 (-800) <= B <= bpow radix2 800 -> bpow radix2 (-800) <= M <= bpow radix2 800 ->
    use M d -> real_bounded n B x -> (n <= zlen out)%Z ->
    exists d' out', ddct_forward_unitary d x out = OK (d', out') /\ within n (u * W * S * (253 * B + 178 * M)) (dct2_unitary n (xs x)) out out'.
  Proof.
    intros HB HM U Hx Lo. pose proof (use_ready M d HM U) as R.
    destruct (dct_forward_doubles B M d x out HB HM U Hx Lo) as (d' & o1 & E & L1 & V & C).
    destruct (ddct_forward_runs dcos dsin n Hn (leak ps M) d x out R (proj1 Hx) Lo) as (t & f & fr & fi & d1 & _ & _ & _ & _ & _ & E' & R').
    assert (d1 = d') by congruence. subst d1.
    exists d'. eexists. split; [apply (ddct_forward_unitary_runs dcos dsin n Hn (leak ps M) d x out d' o1 R' Lo L1 E)|].
    pose proof (unitary_out_ok B M x (zn d0 o1) HB HM Hx V) as G.
    unfold within. split; [rewrite zlen_app, zlen_ztab, zlen_skipn; lia|]. split; intros k Hk; rewrite zn_app, zlen_ztab, Z.max_r by lia.
    - destruct (Z.ltb_spec k n); [|lia]. rewrite zn_ztab by lia. apply G. exact Hk.
    - destruct (Z.ltb_spec k n); [lia|]. rewrite zn_skipn by lia. replace (k - n + Z.of_nat (Z.to_nat n))%Z with k by lia. apply C. lia.
  Qed.

  Theorem dct_inverse_unitary_doubles B M d y out : bpow radix2 (-800) <= B <= bpow radix2 700 -> bpow radix2 (-800) <= M <= bpow radix2 800 ->
    use M d -> real_bounded n B y -> (n <= zlen out)%Z ->
    exists d' out', ddct_inverse_unitary d y out = OK (d', out') /\ within n (366 * u * W * sqrt N * B) (idct2_orthonormal n (xs y)) out out'.
  Proof.
    intros HB HM U Hy Lo. destruct (facts n ps Hn Hps) as (W1 & W2 & N1 & N4 & U0 & UV).
    assert (Q1 : 1 <= sqrt N) by (rewrite <- sqrt_1; apply sqrt_le_1_alt; lra).
    assert (Q2 : sqrt N <= 16384) by (rewrite <- (sqrt_Rsqr 16384) by lra; apply sqrt_le_1_alt; unfold Rsqr; lra).
    set (M' := 2 * sqrt N * B). destruct HB as [B1 B2]. assert (BP : 0 < B) by (eapply Rlt_le_trans; [apply bpow_gt_0|exact B1]).
    destruct (inverse_unitary_bound (leak ps M) M' d y out) as (d' & out' & E & _ & V).
    - unfold M'. split.
      + assert (1 * B <= sqrt N * B) by (apply Rmult_le_compat_r; lra). lra.
      + assert (sqrt N * B <= 16384 * B) by (apply Rmult_le_compat_r; lra).
        change (bpow radix2 800) with (bpow radix2 (100 + 700)). rewrite bpow_plus.
        assert (32768 <= bpow radix2 100) by (change 32768 with (bpow radix2 15); apply bpow_le; lia).
        apply Rle_trans with (32768 * bpow radix2 700); [lra|]. apply Rmult_le_compat_r; [apply bpow_ge_0|assumption].
    - apply use_ready; assumption.
    - replace (M' / (2 * sqrt N)) with B by (unfold M'; field; lra). exact Hy.
    - exact Lo.
    - exists d', out'. split; [exact E|]. replace (366 * u * W * sqrt N * B) with (183 * u * W * M') by (unfold M'; ring). exact V.
  Qed.

  (** The inverse of the forward transform, on the same object. *)
  Theorem dct_roundtrip_doubles B M d x out : bpow radix2 (-800) <= B <= bpow radix2 700 -> bpow radix2 (-800) <= M <= bpow radix2 700 ->
    use M d -> real_bounded n B x -> (n <= zlen out)%Z ->
    exists d1 y, ddct_forward d x out = OK (d1, y) /\
      forall out2, (n <= zlen out2)%Z -> exists d2 z, ddct_inverse d1 y out2 = OK (d2, z) /\ within n (u * W * N * (849 * B + 356 * M)) (xs x) out2 z.
  Proof.
    intros [B1 B2] [M1 M2] U Hx Lo. destruct (facts n ps Hn Hps) as (W1 & W2 & N1 & N4 & U0 & UV). destruct uW as [UW0 UW1].
    assert (up : forall v, v <= bpow radix2 700 -> v <= bpow radix2 800) by (intros v Hv; eapply Rle_trans; [exact Hv|]; apply bpow_le; lia).
    destruct (dct_forward_doubles B M d x out (conj B1 (up _ B2)) (conj M1 (up _ M2)) U Hx Lo) as (d1 & y & E & L & V & C).
    exists d1, y. split; [exact E|]. intros out2 Lo2.
    assert (U1 : use M d1) by (eapply dct_in_forward; [exact U|apply Hx|exact Lo|exact E]).
    assert (BP : 0 < B) by (eapply Rlt_le_trans; [apply bpow_gt_0|exact B1]). assert (MP : 0 < M) by (eapply Rlt_le_trans; [apply bpow_gt_0|exact M1]).
    assert (NB0 : 0 < N * B) by (apply Rmult_lt_0_compat; lra). assert (NM0 : 0 < N * M) by (apply Rmult_lt_0_compat; lra).
    set (e := u * W * N * (496 * B + 355 * M)) in *. assert (EE : e = u * W * (496 * (N * B) + 355 * (N * M))) by (unfold e; ring).
    assert (E0 : 0 < e) by (rewrite EE; apply Rmult_lt_0_compat; lra).
    assert (EB : e <= 1 / 1000000 * (496 * (N * B) + 355 * (N * M))) by (rewrite EE; apply Rmult_le_compat_r; lra).
    set (D := 20005 / 10000 * (N * B) + 4 / 10000 * (N * M)).
    assert (HD : bpow radix2 (-800) <= D <= bpow radix2 800).
    { unfold D. assert (1 * B <= N * B) by (apply Rmult_le_compat_r; lra). split; [lra|].
      assert (N * B <= 268435456 * B) by (apply Rmult_le_compat_r; lra). assert (N * M <= 268435456 * M) by (apply Rmult_le_compat_r; lra).
      change (bpow radix2 800) with (bpow radix2 (100 + 700)). rewrite bpow_plus.
      assert (1000000000 <= bpow radix2 100) by (apply Rle_trans with (bpow radix2 30); [change (bpow radix2 30) with 1073741824; lra|apply bpow_le; lia]).
      apply Rle_trans with (1000000000 * bpow radix2 700); [lra|]. apply Rmult_le_compat_r; [apply bpow_ge_0|assumption]. }
    assert (Hy : real_bounded n D y).
    { split; [lia|]. intros k Hk. destruct (V k Hk) as [F G]. split; [exact F|]. eapply Rle_trans; [eapply near'; [exact G|apply dct2_value_bound; exact Hx]|]. unfold D. lra. }
    destruct (dct_inverse_doubles D M d1 y out2 HD (conj M1 (up _ M2)) U1 Hy Lo2) as (d2 & z & E2 & L2 & V2 & C2).
    exists d2, z. split; [exact E2|]. split; [exact L2|]. split; [|exact C2]. intros j Hj. destruct (V2 j Hj) as [F G]. split; [exact F|].
    rewrite <- (idct2_dct2 n (xs x) j) by lia.
    assert (K : Rabs (idct2 n (xs y) j - idct2 n (dct2 n (xs x)) j) <= e).
    { rewrite idct2_minus. apply idct2_bound; [lia|lra|]. intros k Hk. apply V. exact Hk. }
    replace (dval (zn d0 z j) - idct2 n (dct2 n (xs x)) j) with ((dval (zn d0 z j) - idct2 n (xs y) j) + (idct2 n (xs y) j - idct2 n (dct2 n (xs x)) j)) by ring.
    eapply Rle_trans; [apply Rabs_triang|]. eapply Rle_trans; [apply Rplus_le_compat; [exact G|exact K]|]. rewrite EE. unfold D.
    replace (u * W * N * (849 * B + 356 * M)) with (849 * (u * W * (N * B)) + 356 * (u * W * (N * M))) by ring.
    replace (176 * u * W * (20005 / 10000 * (N * B) + 4 / 10000 * (N * M)) + u * W * (496 * (N * B) + 355 * (N * M))) with
      ((176 * (20005 / 10000) + 496) * (u * W * (N * B)) + (176 * (4 / 10000) + 355) * (u * W * (N * M))) by ring.
    assert (X2 : 0 <= u * W * (N * B)) by (apply Rmult_le_pos; lra). assert (X3 : 0 <= u * W * (N * M)) by (apply Rmult_le_pos; lra). lra.
  Qed.
End Theorems.
