(** Rounding errors of one stage of the transform in IEEE doubles. *)
From Coq Require Import ZArith Reals Lia Lra Psatz List Bool.
From Flocq Require Import Core.
From Flocq.IEEE754 Require Import BinarySingleNaN.
From Coquelicot Require Import Complex.
From Verif.Base Require Import Imp RealOps Dbl Double Loops.
From Verif.Maths Require Import DoubleModel DoublePi DoubleProofs.
From Verif.Fft Require Import Cplx FftModel FftBfly FftGen FftGenReal FftGenProofs FftDouble.
Import ListNotations.
Open Scope R_scope.

Definition dcv (z : double * double) : cplx := (dval (fst z), dval (snd z)).
Definition dz : double * double := (d0, d0).

Lemma dhalf_ok : finite dhalf /\ dval dhalf = / 2.
Proof.
  destruct (dmake_ok 1 (-1)) as [F V].
  - apply (small_huge _ 1); [|lia]. unfold F2R. cbn [Fnum Fexp]. change (bpow radix2 (-1)) with (/ 2). change (bpow radix2 1) with 2. apply Rabs_le. lra.
  - split; auto. unfold dhalf. rewrite V. transitivity (F2R (Float radix2 1 (-1))).
    + unfold rnd. apply round_generic; [apply valid_rnd_N|]. apply generic_format_FLT.
      exists (Float radix2 1 (-1)); [reflexivity|cbn; lia|cbn; lia].
    + unfold F2R. cbn [Fnum Fexp]. change (bpow radix2 (-1)) with (/ 2). lra.
Qed.

(** A twiddle factor. *)
Definition tnear (w : double) (r : R) : Prop := finite w /\ Rabs (dval w - r) <= 17 * uro /\ Rabs r <= 1.
Definition ctnear (w : double * double) (r : cplx) : Prop := tnear (fst w) (fst r) /\ tnear (snd w) (snd r).

Section Near.
  Context (X : R) (HX : bpow radix2 (-900) <= X) (HX' : X <= bpow radix2 900).
  Notation u := uro.

  (** [d] computes [r], of magnitude at most b X, with an error of at most e units of 2^-53 X. *)
  Definition near (b e : R) (d : double) (r : R) : Prop := finite d /\ Rabs (dval d - r) <= e * (u * X) /\ Rabs r <= b * X.

  Lemma X_pos : 0 < X.
  Proof. eapply Rlt_le_trans; [|exact HX]. apply bpow_gt_0. Qed.
  Lemma uX_pos : 0 < u * X.
  Proof. apply Rmult_lt_0_compat; [apply uro_pos|apply X_pos]. Qed.
  Lemma X_huge v b : Rabs v <= b * X -> b <= 1152921504606846976 -> Rabs v <= huge.
  Proof.
    intros H B. apply (small_huge _ 960); [|lia]. eapply Rle_trans; [exact H|].
    change (bpow radix2 960) with (bpow radix2 (60 + 900)). rewrite bpow_plus. change (bpow radix2 60) with 1152921504606846976.
    pose proof X_pos. apply Rle_trans with (1152921504606846976 * X); [apply Rmult_le_compat_r; lra|apply Rmult_le_compat_l; lra].
  Qed.
  Lemma near_weak b e b' e' d r : near b e d r -> b <= b' -> e <= e' -> near b' e' d r.
  Proof.
    intros (F & E & B) Hb He. pose proof uX_pos. pose proof X_pos. split; [exact F|]. split.
    - eapply Rle_trans; [exact E|]. apply Rmult_le_compat_r; lra.
    - eapply Rle_trans; [exact B|]. apply Rmult_le_compat_r; lra.
  Qed.

  (** A rounded result. *)
  Lemma near_round b e d v r : finite d -> dval d = rnd v -> 1 <= b -> e * u <= b / 100 ->
    Rabs (v - r) <= e * (u * X) -> Rabs r <= b * X -> near b (e + 102 / 100 * b) d r.
  Proof.
    intros F E Hb He Hv Hr. pose proof uX_pos as P. pose proof X_pos as P'. split; [exact F|]. split; [|exact Hr].
    assert (V : Rabs v <= 101 / 100 * b * X).
    { replace v with ((v - r) + r) by ring. eapply Rle_trans; [apply Rabs_triang|].
      assert (e * (u * X) <= b / 100 * X) by (rewrite <- Rmult_assoc; apply Rmult_le_compat_r; lra). lra. }
    pose proof (rnd_unit v (101 / 100 * b) X HX V) as R. rewrite <- E in R.
    replace (dval d - r) with ((dval d - v) + (v - r)) by ring. eapply Rle_trans; [apply Rabs_triang|].
    assert (u * (101 / 100 * b + / 1000) * X <= 102 / 100 * b * (u * X)).
    { replace (u * (101 / 100 * b + / 1000) * X) with ((101 / 100 * b + / 1000) * (u * X)) by ring. apply Rmult_le_compat_r; lra. }
    lra.
  Qed.
  Lemma near_exact v b e r : Rabs (v - r) <= e * (u * X) -> e * u <= b / 100 -> Rabs r <= b * X -> 1 <= b -> b <= 1099511627776 -> Rabs v <= huge.
  Proof.
    intros Hv He Hr Hb Hb'. pose proof X_pos as P'. apply (X_huge v (2 * b)); [|lra].
    replace v with ((v - r) + r) by ring. eapply Rle_trans; [apply Rabs_triang|].
    assert (e * (u * X) <= b / 100 * X) by (rewrite <- Rmult_assoc; apply Rmult_le_compat_r; lra).
    assert (b / 100 * X <= b * X) by (apply Rmult_le_compat_r; lra). lra.
  Qed.

  Lemma near_add b1 e1 b2 e2 x y r s : near b1 e1 x r -> near b2 e2 y s -> 1 <= b1 + b2 <= 1099511627776 -> (e1 + e2) * u <= (b1 + b2) / 100 ->
    near (b1 + b2) (e1 + e2 + 102 / 100 * (b1 + b2)) (dadd x y) (r + s).
  Proof.
    intros (Fx & Ex & Bx) (Fy & Ey & By) Hb He.
    assert (V : Rabs (dval x + dval y - (r + s)) <= (e1 + e2) * (u * X)).
    { replace (dval x + dval y - (r + s)) with ((dval x - r) + (dval y - s)) by ring. eapply Rle_trans; [apply Rabs_triang|]. lra. }
    assert (S : Rabs (r + s) <= (b1 + b2) * X) by (eapply Rle_trans; [apply Rabs_triang|]; lra).
    destruct (dadd_ok x y Fx Fy) as [F D]; [eapply near_exact; eauto; lra|]. eapply near_round; eauto; lra.
  Qed.
  Lemma near_sub b1 e1 b2 e2 x y r s : near b1 e1 x r -> near b2 e2 y s -> 1 <= b1 + b2 <= 1099511627776 -> (e1 + e2) * u <= (b1 + b2) / 100 ->
    near (b1 + b2) (e1 + e2 + 102 / 100 * (b1 + b2)) (dsub x y) (r - s).
  Proof.
    intros (Fx & Ex & Bx) (Fy & Ey & By) Hb He.
    assert (V : Rabs (dval x - dval y - (r - s)) <= (e1 + e2) * (u * X)).
    { replace (dval x - dval y - (r - s)) with ((dval x - r) + - (dval y - s)) by ring. eapply Rle_trans; [apply Rabs_triang|]. rewrite Rabs_Ropp. lra. }
    assert (S : Rabs (r - s) <= (b1 + b2) * X) by (unfold Rminus; eapply Rle_trans; [apply Rabs_triang|]; rewrite Rabs_Ropp; lra).
    destruct (dsub_ok x y Fx Fy) as [F D]; [eapply near_exact; eauto; lra|]. eapply near_round; eauto; lra.
  Qed.
  Lemma near_opp b e x r : near b e x r -> near b e (dopp x) (- r).
  Proof.
    intros (F & E & B). unfold near, finite, dopp, dval in *. rewrite is_finite_Bopp, B2R_Bopp, Rabs_Ropp.
    replace (- B2R x - - r) with (- (B2R x - r)) by ring. rewrite Rabs_Ropp. auto.
  Qed.
  Lemma near_tw b e x w r s : near b e x r -> tnear w s -> 1 <= b <= 549755813888 -> 0 <= e -> e * u <= b / 100 ->
    near b (e + 19 * b) (dmul x w) (r * s).
  Proof.
    intros (Fx & Ex & Bx) (Fw & Ew & Bw) Hb H0 He. pose proof uro_pos as U0. pose proof uro_val as UV. pose proof uX_pos as P. pose proof X_pos as P'.
    assert (W : Rabs (dval w) <= 1 + 17 * u) by (pose proof (near' _ _ _ _ Ew Bw); lra).
    assert (V : Rabs (dval x * dval w - r * s) <= (e + 1718 / 100 * b) * (u * X)).
    { replace (dval x * dval w - r * s) with ((dval x - r) * dval w + r * (dval w - s)) by ring.
      eapply Rle_trans; [apply Rabs_triang|]. rewrite !Rabs_mult.
      assert (Rabs (dval x - r) * Rabs (dval w) <= e * (u * X) * (1 + 17 * u)) by (apply Rmult_le_compat; auto using Rabs_pos).
      assert (Rabs r * Rabs (dval w - s) <= b * X * (17 * u)) by (apply Rmult_le_compat; auto using Rabs_pos).
      assert (e * (u * X) * (17 * u) <= b / 100 * 17 * (u * X)).
      { replace (e * (u * X) * (17 * u)) with (17 * (e * u) * (u * X)) by ring. apply Rmult_le_compat_r; lra. }
      assert (0 <= b * (u * X)) by (apply Rmult_le_pos; lra). lra. }
    assert (S : Rabs (r * s) <= b * X).
    { rewrite Rabs_mult. replace (b * X) with (b * X * 1) by ring. apply Rmult_le_compat; auto using Rabs_pos. }
    assert (He' : (e + 1718 / 100 * b) * u <= 2 * b / 100) by (assert (1718 / 100 * b * u <= b / 100) by (rewrite UV; lra); lra).
    assert (Hh : Rabs (dval x * dval w) <= huge).
    { apply (near_exact _ (2 * b) (e + 1718 / 100 * b) (r * s)); auto; try lra.
      eapply Rle_trans; [exact S|]. apply Rmult_le_compat_r; lra. }
    destruct (dmul_ok x w Fx Fw Hh) as [F D]. split; [exact F|]. split; [|exact S].
    assert (VB : Rabs (dval x * dval w) <= 1021 / 1000 * b * X).
    { replace (dval x * dval w) with (dval x * dval w - r * s + r * s) by ring. eapply Rle_trans; [apply Rabs_triang|].
      assert ((e + 1718 / 100 * b) * (u * X) <= 2 * b / 100 * X) by (rewrite <- Rmult_assoc; apply Rmult_le_compat_r; lra). 
      assert (0 <= b * X) by (apply Rmult_le_pos; lra). lra. }
    pose proof (rnd_unit _ _ X HX VB) as Q. rewrite <- D in Q.
    replace (dval (dmul x w) - r * s) with ((dval (dmul x w) - dval x * dval w) + (dval x * dval w - r * s)) by ring.
    eapply Rle_trans; [apply Rabs_triang|].
    assert (u * (1021 / 1000 * b + / 1000) * X <= 1022 / 1000 * b * (u * X)).
    { replace (u * (1021 / 1000 * b + / 1000) * X) with ((1021 / 1000 * b + / 1000) * (u * X)) by ring. apply Rmult_le_compat_r; lra. }
    assert (0 <= b * (u * X)) by (apply Rmult_le_pos; lra). lra.
  Qed.
  Lemma near_half b e x r : near b e x r -> 2 <= b <= 549755813888 -> e * u <= b / 100 -> near (b / 2) (e / 2 + 102 / 200 * b) (dmul x dhalf) (r * 0.5).
  Proof.
    intros (Fx & Ex & Bx) Hb He. destruct dhalf_ok as [Fh Vh].
    assert (V : Rabs (dval x * dval dhalf - r * 0.5) <= e / 2 * (u * X)).
    { rewrite Vh. replace (dval x * / 2 - r * 0.5) with ((dval x - r) * / 2) by lra. rewrite Rabs_mult, (Rabs_pos_eq (/ 2)) by lra. lra. }
    assert (S : Rabs (r * 0.5) <= b / 2 * X) by (rewrite Rabs_mult, (Rabs_pos_eq 0.5) by lra; lra).
    destruct (dmul_ok x dhalf Fx Fh) as [F D]; [eapply near_exact; eauto; lra|].
    replace (e / 2 + 102 / 200 * b) with (e / 2 + 102 / 100 * (b / 2)) by lra.
    eapply near_round; eauto; lra.
  Qed.

  (** Complex values. *)
  Definition cnear (b e : R) (z : double * double) (r : cplx) : Prop := near b e (fst z) (fst r) /\ near b e (snd z) (snd r).
  Notation dgadd := (gadd dadd). Notation dgsub := (gsub dsub). Notation dgmul := (gmul dadd dsub dmul).

  Lemma cnear_weak b e b' e' d r : cnear b e d r -> b <= b' -> e <= e' -> cnear b' e' d r.
  Proof. intros [A B] ? ?. split; eapply near_weak; eauto. Qed.
  Lemma cnear_add b1 e1 b2 e2 x y r s : cnear b1 e1 x r -> cnear b2 e2 y s -> 1 <= b1 + b2 <= 1099511627776 -> (e1 + e2) * u <= (b1 + b2) / 100 ->
    cnear (b1 + b2) (e1 + e2 + 102 / 100 * (b1 + b2)) (dgadd x y) (cadd r s).
  Proof. intros [A B] [A' B'] ? ?. split; apply near_add; auto. Qed.
  Lemma cnear_sub b1 e1 b2 e2 x y r s : cnear b1 e1 x r -> cnear b2 e2 y s -> 1 <= b1 + b2 <= 1099511627776 -> (e1 + e2) * u <= (b1 + b2) / 100 ->
    cnear (b1 + b2) (e1 + e2 + 102 / 100 * (b1 + b2)) (dgsub x y) (csub r s).
  Proof. intros [A B] [A' B'] ? ?. split; apply near_sub; auto. Qed.
  Lemma small_u e b : e <= 1000000 -> 1 <= b -> e * u <= b / 100.
  Proof. intros He Hb. pose proof uro_pos as U0. pose proof uro_val as UV. apply Rle_trans with (1000000 * u); [apply Rmult_le_compat_r; lra|]. rewrite UV. lra. Qed.
  Lemma cnear_mul x w r s : cnear 1 0 x r -> ctnear w s -> cnear 2 41 (dgmul x w) (cmul r s).
  Proof.
    intros [A B] [C D].
    assert (G : forall x y v w, near 1 0 x v -> tnear y w -> near 1 19 (dmul x y) (v * w)).
    { intros x' y v w' H H'. eapply near_weak; [apply (near_tw 1 0); eauto; lra|lra|lra]. }
    split; cbn [gmul cmul fst snd].
    - eapply near_weak; [apply (near_sub 1 19 1 19); eauto; try lra|lra|lra]. apply small_u; lra.
    - eapply near_weak; [apply (near_add 1 19 1 19); eauto; try lra|lra|lra]. apply small_u; lra.
  Qed.

  (** *** The butterflies, on doubles and on the reals they stand for *)
  Section Kernels.
    Context (N : Z) (inv : bool) (tw : list (double * double)) (twr : list cplx).
    Context (Htw : forall i, (0 <= i < N)%Z -> ctnear (zn dz tw i) (zn c0 twr i)).
    Context (fs m v : Z) (Hfs : (1 <= fs)%Z) (Hm : (1 <= m)%Z) (Hv : (0 <= v < m)%Z).
    Context (x : Z -> double * double).
    Notation xr q := (dcv (x q)).
    Notation dkern := (kern d0 dhalf dadd dsub dmul dopp N inv tw).
    Notation rkern := (kern 0 0.5 Rplus Rminus Rmult Ropp N inv twr).

    Ltac nm := first [lra | apply small_u; lra].

    Lemma kern2_near q1 : (fs * 2 * m = N)%Z -> (forall q, (0 <= q < 2)%Z -> cnear 1 0 (x q) (xr q)) ->
      cnear 3 112 (dkern 2 fs m v q1 x) (rkern 2 fs m v q1 (fun q => xr q)).
    Proof.
      intros HN Hx. change (cnear 3 112 (kern2 d0 dadd dsub dmul tw fs m v q1 x) (kern2 0 Rplus Rminus Rmult twr fs m v q1 (fun q => xr q))).
      unfold kern2. pose proof (Hx 0%Z ltac:(lia)) as X0.
      pose proof (cnear_mul _ _ _ _ (Hx 1%Z ltac:(lia)) (Htw (v * fs)%Z ltac:(nia))) as T. cbv zeta.
      destruct (q1 =? 0)%Z.
      - eapply cnear_weak; [apply (cnear_add 1 0 2 41); eauto; nm|lra|lra].
      - eapply cnear_weak; [apply (cnear_sub 1 0 2 41); eauto; nm|lra|lra].
    Qed.

    Lemma kern4_near q1 : (fs * 4 * m = N)%Z -> (forall q, (0 <= q < 4)%Z -> cnear 1 0 (x q) (xr q)) ->
      cnear 7 448 (dkern 4 fs m v q1 x) (rkern 4 fs m v q1 (fun q => xr q)).
    Proof.
      intros HN Hx. change (cnear 7 448 (kern4 d0 dadd dsub dmul inv tw fs m v q1 x) (kern4 0 Rplus Rminus Rmult inv twr fs m v q1 (fun q => xr q))).
      unfold kern4. pose proof (Hx 0%Z ltac:(lia)) as X0.
      pose proof (cnear_mul _ _ _ _ (Hx 1%Z ltac:(lia)) (Htw (v * fs)%Z ltac:(nia))) as T0.
      pose proof (cnear_mul _ _ _ _ (Hx 2%Z ltac:(lia)) (Htw (v * (fs * 2))%Z ltac:(nia))) as T1.
      pose proof (cnear_mul _ _ _ _ (Hx 3%Z ltac:(lia)) (Htw (v * (fs * 3))%Z ltac:(nia))) as T2.
      cbv zeta.
      assert (S5 : cnear 3 45 (dgsub (x 0%Z) (dgmul (x 2%Z) (zn dz tw (v * (fs * 2)))))
                     (csub (xr 0%Z) (cmul (xr 2%Z) (zn c0 twr (v * (fs * 2)))))).
      { eapply cnear_weak; [apply (cnear_sub 1 0 2 41); eauto; nm|lra|lra]. }
      assert (A : cnear 3 45 (dgadd (x 0%Z) (dgmul (x 2%Z) (zn dz tw (v * (fs * 2)))))
                     (cadd (xr 0%Z) (cmul (xr 2%Z) (zn c0 twr (v * (fs * 2)))))).
      { eapply cnear_weak; [apply (cnear_add 1 0 2 41); eauto; nm|lra|lra]. }
      assert (S3 : cnear 4 87 (dgadd (dgmul (x 1%Z) (zn dz tw (v * fs))) (dgmul (x 3%Z) (zn dz tw (v * (fs * 3)))))
                     (cadd (cmul (xr 1%Z) (zn c0 twr (v * fs))) (cmul (xr 3%Z) (zn c0 twr (v * (fs * 3)))))).
      { eapply cnear_weak; [apply (cnear_add 2 41 2 41); eauto; nm|lra|lra]. }
      assert (S4 : cnear 4 87 (dgsub (dgmul (x 1%Z) (zn dz tw (v * fs))) (dgmul (x 3%Z) (zn dz tw (v * (fs * 3)))))
                     (csub (cmul (xr 1%Z) (zn c0 twr (v * fs))) (cmul (xr 3%Z) (zn c0 twr (v * (fs * 3)))))).
      { eapply cnear_weak; [apply (cnear_sub 2 41 2 41); eauto; nm|lra|lra]. }
      change (gmul Rplus Rminus Rmult) with cmul. change (gadd Rplus) with cadd. change (gsub Rminus) with csub.
      fold dz in *. change (gz d0) with dz. change (gz 0) with c0.
      set (s5 := dgsub _ _) in *. set (s5r := csub (xr 0%Z) _) in *.
      set (a := dgadd (x 0%Z) _) in *. set (ar := cadd (xr 0%Z) _) in *.
      set (s3 := dgadd (dgmul _ _) _) in *. set (s3r := cadd (cmul _ _) _) in *.
      set (s4 := dgsub (dgmul _ _) _) in *. set (s4r := csub (cmul _ _) _) in *.
      destruct S5 as [S5a S5b]. destruct S4 as [S4a S4b].
      assert (UP : cnear 7 448 (dadd (fst s5) (snd s4), dsub (snd s5) (fst s4)) (fst s5r + snd s4r, snd s5r - fst s4r)).
      { split; cbn [fst snd].
        - eapply near_weak; [apply (near_add 3 45 4 87); eauto; nm|lra|lra].
        - eapply near_weak; [apply (near_sub 3 45 4 87); eauto; nm|lra|lra]. }
      assert (DN : cnear 7 448 (dsub (fst s5) (snd s4), dadd (snd s5) (fst s4)) (fst s5r - snd s4r, snd s5r + fst s4r)).
      { split; cbn [fst snd].
        - eapply near_weak; [apply (near_sub 3 45 4 87); eauto; nm|lra|lra].
        - eapply near_weak; [apply (near_add 3 45 4 87); eauto; nm|lra|lra]. }
      destruct (q1 =? 0)%Z; [eapply cnear_weak; [apply (cnear_add 3 45 4 87); eauto; nm|lra|lra]|].
      destruct (q1 =? 2)%Z; [eapply cnear_weak; [apply (cnear_sub 3 45 4 87); eauto; nm|lra|lra]|].
      destruct (q1 =? 1)%Z; destruct inv; auto.
    Qed.

    Lemma kern3_near q1 : (fs * 3 * m = N)%Z -> (forall q, (0 <= q < 3)%Z -> cnear 1 0 (x q) (xr q)) ->
      cnear 7 252 (dkern 3 fs m v q1 x) (rkern 3 fs m v q1 (fun q => xr q)).
    Proof.
      intros HN Hx. change (cnear 7 252 (kern3 d0 dhalf dadd dsub dmul tw fs m v q1 x) (kern3 0 0.5 Rplus Rminus Rmult twr fs m v q1 (fun q => xr q))).
      unfold kern3. pose proof (Hx 0%Z ltac:(lia)) as X0.
      pose proof (cnear_mul _ _ _ _ (Hx 1%Z ltac:(lia)) (Htw (v * fs)%Z ltac:(nia))) as T1.
      pose proof (cnear_mul _ _ _ _ (Hx 2%Z ltac:(lia)) (Htw (v * (fs * 2))%Z ltac:(nia))) as T2.
      pose proof (Htw (fs * m)%Z ltac:(nia)) as [_ Y].
      cbv zeta.
      change (gmul Rplus Rminus Rmult) with cmul. change (gadd Rplus) with cadd. change (gsub Rminus) with csub.
      change (gz d0) with dz. change (gz 0) with c0.
      set (s1 := dgmul (x 1%Z) _) in *. set (s1r := cmul (xr 1%Z) _) in *.
      set (s2 := dgmul (x 2%Z) _) in *. set (s2r := cmul (xr 2%Z) _) in *.
      assert (S3 : cnear 4 87 (dgadd s1 s2) (cadd s1r s2r)) by (eapply cnear_weak; [apply (cnear_add 2 41 2 41); eauto; nm|lra|lra]).
      assert (S0 : cnear 4 87 (dgsub s1 s2) (csub s1r s2r)) by (eapply cnear_weak; [apply (cnear_sub 2 41 2 41); eauto; nm|lra|lra]).
      set (s3 := dgadd s1 s2) in *. set (s3r := cadd s1r s2r) in *. set (s0 := dgsub s1 s2) in *. set (s0r := csub s1r s2r) in *.
      set (y := snd (zn dz tw (fs * m))) in *. set (yr := snd (zn c0 twr (fs * m))) in *.
      destruct X0 as [X0a X0b]. destruct S3 as [S3a S3b]. destruct S0 as [S0a S0b].
      assert (H : forall b c, near 4 87 b c -> near 2 46 (dmul b dhalf) (c * 0.5)).
      { intros b c Hb. eapply near_weak; [apply (near_half 4 87); eauto; nm|lra|lra]. }
      assert (FM : forall b c d e, near 1 0 b c -> near 4 87 d e -> near 3 50 (dsub b (dmul d dhalf)) (c - e * 0.5)).
      { intros b c d e Hb Hd. eapply near_weak; [apply (near_sub 1 0 2 46); eauto; nm|lra|lra]. }
      assert (YM : forall b c, near 4 87 b c -> near 4 163 (dmul b y) (c * yr)).
      { intros b c Hb. eapply near_weak; [apply (near_tw 4 87); eauto; nm|lra|lra]. }
      assert (AD : forall b c d e, near 3 50 b c -> near 4 163 d e -> near 7 252 (dadd b d) (c + e)).
      { intros b c d e Hb Hd. eapply near_weak; [apply (near_add 3 50 4 163); eauto; nm|lra|lra]. }
      assert (SD : forall b c d e, near 3 50 b c -> near 4 163 d e -> near 7 252 (dsub b d) (c - e)).
      { intros b c d e Hb Hd. eapply near_weak; [apply (near_sub 3 50 4 163); eauto; nm|lra|lra]. }
      destruct (q1 =? 0)%Z; [eapply cnear_weak; [apply (cnear_add 1 0 4 87); [split|split| |]; eauto; nm|lra|lra]|].
      destruct (q1 =? 2)%Z; split; cbn [fst snd]; eauto.
    Qed.

    Lemma kern5_near q1 : (fs * 5 * m = N)%Z -> (forall q, (0 <= q < 5)%Z -> cnear 1 0 (x q) (xr q)) ->
      cnear 17 700 (dkern 5 fs m v q1 x) (rkern 5 fs m v q1 (fun q => xr q)).
    Proof.
      intros HN Hx. change (cnear 17 700 (kern5 d0 dadd dsub dmul dopp tw fs m v q1 x) (kern5 0 Rplus Rminus Rmult Ropp twr fs m v q1 (fun q => xr q))).
      unfold kern5. pose proof (Hx 0%Z ltac:(lia)) as X0.
      pose proof (cnear_mul _ _ _ _ (Hx 1%Z ltac:(lia)) (Htw (v * fs)%Z ltac:(nia))) as T1.
      pose proof (cnear_mul _ _ _ _ (Hx 2%Z ltac:(lia)) (Htw (2 * v * fs)%Z ltac:(nia))) as T2.
      pose proof (cnear_mul _ _ _ _ (Hx 3%Z ltac:(lia)) (Htw (3 * v * fs)%Z ltac:(nia))) as T3.
      pose proof (cnear_mul _ _ _ _ (Hx 4%Z ltac:(lia)) (Htw (4 * v * fs)%Z ltac:(nia))) as T4.
      pose proof (Htw (fs * m)%Z ltac:(nia)) as [Yar Yai]. pose proof (Htw (fs * 2 * m)%Z ltac:(nia)) as [Ybr Ybi].
      cbv zeta.
      change (gmul Rplus Rminus Rmult) with cmul. change (gadd Rplus) with cadd. change (gsub Rminus) with csub.
      change (gz d0) with dz. change (gz 0) with c0.
      set (s1 := dgmul (x 1%Z) _) in *. set (s1r := cmul (xr 1%Z) _) in *.
      set (s2 := dgmul (x 2%Z) _) in *. set (s2r := cmul (xr 2%Z) _) in *.
      set (s3 := dgmul (x 3%Z) _) in *. set (s3r := cmul (xr 3%Z) _) in *.
      set (s4 := dgmul (x 4%Z) _) in *. set (s4r := cmul (xr 4%Z) _) in *.
      set (ya := zn dz tw (fs * m)) in *. set (yar := zn c0 twr (fs * m)) in *.
      set (yb := zn dz tw (fs * 2 * m)) in *. set (ybr := zn c0 twr (fs * 2 * m)) in *.
      assert (S7 : cnear 4 87 (dgadd s1 s4) (cadd s1r s4r)) by (eapply cnear_weak; [apply (cnear_add 2 41 2 41); eauto; nm|lra|lra]).
      assert (S10 : cnear 4 87 (dgsub s1 s4) (csub s1r s4r)) by (eapply cnear_weak; [apply (cnear_sub 2 41 2 41); eauto; nm|lra|lra]).
      assert (S8 : cnear 4 87 (dgadd s2 s3) (cadd s2r s3r)) by (eapply cnear_weak; [apply (cnear_add 2 41 2 41); eauto; nm|lra|lra]).
      assert (S9 : cnear 4 87 (dgsub s2 s3) (csub s2r s3r)) by (eapply cnear_weak; [apply (cnear_sub 2 41 2 41); eauto; nm|lra|lra]).
      set (s7 := dgadd s1 s4) in *. set (s7r := cadd s1r s4r) in *. set (s10 := dgsub s1 s4) in *. set (s10r := csub s1r s4r) in *.
      set (s8 := dgadd s2 s3) in *. set (s8r := cadd s2r s3r) in *. set (s9 := dgsub s2 s3) in *. set (s9r := csub s2r s3r) in *.
      destruct X0 as [X0a X0b]. destruct S7 as [S7a S7b]. destruct S8 as [S8a S8b]. destruct S9 as [S9a S9b]. destruct S10 as [S10a S10b].
      assert (YM : forall b c y yr, near 4 87 b c -> tnear y yr -> near 4 163 (dmul b y) (c * yr)).
      { intros b c y yr Hb Hy. eapply near_weak; [apply (near_tw 4 87); eauto; nm|lra|lra]. }
      assert (A1 : forall b c d e, near 1 0 b c -> near 4 163 d e -> near 5 (1681 / 10) (dadd b d) (c + e)).
      { intros b c d e Hb Hd. eapply near_weak; [apply (near_add 1 0 4 163); eauto; nm|lra|lra]. }
      assert (A2 : forall b c d e, near 5 (1681 / 10) b c -> near 4 163 d e -> near 9 (3403 / 10) (dadd b d) (c + e)).
      { intros b c d e Hb Hd. eapply near_weak; [apply (near_add 5 (1681 / 10) 4 163); eauto; nm|lra|lra]. }
      assert (A3 : forall b c d e, near 4 163 b c -> near 4 163 d e -> near 8 (3342 / 10) (dadd b d) (c + e)).
      { intros b c d e Hb Hd. eapply near_weak; [apply (near_add 4 163 4 163); eauto; nm|lra|lra]. }
      assert (A4 : forall b c d e, near 4 163 b c -> near 4 163 d e -> near 8 (3342 / 10) (dsub b d) (c - e)).
      { intros b c d e Hb Hd. eapply near_weak; [apply (near_sub 4 163 4 163); eauto; nm|lra|lra]. }
      assert (A5 : forall b c, near 4 163 b c -> near 4 163 (dopp b) (- c)) by (intros; now apply near_opp).
      assert (A6 : forall b c d e, near 9 (3403 / 10) b c -> near 8 (3342 / 10) d e -> near 17 700 (dadd b d) (c + e)).
      { intros b c d e Hb Hd. eapply near_weak; [apply (near_add 9 (3403 / 10) 8 (3342 / 10)); eauto; nm|lra|lra]. }
      assert (A7 : forall b c d e, near 9 (3403 / 10) b c -> near 8 (3342 / 10) d e -> near 17 700 (dsub b d) (c - e)).
      { intros b c d e Hb Hd. eapply near_weak; [apply (near_sub 9 (3403 / 10) 8 (3342 / 10)); eauto; nm|lra|lra]. }
      assert (A8 : forall b c d e f g, near 1 0 b c -> near 4 87 d e -> near 4 87 f g -> near 17 700 (dadd b (dadd d f)) (c + (e + g))).
      { intros b c d e f g Hb Hd Hf. assert (Q : near 8 183 (dadd d f) (e + g)) by (eapply near_weak; [apply (near_add 4 87 4 87); eauto; nm|lra|lra]).
        eapply near_weak; [apply (near_add 1 0 8 183); eauto; nm|lra|lra]. }
      destruct (q1 =? 0)%Z; [split; cbn [fst snd]; apply A8; auto|].
      destruct (q1 =? 1)%Z; [split; cbn [gsub csub fst snd]; apply A7; auto 10|].
      destruct (q1 =? 4)%Z; [split; cbn [gadd cadd fst snd]; apply A6; auto 10|].
      destruct (q1 =? 2)%Z; [split; cbn [gadd cadd fst snd]; apply A6; auto 10|].
      split; cbn [gsub csub fst snd]; apply A7; auto 10.
    Qed.

    Lemma fold_near a n : (0 < N)%Z -> INR n <= 1073741824 -> (forall q, (0 <= q <= Z.of_nat n)%Z -> cnear 1 0 (x q) (xr q)) ->
      cnear (1 + 2 * INR n) (44 * INR n + 102 / 100 * (INR n * INR n)) (gfold d0 dadd dsub dmul N tw a n x)
        (gfold 0 Rplus Rminus Rmult N twr a n (fun q => xr q)).
    Proof.
      intros HN. induction n as [|n IH]; intros Hn Hx.
      - cbn [gfold INR]. eapply cnear_weak; [apply Hx; cbn; lia|lra|lra].
      - cbn [gfold]. pose proof (Hx (Z.of_nat (S n)) ltac:(lia)) as X1.
        pose proof (cnear_mul _ _ _ _ X1 (Htw ((Z.of_nat (S n) * a) mod N)%Z (Z.mod_pos_bound _ _ HN))) as M.
        rewrite S_INR in *. pose proof (pos_INR n) as P. specialize (IH ltac:(lra)).
        assert (IH' : cnear (1 + 2 * INR n) (44 * INR n + 102 / 100 * (INR n * INR n)) (gfold d0 dadd dsub dmul N tw a n x)
          (gfold 0 Rplus Rminus Rmult N twr a n (fun q => xr q))) by (apply IH; intros; apply Hx; lia).
        eapply cnear_weak; [apply (cnear_add (1 + 2 * INR n) (44 * INR n + 102 / 100 * (INR n * INR n)) 2 41); [exact IH'|exact M|lra|]|lra|nra].
        rewrite uro_val. assert (INR n * INR n <= 1073741824 * INR n) by (apply Rmult_le_compat_r; lra). lra.
    Qed.

    Lemma kern_near p q1 : (1 <= p <= 1073741824)%Z -> (fs * p * m = N)%Z -> (forall q, (0 <= q < p)%Z -> cnear 1 0 (x q) (xr q)) ->
      cnear (17 + 2 * IZR p) (28 * (IZR p * IZR p)) (dkern p fs m v q1 x) (rkern p fs m v q1 (fun q => xr q)).
    Proof.
      intros Hp HN Hx. assert (HN0 : (0 < N)%Z) by nia.
      destruct (Z.eq_dec p 2) as [->|N2]; [eapply cnear_weak; [apply kern2_near; auto|lra|lra]|].
      destruct (Z.eq_dec p 3) as [->|N3]; [eapply cnear_weak; [apply kern3_near; auto|lra|lra]|].
      destruct (Z.eq_dec p 4) as [->|N4]; [eapply cnear_weak; [apply kern4_near; auto|lra|lra]|].
      destruct (Z.eq_dec p 5) as [->|N5]; [eapply cnear_weak; [apply kern5_near; auto|lra|lra]|].
      unfold kern. destruct (Z.eqb_spec p 2); [lia|]. destruct (Z.eqb_spec p 3); [lia|].
      destruct (Z.eqb_spec p 4); [lia|]. destruct (Z.eqb_spec p 5); [lia|].
      assert (I : INR (Z.to_nat (p - 1)) = IZR p - 1) by (rewrite INR_IZR_INZ, Z2Nat.id, minus_IZR by lia; reflexivity).
      assert (P1 : 1 <= IZR p <= 1073741824) by (split; apply IZR_le; lia).
      eapply cnear_weak; [apply fold_near; auto| |].
      - rewrite I. lra.
      - intros q Hq. apply Hx. lia.
      - rewrite I. lra.
      - rewrite I. nra.
    Qed.
  End Kernels.
End Near.
